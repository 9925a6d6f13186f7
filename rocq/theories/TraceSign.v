(* The stores that signing makes to the caller's buffer. *)
From Coq Require Import ZArith Lia Bool List Arith.
From Coq Require Import ZifyBool ZifyNat.
From Verif Require Import ModelBase ModelU128 ModelField ModelUtils ModelPoly ModelVec ModelSerial ModelScheme ModelTrace.
From Verif Require Import Spec SpecScheme SpecSig SpecVerify SpecTrace.
From Verif Require Import Words FieldProofs ArithLemmas BytesProofs PolyProofs PackProofs SkeyProofs SigEnc TraceProofs.
From Verif Require Import NttLayers NttProofs Cong NttEval NttBounds MaskedProofs LinProofs PolyLemmas MaskedLemmas ParamProofs KeyLemmas SampleProofs SampleLemmas FinProofs SchemeCore SigLemmas VerifyProofs SignProofs.
Import ListNotations.
Open Scope Z_scope.
Ltac Zify.zify_post_hook ::= idtac.

(* ---------- forgetting the stores ---------- *)
Lemma sign_loop_step O wfuel fuel P A t mu s prng m sig :
  sign_loop O wfuel (Datatypes.S fuel) P A t mu s prng m sig =
  ('(sg, s, prng, m) <- sign_try O wfuel P A t mu s prng m ;;
   '(is_encoded, sig) <- sig_to_bytes sg sig ;;
   if negb is_encoded then sign_loop O wfuel fuel P A t mu s prng m sig
   else
     is_under_bounds <- check_bounds (p_nuw P) (p_Binf P) (p_B22 P) sg ;;
     if negb is_under_bounds then sign_loop O wfuel fuel P A t mu s prng m sig else Ok sig).
Proof.
  cbn [sign_loop]. unfold sign_try.
  repeat (match goal with |- bind ?t _ = _ => destruct t as [[[? ?] ?]| |] || destruct t as [[? ?]| |] || destruct t as [?| |] end; [|reflexivity|reflexivity]; cbn [bind]; cbv zeta).
  all: reflexivity.
Qed.
Lemma sign_loop_drop O wfuel P A t mu : forall fuel s prng m sig,
  snd (sign_loop_tr O wfuel fuel P A t mu s prng m sig) = sign_loop O wfuel fuel P A t mu s prng m sig.
Proof.
  induction fuel as [|fuel IH]; intros s prng m sig; [reflexivity|]. rewrite sign_loop_step. cbn [sign_loop_tr].
  destruct (sign_try O wfuel P A t mu s prng m) as [[[[sg s'] prng'] m']| |]; [|reflexivity|reflexivity]. cbn [bind]. unfold sig_to_bytes.
  rewrite <- (encode_drop (sg_c sg) (sg_h sg) (sg_z sg) sig). unfold drop.
  destruct (encode_sig_log _ _ _ sig) as [[[ok sig'] lg]| |]; [|reflexivity|reflexivity]. cbn [bind]. destruct ok; cbn [negb].
  - destruct (check_bounds _ _ _ sg) as [b| |]; [|reflexivity|reflexivity]. cbn [bind]. destruct b; cbn [negb]; [reflexivity|].
    rewrite <- IH. destruct (sign_loop_tr O wfuel fuel P A t mu s' prng' m' sig') as [lgs r]. reflexivity.
  - rewrite <- IH. destruct (sign_loop_tr O wfuel fuel P A t mu s' prng' m' sig') as [lgs r]. reflexivity.
Qed.
Lemma sign_drop O fuel P sk msg sig tp : snd (sk_sign_tr O fuel P sk msg sig tp) = sk_sign O fuel P sk msg sig tp.
Proof.
  unfold sk_sign_tr, sk_sign. cbv zeta. destruct (bind_msg O P (sk_pkey sk) msg) as [mu| |]; [|reflexivity|reflexivity]. cbn [bind].
  destruct (expandA O fuel (p_k P) (p_l P) (pk_seed (sk_pkey sk))) as [A| |]; [|reflexivity|reflexivity]. cbn [bind]. apply sign_loop_drop.
Qed.

(* ---------- replaying several passes ---------- *)
Lemma replay_length lg : forall buf : list Z, length (replay lg buf) = length buf.
Proof.
  induction lg as [|e lg IH]; intros buf; [reflexivity|]. unfold replay. cbn [fold_left]. fold (replay lg (set_nth buf (Z.to_nat (fst e)) (snd e))). rewrite IH.
  generalize (Z.to_nat (fst e)) as i. generalize (snd e) as v. clear. intros v. induction buf as [|x buf IH]; intros [|i]; cbn [set_nth length]; try reflexivity. rewrite IH. reflexivity.
Qed.
(* a crash after m stores falls into some pass *)
Lemma crash_split (buf : list Z) : forall (logs : list (list (Z * Z))) b, length b = length buf ->
  (forall i lg, nth_error logs i = Some lg -> in_order lg /\ (length lg <= length buf)%nat) ->
  forall m, exists i j, (j <= length (nth i logs []))%nat /\
    replay (firstn m (concat logs)) b = firstn j (map snd (nth i logs [])) ++ skipn j (replay (concat (firstn i logs)) b).
Proof.
  induction logs as [|lg logs IH]; intros b Lb H m.
  - exists 0%nat, 0%nat. split; [apply Nat.le_0_l|]. cbn [concat]. rewrite !firstn_nil. reflexivity.
  - destruct (H 0%nat lg eq_refl) as [O1 L1]. destruct (le_lt_dec m (length lg)) as [D|D].
    + exists 0%nat, m. split; [exact D|]. cbn [concat firstn nth]. rewrite firstn_app. replace (m - length lg)%nat with 0%nat by lia. cbn [firstn]. rewrite app_nil_r.
      rewrite replay_in_order; [|apply in_order_firstn; exact O1|rewrite firstn_length; lia]. rewrite firstn_map, firstn_length, Nat.min_l by exact D. reflexivity.
    + destruct (IH (replay lg b)) with (m := (m - length lg)%nat) as (i & j & J & E).
      * rewrite replay_length. exact Lb.
      * intros i lg' E. exact (H (Datatypes.S i) lg' E).
      * exists (Datatypes.S i), j. split; [exact J|]. cbn [concat firstn nth]. rewrite firstn_app, firstn_all2 by lia. rewrite !replay_app. exact E.
Qed.

Section Sign.
Variables (O : oracles) (wfuel : nat) (P : params) (A : pmat) (t : pvec) (mu : list Z) (tp : nat -> byte) (s0 : list (list Z)).
Hypothesis HP : params_ok P = true.
Hypothesis HA : mat_ok (p_k P) (p_l P) A.
Hypothesis Ht : public_vec (p_k P) t.
Let Ar := ring_mat (p_k P) (p_l P) A.
Let sr := map intt s0.
Let att := sign_attempt (hash_of O) (tape_of tp) (row_of P) Ar (rows1 t) sr mu.
Let step := ((p_l P + p_k P) * row_bytes (row_of P))%nat.
Lemma sign_try_ok n s m : pv_w (p_l P) (p_d P) s -> map unmask s = s0 ->
  match sign_try O wfuel P A (pv_ntt (pv_shl (p_nut P) t)) mu s (Prng tp (n * step)) m with
  | Ok (sg, s', prng', m') => prng' = Prng tp (Datatypes.S n * step) /\ pv_w (p_l P) (p_d P) s' /\ map unmask s' = s0 /\
      exists cp, att n (sg_c sg) cp (sg_h sg) (sg_z sg) /\ length (sg_c sg) = kbytes (2 * p_kappa P) /\ Forall is_byte (sg_c sg)
  | UB => False
  | OutOfFuel => True
  end.
Proof.
  intros Hs Es.
  pose proof (sign_iter O wfuel P A t mu tp s0 HP HA Ht (fun sg s prng m => Ok (sg, s, prng, m))
    (fun r => let '(sg, s', prng', m') := r in prng' = Prng tp (Datatypes.S n * step) /\ pv_w (p_l P) (p_d P) s' /\ map unmask s' = s0 /\
      exists cp, att n (sg_c sg) cp (sg_h sg) (sg_z sg) /\ length (sg_c sg) = kbytes (2 * p_kappa P) /\ Forall is_byte (sg_c sg))
    False True False s n m) as G.
  specialize (G ltac:(intros []) ltac:(intros []) Hs Es ltac:(right; exact Logic.I) ltac:(intros [])).
  refine (_ (G _)).
  - intros X. unfold sign_try. exact X.
  - intros sg s' m' c cp (Ec & AT & _ & _ & Lc & Bc & _) _ Hs' Es' _. cbn [wpx]. split; [reflexivity|]. split; [exact Hs'|]. split; [exact Es'|]. exists cp. subst c. split; [exact AT|]. split; assumption.
Qed.
(* the stores of pass i write the beginning of the encoding of attempt i *)
Definition pass_ok (len i : nat) (lg : list (Z * Z)) : Prop :=
  exists c cp h z, att i c cp h z /\ in_order lg /\ (length lg <= len)%nat /\ begins_encoding c h z (map snd lg).
Lemma sign_loop_stores : forall fuel n s m buf, pv_w (p_l P) (p_d P) s -> map unmask s = s0 -> zlen buf = p_siglen P ->
  let '(logs, r) := sign_loop_tr O wfuel fuel P A (pv_ntt (pv_shl (p_nut P) t)) mu s (Prng tp (n * step)) m buf in
  (forall i lg, nth_error logs i = Some lg -> pass_ok (length buf) (n + i) lg) /\
  (forall sig, r = Ok sig -> sig = replay (concat logs) buf /\ exists logs' lg, logs = logs' ++ [lg] /\ length lg = length buf /\ sig = map snd lg).
Proof.
  destruct (sig_len_cl P HP) as [Hcl Ekb].
  induction fuel as [|fuel IH]; intros n s m buf Hs Es Lb.
  - cbn [sign_loop_tr]. split; [intros [|i] lg E; discriminate E|intros sig E; discriminate E].
  - cbn [sign_loop_tr]. pose proof (sign_try_ok n s m Hs Es) as T.
    destruct (sign_try O wfuel P A _ mu s _ m) as [[[[sg s'] prng'] m']| |]; [|destruct T|].
    2:{ split; [intros [|i] lg E; discriminate E|intros sig E; discriminate E]. }
    destruct T as (-> & Hs' & Es' & cp & AT & Lc & Bc).
    destruct (encode_sig_log (sg_c sg) (sg_h sg) (sg_z sg) buf) as [[[ok out] lg]| |] eqn:EE.
    2,3: (split; [intros [|i] lg E; discriminate E|intros sig E; discriminate E]).
    assert (Hc : zlen (sg_c sg) <= zlen buf) by (unfold zlen at 1; rewrite Lc, Ekb, Lb; exact (proj2 Hcl) || lia).
    destruct (encode_log _ _ _ _ _ _ _ Bc Hc EE) as ((O1 & O2 & O3) & BE & FULL).
    assert (P0 : pass_ok (length buf) n lg) by (exists (sg_c sg), cp, (sg_h sg), (sg_z sg); split; [exact AT|split; [exact O1|split; assumption]]).
    assert (RP : replay lg buf = out) by (rewrite replay_in_order by assumption; symmetry; exact O3).
    assert (LO : length out = length buf) by (rewrite <- RP; apply replay_length).
    assert (AGAIN : let '(logs, r) := (let '(lgs, r) := sign_loop_tr O wfuel fuel P A (pv_ntt (pv_shl (p_nut P) t)) mu s' (Prng tp (Datatypes.S n * step)) m' out in (lg :: lgs, r)) in
      (forall i lg, nth_error logs i = Some lg -> pass_ok (length buf) (n + i) lg) /\
      (forall sig, r = Ok sig -> sig = replay (concat logs) buf /\ exists logs' lg, logs = logs' ++ [lg] /\ length lg = length buf /\ sig = map snd lg)).
    { assert (LZ : zlen out = p_siglen P) by (unfold zlen in *; rewrite LO; exact Lb).
      specialize (IH (Datatypes.S n) s' m' out Hs' Es' LZ). destruct (sign_loop_tr O wfuel fuel P A _ mu s' _ m' out) as [lgs r]. rewrite LO in IH. destruct IH as [I1 I2]. split.
      - intros [|i] lg' E; cbn [nth_error] in E.
        + assert (lg = lg') by congruence. subst lg'. rewrite Nat.add_0_r. exact P0.
        + rewrite <- plus_n_Sm. exact (I1 i lg' E).
      - intros sig E. destruct (I2 sig E) as (E1 & logs' & lg' & E2 & E3 & E4). split.
        + cbn [concat]. rewrite replay_app, RP. exact E1.
        + exists (lg :: logs'), lg'. rewrite E2. split; [reflexivity|]. split; assumption. }
    assert (ONE : forall r : res (list Z), r = UB \/ r = OutOfFuel \/ (r = Ok out /\ length lg = length buf) ->
      (forall i lg', nth_error [lg] i = Some lg' -> pass_ok (length buf) (n + i) lg') /\
      (forall sig, r = Ok sig -> sig = replay (concat [lg]) buf /\ exists logs' lg', [lg] = logs' ++ [lg'] /\ length lg' = length buf /\ sig = map snd lg')).
    { intros r C. split.
      - intros [|[|i]] lg' E; cbn [nth_error] in E; [|discriminate E|discriminate E]. assert (lg = lg') by congruence. subst lg'. rewrite Nat.add_0_r. exact P0.
      - intros sig E. destruct C as [C|[C|[C LF]]]; [congruence|congruence|]. assert (sig = out) by congruence. subst sig.
        cbn [concat]. rewrite app_nil_r. split; [symmetry; exact RP|]. exists [], lg. split; [reflexivity|]. split; [exact LF|].
        rewrite O3, LF, skipn_all, app_nil_r. reflexivity. }
    destruct ok; cbn [negb]; [|exact AGAIN].
    destruct (check_bounds _ _ _ sg) as [b| |].
    + destruct b; cbn [negb]; [|exact AGAIN]. apply ONE. right. right. split; [reflexivity|exact (FULL eq_refl)].
    + apply ONE. left. reflexivity.
    + apply ONE. right. left. reflexivity.
Qed.
End Sign.
Lemma sign_stores O fuel P sk msg buf tp A pkb s logs r : params_ok P = true ->
  valid_public (Z.to_nat (p_kappa P / 8)) (p_k P) (pk_seed (sk_pkey sk)) (pk_t (sk_pkey sk)) ->
  masked_vec49 (p_l P) (p_d P) (sk_s sk) -> zlen buf = p_siglen P ->
  public_matrix (hash_of O) (pk_seed (sk_pkey sk)) (p_k P) (p_l P) A ->
  public_key_code (pk_seed (sk_pkey sk)) (pk_t (sk_pkey sk)) pkb ->
  Forall is_poly s -> map transform s = map unmask (sk_s sk) ->
  sk_sign_tr O fuel P sk msg buf tp = (logs, r) ->
  (forall i lg, nth_error logs i = Some lg -> exists c cp h z,
     sign_attempt (hash_of O) (tape_of tp) (row_of P) A (rows1 (pk_t (sk_pkey sk))) s
       (bound_message (hash_of O) (Z.to_nat (2 * p_kappa P / 8)) pkb msg) i c cp h z /\
     in_order lg /\ (length lg <= length buf)%nat /\ begins_encoding c h z (map snd lg)) /\
  (forall sig, r = Ok sig -> sig = replay (concat logs) buf /\ exists logs' lg, logs = logs' ++ [lg] /\ length lg = length buf /\ sig = map snd lg).
Proof.
  intros HP V Hs Lb PM CP Fs Es E. destruct (params_facts P HP) as (kb & e & F). pose proof (pf_k _ _ _ F) as Hk. pose proof (pf_l _ _ _ F) as Hl.
  destruct (bind_msg_ok O P (sk_pkey sk) msg HP V) as (pkb' & Cpk & _ & _ & Ebm). rewrite (public_key_code_unique _ _ _ _ Cpk CP) in Ebm.
  unfold sk_sign_tr in E. cbv zeta in E. rewrite Ebm in E.
  pose proof (expandA_ok O fuel (p_k P) (p_l P) (pk_seed (sk_pkey sk)) ltac:(lia) ltac:(lia)) as XA.
  destruct (expandA O fuel (p_k P) (p_l P) (pk_seed (sk_pkey sk))) as [A'| |]; [|destruct XA|].
  2:{ assert (logs = []) by congruence. assert (r = OutOfFuel) by congruence. subst logs r. split; [intros [|i] lg X; discriminate X|intros sig X; discriminate X]. }
  cbn [wp] in XA. destruct XA as [LA UA].
  destruct (ring_mat_public O (pk_seed (sk_pkey sk)) (p_k P) (p_l P) A' LA UA) as [HA PM'].
  assert (Es0 : map intt (map unmask (sk_s sk)) = s).
  { rewrite <- Es, map_map. apply map_id_in. intros p Hp. rewrite Forall_forall in Fs. rewrite transform_ntt by apply Fs, Hp. apply intt_ntt, Fs, Hp. }
  pose proof (sign_loop_stores O fuel P A' (pk_t (sk_pkey sk)) (bound_message (hash_of O) (kbytes (2 * p_kappa P)) pkb msg) tp (map unmask (sk_s sk)) HP HA (proj2 (proj2 V)) fuel 0 (sk_s sk) (mrng_new O (p_d P)) buf Hs eq_refl Lb) as G.
  cbn [Nat.mul] in G. change (Prng tp 0) with (prng_new tp) in G. rewrite E in G. unfold pass_ok in G. rewrite Es0, <- (public_matrix_fun _ _ _ _ _ _ PM PM') in G. exact G.
Qed.
