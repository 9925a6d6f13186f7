(* Property theorems about saving a key and the points at which the save can be interrupted:
   serialization.hpp:10-59 and 100-158, public_key.hpp:135, secret_key.hpp:211-236. *)
From Coq Require Import ZArith List Bool Lia.
From Verif Require Import ModelBase ModelU128 ModelField ModelUtils ModelPoly ModelVec ModelSerial ModelScheme ModelTrace ModelSaveTrace.
From Verif Require Import Spec SpecScheme SpecHash SpecTrace.
From Verif Require Import FieldProofs Cong ArithLemmas PolyProofs MaskedProofs ParamProofs MaskedLemmas KeyLemmas TraceProofs SaveTraceProofs SaveLemmas FinProofs SignVerify HistoryProofs ExOracle ExGood KeyExamples.
Import ListNotations.
Open Scope Z_scope.
Ltac Zify.zify_post_hook ::= idtac.

(* C78, the traced functions are to_bytes: forgetting the log of stores gives the bytes returned. *)
Theorem C78_log_faithful :
  (forall P pk buf, snd (pk_to_bytes_log P pk buf) = pk_to_bytes P pk buf) /\
  (forall O fuel P sk buf p, snd (sk_to_bytes_log O fuel P sk buf p) = sk_to_bytes O fuel P sk buf p).
Proof. split; [exact pk_to_bytes_forget|exact sk_to_bytes_forget]. Qed.
Print Assumptions C78_log_faithful.

(* C78: saving a public key stores each byte of the destination once, in ascending order, nothing else. *)
Theorem C78_public_stores : forall P pk buf, params_ok P = true ->
  valid_public (Z.to_nat (p_kappa P / 8)) (p_k P) (pk_seed pk) (pk_t pk) -> zlen buf = pk_byte_len P ->
  exists lg bytes, pk_to_bytes_log P pk buf = (lg, Ok bytes) /\ in_order lg /\ map snd lg = bytes /\ length lg = length buf /\
    public_key_code (pk_seed pk) (pk_t pk) bytes /\
    forall m, (m <= length lg)%nat -> replay (firstn m lg) buf = firstn m bytes ++ skipn m buf.
Proof.
  intros P pk buf HP Vp Lb. destruct (pk_save_ok P pk buf HP Vp Lb) as (lg & bytes & E & L & LL & EV & C & _).
  exists lg, bytes. split; [exact E|]. split; [apply L|]. split; [exact EV|]. split; [exact LL|]. split; [exact C|].
  intros m Hm. rewrite replay_prefix; [rewrite EV; reflexivity|apply L|apply L|exact Hm].
Qed.
Print Assumptions C78_public_stores.

(* C78: saving a secret key, also one that is still sampling: the stores go to the indices 0, 1, 2, ... each
   once, so after m stores the buffer holds m new bytes and the old rest; once it returns the stored bytes are the
   bytes returned; before that they are at most the public key and the mask seeds. *)
Theorem C78_secret_stores : forall O fuel P sk buf tp pos lg r, params_ok P = true ->
  valid_public (Z.to_nat (p_kappa P / 8)) (p_k P) (pk_seed (sk_pkey sk)) (pk_t (sk_pkey sk)) ->
  secret_vec (p_l P) (p_d P) (sk_s sk) -> zlen buf = sk_byte_len P ->
  sk_to_bytes_log O fuel P sk buf (Prng tp pos) = (lg, r) ->
  r <> UB /\ in_order lg /\ (length lg <= length buf)%nat /\
  (forall m, (m <= length lg)%nat -> replay (firstn m lg) buf = firstn m (map snd lg) ++ skipn m buf) /\
  (forall bytes p, r = Ok (bytes, p) -> map snd lg = bytes /\ length lg = length buf) /\
  (r = OutOfFuel -> exists pk_bytes i, (i < p_d P)%nat /\
     public_key_code (pk_seed (sk_pkey sk)) (pk_t (sk_pkey sk)) pk_bytes /\
     map snd lg = pk_bytes ++ stream_bytes (tape_of tp) pos (i * Z.to_nat (p_kappa P / 8))).
Proof.
  intros O fuel P sk buf tp pos lg r HP Vp Vs Lb E. pose proof (sk_save_ok O fuel P sk buf tp pos HP Vp Vs Lb) as SV. rewrite E in SV.
  destruct SV as (SO & SL & SR). destruct (params_facts P HP) as (kb & e & F). pose proof (d1 P kb e F) as Hd.
  split; [intros ->; exact SR|]. split; [exact SO|]. split; [exact SL|]. split; [|split].
  - intros m Hm. apply replay_prefix; assumption.
  - intros bytes p ->. split; [exact SR|]. pose proof (sk_to_bytes_forget O fuel P sk buf (Prng tp pos)) as FG. rewrite E in FG. cbn [snd] in FG.
    destruct (sk_roundtrip O fuel P sk buf tp pos HP Vp Vs Lb) as [_ RT]. destruct (RT bytes p (eq_sym FG)) as (LB & _).
    rewrite <- (map_length snd), SR. unfold zlen in *. lia.
  - intros ->. destruct SR as (A & i & Hi & CA & _ & _ & EV). exists A, i. split; [lia|]. split; assumption.
Qed.
Print Assumptions C78_secret_stores.

(* C78: a save interrupted after any number of stores, over any old content: the buffer still has the right
   length, loading it has no undefined behaviour, what loads is a well-formed key, and with one share it
   always loads, so an interrupted save is never reported. *)
Theorem C78_torn_load : forall O O' fuel fuel' P sk buf tp pos lg r m, params_ok P = true ->
  valid_public (Z.to_nat (p_kappa P / 8)) (p_k P) (pk_seed (sk_pkey sk)) (pk_t (sk_pkey sk)) ->
  secret_vec (p_l P) (p_d P) (sk_s sk) -> zlen buf = sk_byte_len P -> Forall is_byte buf ->
  sk_to_bytes_log O fuel P sk buf (Prng tp pos) = (lg, r) -> (m <= length lg)%nat ->
  let torn := replay (firstn m lg) buf in
  Forall is_byte torn /\ zlen torn = sk_byte_len P /\
  sk_from_bytes O' fuel' P torn <> UB /\
  (p_d P = 1%nat -> exists sk', sk_from_bytes O' fuel' P torn = Ok sk') /\
  forall sk', sk_from_bytes O' fuel' P torn = Ok sk' ->
    valid_public (Z.to_nat (p_kappa P / 8)) (p_k P) (pk_seed (sk_pkey sk')) (pk_t (sk_pkey sk')) /\
    secret_vec (p_l P) (p_d P) (sk_s sk').
Proof.
  intros O O' fuel fuel' P sk buf tp pos lg r m HP Vp Vs Lb Bb E Hm torn.
  destruct (torn_buffer_bytes O fuel P sk buf tp pos lg r m HP Vp Vs Lb Bb E Hm) as [BT LT]. fold torn in BT, LT.
  destruct (sk_decode_shape O' fuel' P torn HP BT LT) as (U & D1 & S). split; [exact BT|]. split; [exact LT|]. split; [exact U|]. split; [exact D1|].
  intros sk' E'. destruct (S sk' E') as (V & W & _). split; assumption.
Qed.
Print Assumptions C78_torn_load.

(* C78: the key that an interrupted save loads as also signs: what it signs verifies under the public key it loaded. *)
Theorem C78_torn_signs : forall O O' O'' fuel fuel' fuel'' P sk buf tp pos lg r m sk' msg sig_buf tp' sig, params_ok P = true ->
  valid_public (Z.to_nat (p_kappa P / 8)) (p_k P) (pk_seed (sk_pkey sk)) (pk_t (sk_pkey sk)) ->
  secret_vec (p_l P) (p_d P) (sk_s sk) -> zlen buf = sk_byte_len P -> Forall is_byte buf ->
  sk_to_bytes_log O fuel P sk buf (Prng tp pos) = (lg, r) -> (m <= length lg)%nat ->
  sk_from_bytes O' fuel' P (replay (firstn m lg) buf) = Ok sk' -> zlen sig_buf = p_siglen P ->
  sk_sign O'' fuel'' P sk' msg sig_buf tp' = Ok sig -> verify O'' fuel'' P (sk_pkey sk') msg sig = Ok true.
Proof.
  intros O O' O'' fuel fuel' fuel'' P sk buf tp pos lg r m sk' msg sb tp' sig HP Vp Vs Lb Bb E Hm EL LS ES.
  destruct (C78_torn_load O O' fuel fuel' P sk buf tp pos lg r m HP Vp Vs Lb Bb E Hm) as (_ & _ & _ & _ & W).
  destruct (W sk' EL) as [V' S']. destruct (params_facts P HP) as (kb & e & F). pose proof (d1 P kb e F) as Hd.
  destruct (sign_verifies O'' fuel'' P sk' msg sb tp' sig HP V' (secret_49 _ _ _ Hd S') LS ES) as (_ & _ & _ & VV). exact VV.
Qed.
Print Assumptions C78_torn_signs.

(* C78: saving key sk1 over the saved bytes of key sk0, interrupted after m stores: the loaded key has the public
   key of sk1 once that is written (or if both have the same); its secret polynomials are those of sk1 in the rows
   completely written and those of sk0 in the rows not yet begun.  If both keys have the same public key and the
   same secret (one key before and after masking refresh), every interruption leaves a file that loads as that key. *)
Theorem C78_torn_rows : forall O fuel P sk1 sk0 buf0 tp0 pos0 bytes0 p0 tp pos lg r m sk', params_ok P = true ->
  valid_public (Z.to_nat (p_kappa P / 8)) (p_k P) (pk_seed (sk_pkey sk0)) (pk_t (sk_pkey sk0)) -> masked_vec (p_l P) (p_d P) (sk_s sk0) ->
  valid_public (Z.to_nat (p_kappa P / 8)) (p_k P) (pk_seed (sk_pkey sk1)) (pk_t (sk_pkey sk1)) -> masked_vec (p_l P) (p_d P) (sk_s sk1) ->
  zlen buf0 = sk_byte_len P -> sk_to_bytes O fuel P sk0 buf0 (Prng tp0 pos0) = Ok (bytes0, p0) ->
  sk_to_bytes_log O fuel P sk1 bytes0 (Prng tp pos) = (lg, r) -> (m <= length lg)%nat ->
  sk_from_bytes O fuel P (replay (firstn m lg) bytes0) = Ok sk' ->
  let public_end := Z.to_nat (pk_byte_len P) in
  let seeds_end := Z.to_nat (pk_byte_len P + (Z.of_nat (p_d P) - 1) * (p_kappa P / 8)) in
  let new := map unmask (sk_s sk1) in let old := map unmask (sk_s sk0) in let loaded := map unmask (sk_s sk') in
  ((public_end <= m)%nat -> sk_pkey sk' = sk_pkey sk1) /\
  (sk_pkey sk1 = sk_pkey sk0 -> sk_pkey sk' = sk_pkey sk1) /\
  (forall rows, (rows <= p_l P)%nat -> (seeds_end + 3136 * rows <= m)%nat -> firstn rows loaded = firstn rows new) /\
  (forall rows, (rows <= p_l P)%nat -> (m <= seeds_end + 3136 * rows)%nat -> skipn rows loaded = skipn rows old) /\
  (new = old -> loaded = new).
Proof. exact sk_torn. Qed.
Print Assumptions C78_torn_rows.

(* when the uniform sampler terminates on this hash, every byte string of the right length loads *)
Lemma load_fin O fuel P bytes : good_hash O fuel -> params_ok P = true -> Forall is_byte bytes -> zlen bytes = sk_byte_len P ->
  exists sk, sk_from_bytes O fuel P bytes = Ok sk.
Proof.
  intros G HP B L. destruct (params_facts P HP) as (kb & e & F).
  destruct (sk_from_bytes_ok P kb e F O fuel bytes B L) as (pkb & seeds & pack & xs & Eb & Lpk & _ & _ & _ & _ & X).
  assert (Bp : Forall is_byte pkb) by (rewrite Eb, Forall_app in B; apply B).
  destruct (pk_bytes_roundtrip P pkb HP Bp Lpk) as (pk & Dpk & _). destruct (X pk Dpk) as [_ X2]. eexists. apply X2.
  intros sidx ridx _ _. apply sampleQ_fin. exact G.
Qed.
(* another key, to be overwritten by ex_key2 *)
Definition ex_old : skey := Skey (Pkey (repeat 201 16) (repeat [repeat 90 512] 5)) (repeat [repeat 7 512; repeat 0 512] 4).
Lemma ex_old_masked : masked_vec 4 2 (sk_s ex_old).
Proof.
  split; [reflexivity|]. cbn [ex_old sk_s]. apply Forall_repeat. split; [reflexivity|].
  constructor; [apply const_poly, small_reduced; split; [discriminate|reflexivity]|]. constructor; [|constructor].
  apply const_poly, small_reduced. split; [discriminate|reflexivity].
Qed.
Lemma ex_old_public : valid_public 16 5 (pk_seed (sk_pkey ex_old)) (pk_t (sk_pkey ex_old)).
Proof. cbn [ex_old sk_pkey pk_seed pk_t]. apply const_public; [lia|split; [discriminate|reflexivity]|reflexivity]. Qed.
Lemma ex_old_secret : map unmask (sk_s ex_old) = repeat (repeat 7 512) 4.
Proof.
  assert (E : unmask [repeat 7 512; repeat 0 512] = repeat 7 512).
  { unfold unmask. transitivity (map (fun _ : nat => 7) (seq 0 512)); [|rewrite map_const, seq_length; reflexivity].
    apply map_ext_in. intros k Hk. apply in_seq in Hk. cbn [map fold_right]. unfold coef.
    assert (N : forall x, nth k (repeat x 512) 0 = x) by (intros x; apply (repeat_spec 512 x), nth_In; rewrite repeat_length; lia).
    rewrite !N. apply Z.mod_small. rewrite q_Q, Q_val. lia. }
  cbn [ex_old sk_s]. rewrite map_rep, E. reflexivity.
Qed.
(* a save that replaces one key by another is interrupted just behind the public key: the file loads without an
   error as the new public key with the old secret *)
Theorem C78_torn_mixture : exists O fuel P sk1 sk0 buf0 tp0 bytes0 p0 tp lg bytes1 p1 m sk',
  params_ok P = true /\
  valid_public (Z.to_nat (p_kappa P / 8)) (p_k P) (pk_seed (sk_pkey sk0)) (pk_t (sk_pkey sk0)) /\ masked_vec (p_l P) (p_d P) (sk_s sk0) /\
  valid_public (Z.to_nat (p_kappa P / 8)) (p_k P) (pk_seed (sk_pkey sk1)) (pk_t (sk_pkey sk1)) /\ masked_vec (p_l P) (p_d P) (sk_s sk1) /\
  zlen buf0 = sk_byte_len P /\ sk_to_bytes O fuel P sk0 buf0 (Prng tp0 0) = Ok (bytes0, p0) /\
  sk_to_bytes_log O fuel P sk1 bytes0 (Prng tp 0) = (lg, Ok (bytes1, p1)) /\ (0 < m < length lg)%nat /\
  sk_from_bytes O fuel P (replay (firstn m lg) bytes0) = Ok sk' /\
  sk_pkey sk' = sk_pkey sk1 /\ sk_pkey sk1 <> sk_pkey sk0 /\
  map unmask (sk_s sk') = map unmask (sk_s sk0) /\ map unmask (sk_s sk1) <> map unmask (sk_s sk0).
Proof.
  pose (P := raccoon128_params 2). pose (buf := repeat 9 (Z.to_nat (sk_byte_len P))).
  assert (HP : params_ok P = true) by (vm_compute; reflexivity).
  assert (LB : 0 <= sk_byte_len P) by (vm_compute; discriminate).
  assert (L : zlen buf = sk_byte_len P) by (unfold buf, zlen; rewrite repeat_length; apply Z2Nat.id; exact LB).
  assert (G : good_hash ex_G 512) by (apply exG_good_hash, le_n).
  assert (V0 : valid_public (Z.to_nat (p_kappa P / 8)) (p_k P) (pk_seed (sk_pkey ex_old)) (pk_t (sk_pkey ex_old))) by exact ex_old_public.
  assert (V1 : valid_public (Z.to_nat (p_kappa P / 8)) (p_k P) (pk_seed (sk_pkey ex_key2)) (pk_t (sk_pkey ex_key2))) by exact ex_key2_public.
  assert (M0 : masked_vec (p_l P) (p_d P) (sk_s ex_old)) by exact ex_old_masked.
  assert (M1 : masked_vec (p_l P) (p_d P) (sk_s ex_key2)) by exact ex_key2_masked.
  assert (Hd : (1 <= p_d P)%nat) by (cbn; lia).
  assert (SAVE : forall sk b, valid_public (Z.to_nat (p_kappa P / 8)) (p_k P) (pk_seed (sk_pkey sk)) (pk_t (sk_pkey sk)) ->
     masked_vec (p_l P) (p_d P) (sk_s sk) -> zlen b = sk_byte_len P ->
     exists bytes p, sk_to_bytes ex_G 512 P sk b (Prng ex_tape 0) = Ok (bytes, p) /\ zlen bytes = sk_byte_len P /\ Forall is_byte bytes).
  { intros sk b V M Lb. pose proof (secret_of_masked _ _ _ Hd M) as S. destruct (sk_roundtrip ex_G 512 P sk b ex_tape 0 HP V S Lb) as [U RT].
    pose proof (sk_to_bytes_fin ex_G 512 P sk b (Prng ex_tape 0) G
     (fun b Hb => match pk_key_roundtrip P (sk_pkey sk) b HP V Hb with ex_intro _ r H => ex_intro _ r (proj1 H) end) Lb) as X.
    destruct (sk_to_bytes ex_G 512 P sk b (Prng ex_tape 0)) as [[bytes p]| |]; [|congruence|congruence].
    exists bytes, p. split; [reflexivity|]. destruct (RT bytes p eq_refl) as (R1 & R2 & _). split; assumption. }
  destruct (SAVE ex_old buf V0 M0 L) as (bytes0 & p0 & E0 & L0 & B0).
  destruct (SAVE ex_key2 bytes0 V1 M1 L0) as (bytes1 & p1 & E1 & _ & _).
  pose proof (sk_to_bytes_forget ex_G 512 P ex_key2 bytes0 (Prng ex_tape 0)) as FG. rewrite E1 in FG.
  destruct (sk_to_bytes_log ex_G 512 P ex_key2 bytes0 (Prng ex_tape 0)) as [lg r] eqn:ELG. cbn [snd] in FG. subst r.
  pose proof (secret_of_masked _ _ _ Hd M1) as S1.
  destruct (C78_secret_stores _ _ _ _ _ _ _ _ _ HP V1 S1 L0 ELG) as (_ & _ & _ & _ & LG & _). destruct (LG bytes1 p1 eq_refl) as [_ LLG].
  pose (m := Z.to_nat (pk_byte_len P)).
  assert (Hm : (0 < m < length lg)%nat).
  { rewrite LLG. unfold zlen in L0. replace (length bytes0) with (Z.to_nat (sk_byte_len P)) by (rewrite <- L0; apply Nat2Z.id).
    unfold m. assert (A1 : pk_byte_len P = 2256) by (vm_compute; reflexivity). assert (A2 : sk_byte_len P = 14816) by (vm_compute; reflexivity). rewrite A1, A2. clear. split; apply Nat2Z.inj_lt; rewrite !Z2Nat.id by discriminate; reflexivity. }
  destruct (torn_buffer_bytes _ _ _ _ _ _ _ _ _ m HP V1 S1 L0 B0 ELG (Nat.lt_le_incl _ _ (proj2 Hm))) as [BT LT].
  destruct (load_fin ex_G 512 P _ G HP BT LT) as [sk' E'].
  pose proof (C78_torn_rows ex_G 512 P ex_key2 ex_old buf ex_tape 0 bytes0 p0 ex_tape 0 lg (Ok (bytes1, p1)) m sk' HP V0 M0 V1 M1 L E0 ELG (Nat.lt_le_incl _ _ (proj2 Hm)) E') as R.
  cbv zeta in R. destruct R as (R1 & _ & _ & R4 & _).
  exists ex_G, 512%nat, P, ex_key2, ex_old, buf, ex_tape, bytes0, p0, ex_tape, lg, bytes1, p1, m, sk'.
  split; [exact HP|]. split; [exact V0|]. split; [exact M0|]. split; [exact V1|]. split; [exact M1|]. split; [exact L|]. split; [exact E0|].
  split; [exact ELG|]. split; [exact Hm|]. split; [exact E'|]. split; [apply R1; unfold m; apply le_n|]. split.
  - intros H. apply (f_equal pk_seed) in H. apply (f_equal (fun l => nth 0 l 0)) in H. cbn in H. discriminate H.
  - split.
    + apply (R4 0%nat (Nat.le_0_l _)). unfold m. assert (A1 : pk_byte_len P = 2256) by (vm_compute; reflexivity).
      assert (A3 : pk_byte_len P + (Z.of_nat (p_d P) - 1) * (p_kappa P / 8) = 2272) by (vm_compute; reflexivity). rewrite A3, A1, Nat.mul_0_r, Nat.add_0_r. clear. apply Nat2Z.inj_le. rewrite !Z2Nat.id by discriminate. discriminate.
    + rewrite ex_old_secret, (proj1 c11_example). intros H. apply (f_equal (fun l => nth 0 (nth 0 l []) 0)) in H. cbn [repeat nth] in H. discriminate H.
Qed.
Print Assumptions C78_torn_mixture.
