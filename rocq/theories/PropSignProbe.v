(* Property theorems about what an observer of values inside signing learns. *)
From Coq Require Import ZArith List Bool Lia.
From Verif Require Import ModelBase ModelU128 ModelField ModelUtils ModelPoly ModelVec ModelSerial ModelScheme.
From Verif Require Import Spec SpecScheme SpecVerify SpecMask SpecProbe SpecNoiseProbe SpecSchemeProbe SpecSignProbe SignSteps.
From Verif Require Import Words FieldProofs ArithLemmas BytesProofs PolyProofs NttLayers NttProofs Cong NttEval MaskedProofs LinProofs PolyLemmas MaskedLemmas SampleProofs ParamProofs FinProofs SigEnc SchemeCore MaskUniform MaskProg ProbeProofs ProbeProg NoiseProbe NoiseFull NoiseRun ProbeLin LweProbe LweAdd LweRun SignProbe SignLin SignRun ExGood KeyLemmas VerifyProofs SignProofs ExOracle ExSign.
Import ListNotations.
Open Scope Z_scope.

(* C66, the program: whenever signing returns, it has gone through T attempts (at most as many as the loop is
   allowed), and the values held between the steps of every attempt are those of SpecSignProbe.v: attempt n
   starts from the key as refreshed by all attempts before it, reads its noise from the random tape after that
   of the attempts before it, and draws its masks from the generators where the attempt before it left them.
   The returned bytes encode the unmasked response of the last attempt. *)
Theorem C66_signing_values : forall O fuel P sk msg buf tp sig, params_ok P = true -> masked_vec (p_l P) (p_d P) (sk_s sk) -> sk_sign O fuel P sk msg buf tp = Ok sig ->
  exists e Ah A mu (key : nat -> list (list Z)) (T : nat) (M : nat -> att_masks) (c : nat -> list Z) (g : nat -> mrng),
  let rb := (p_rep P * p_d P * kbytes (p_kappa P))%nat in let pos n := (n * ((p_l P + p_k P) * rb))%nat in
  let noise n := stream_noise (hash_of O) (tape_of tp) (p_uw P) (kbytes (p_kappa P)) (p_rep P) (p_d P) (p_l P) (pos n) in
  p_d P = (2 ^ e)%nat /\ expandA O fuel (p_k P) (p_l P) (pk_seed (sk_pkey sk)) = Ok Ah /\ public_matrix (hash_of O) (pk_seed (sk_pkey sk)) (p_k P) (p_l P) A /\ matrix_ok (p_k P) (p_l P) A /\
  bind_msg O P (sk_pkey sk) msg = Ok mu /\
  (forall j, (j < p_l P)%nat -> masked (2 ^ e) (key j)) /\ sk_s sk = map (fun j => map transform (key j)) (seq 0 (p_l P)) /\
  (0 < T <= fuel)%nat /\ g 0%nat = mrng_new O (p_d P) /\
  (forall n, (n < T)%nat -> att_masks_ok e (p_rep P) (p_l P) (p_k P) (M n) /\ is_poly (c n) /\ noise_ok e (p_rep P) (p_l P) (p_k P) (noise n) /\
     attempt_steps O fuel P Ah A mu tp e (key_at e key M n) (M n) (c n) (pos n) (g n) (g (S n))) /\
  exists n w h b', T = S n /\
    sig_to_bytes (sig_make (p_nuw P) (chal_hash O (p_kappa P) (p_k P) w mu) h (map (fun j => [unmask (resp_row e (p_rep P) (c n) (key_at e key M n) (noise n) (M n) j)]) (seq 0 (p_l P)))) b' = Ok (true, sig).
Proof.
  intros O fuel P sk msg buf tp sig HP [LS FS] E. destruct (params_facts P HP) as (kb0 & e & F).
  pose proof (pf_d _ _ _ F) as Ed. pose proof (pf_uw _ _ _ F) as Huw. pose proof (pf_k _ _ _ F) as Hk. pose proof (pf_l _ _ _ F) as Hl. pose proof (pf_omega _ _ _ F) as Hom.
  unfold sk_sign in E. cbv zeta in E. apply bind_ok_inv in E. destruct E as (mu & Emu & E). apply bind_ok_inv in E. destruct E as (Ah & EA & E).
  destruct (wp_Ok _ _ _ (expandA_ok O fuel (p_k P) (p_l P) (pk_seed (sk_pkey sk)) ltac:(lia) ltac:(lia)) EA) as [LA UA].
  destruct (ring_mat_public O (pk_seed (sk_pkey sk)) (p_k P) (p_l P) Ah LA UA) as [HA PM].
  assert (Hd : (2 ^ e <= 256)%nat) by (rewrite <- Ed; clear - HP; destruct (params_ok_cases P HP) as (d & Id & C); cbn [dvals In] in Id; destruct C as [->|[->| ->]]; cbn [p_d raccoon128_params raccoon192_params raccoon256_params]; lia).
  assert (Hrep : (p_rep P <= 256)%nat) by (clear - HP; destruct (params_ok_cases P HP) as (d & Id & C); cbn [dvals In] in Id; destruct C as [->|[->| ->]]; repeat (destruct Id as [<-|Id]; [apply Nat.leb_le; vm_compute; reflexivity|]); contradiction).
  set (key := fun j => map intt (nth j (sk_s sk) [])).
  assert (MS : forall j, (j < p_l P)%nat -> masked (2 ^ e) (nth j (sk_s sk) [])) by (intros j Hj; rewrite <- Ed; rewrite Forall_forall in FS; apply FS, nth_In; unfold mpoly, poly in *; lia).
  assert (MK : forall j, (j < p_l P)%nat -> masked (2 ^ e) (key j)).
  { intros j Hj. destruct (MS j Hj) as [L1 F1]. split; [unfold key; rewrite map_length; exact L1|]. apply Forall_map. refine (Forall_impl _ _ F1). intros y Hy. apply intt_poly, Hy. }
  assert (ES : sk_s sk = pv_ntt (map key (seq 0 (p_l P)))).
  { apply (nth_ext _ _ [] []); [unfold pv_ntt; rewrite !map_length, seq_length; exact LS|]. intros j Hj. unfold pv_ntt. rewrite map_map. assert (Hj' : (j < p_l P)%nat) by (unfold pvec, mpoly, poly in *; lia).
    etransitivity; [|symmetry; exact (nth_map_seq (fun x => mp_ntt (key x)) (p_l P) j [] Hj')]. unfold mp_ntt, key. symmetry. apply map_id_polys; [intros a Ha; apply ntt_intt; exact Ha|apply MS, Hj']. }
  change (prng_new tp) with (Prng tp 0) in E. rewrite ES in E.
  destruct (loop_run O fuel P Ah e mu tp _ ltac:(lia) Hd ltac:(lia) ltac:(lia) Hrep HA Ed ltac:(lia) fuel key 0%nat _ _ _ MK E) as (T & M & c & g & HT & G0 & ALL & n & w & h & b' & ET & EN).
  exists e, Ah, (ring_mat (p_k P) (p_l P) Ah), mu, key, T, M, c, g. cbv zeta. split; [exact Ed|]. split; [exact EA|]. split; [exact PM|]. split; [exact (conj (proj1 PM) (proj1 (proj2 PM)))|]. split; [exact Emu|]. split; [exact MK|].
  split.
  { refine (eq_trans ES _). unfold pv_ntt. rewrite map_map. apply map_ext_in. intros j Hj. apply in_seq in Hj. unfold mp_ntt. apply map_ext_in. intros y Hy. symmetry. apply transform_ntt. assert (Hj' : (j < p_l P)%nat) by lia. pose proof (proj2 (MK j Hj')) as FK. rewrite Forall_forall in FK. apply FK, Hy. }
  split; [exact HT|]. split; [exact G0|]. split.
  - intros i Hi. destruct (ALL i Hi) as (X1 & X2 & X3). split; [exact X1|]. split; [exact X2|]. split; [rewrite Ed; split; intros; apply noise_family_masked|exact X3].
  - exists n, w, h, b'. split; [exact ET|exact EN].
Qed.
Print Assumptions C66_signing_values.

(* the masks of an attempt can be shifted: adding fixed masks permutes them *)
Lemma att_masks_onto e rep l k M' M'' : att_masks_ok e rep l k M' -> att_masks_ok e rep l k M'' -> exists M, att_masks_ok e rep l k M /\
  (forall j, (j < l)%nat -> m_zero (a_lwe (att_plus M M')) j = m_zero (a_lwe M'') j /\ a_key (att_plus M M') j = a_key M'' j /\ a_nonce (att_plus M M') j = a_nonce M'' j /\ a_resp (att_plus M M') j = a_resp M'' j) /\
  (forall j i, (j < l)%nat -> (i < rep)%nat -> m_s (a_lwe (att_plus M M')) j i = m_s (a_lwe M'') j i) /\
  (forall j i, (j < k)%nat -> (i < rep)%nat -> m_e (a_lwe (att_plus M M')) j i = m_e (a_lwe M'') j i).
Proof.
  intros [A0 A1] [B0 B1]. destruct (masks_onto e rep l k _ _ A0 B0) as (ML & HML & Z0 & Z1 & Z2).
  assert (G : forall (f g : nat -> list (list Z)), (forall i, (i < l)%nat -> mask_tuple e (f i)) -> (forall i, (i < l)%nat -> mask_tuple e (g i)) ->
    exists h : nat -> list (list Z), forall i, (i < l)%nat -> mask_tuple e (h i) /\ tuple_add (h i) (f i) = g i).
  { intros f g Hf Hg. destruct (list_choice [] (fun i (y : list (list Z)) => mask_tuple e y /\ tuple_add y (f i) = g i) l) as (L & _ & HLL).
    - intros i Hi. destruct (tuple_add_perm e (f i) (Hf i Hi) (g i) (Hg i Hi)) as (y & Hy & _). exists y. exact Hy.
    - exists (fun i => nth i L []). exact HLL. }
  destruct (G (a_key M') (a_key M'')) as (hk & Hhk); [intros i Hi; apply (A1 i Hi)|intros i Hi; apply (B1 i Hi)|].
  destruct (G (a_nonce M') (a_nonce M'')) as (hn & Hhn); [intros i Hi; apply (A1 i Hi)|intros i Hi; apply (B1 i Hi)|].
  destruct (G (a_resp M') (a_resp M'')) as (hr & Hhr); [intros i Hi; apply (A1 i Hi)|intros i Hi; apply (B1 i Hi)|].
  exists (AMasks ML hk hn hr). split; [|split; [|split; [exact Z1|exact Z2]]].
  - split; [exact HML|]. intros j Hj. cbn [a_key a_nonce a_resp]. split; [apply (Hhk j Hj)|]. split; [apply (Hhn j Hj)|apply (Hhr j Hj)].
  - intros j Hj. cbn [att_plus a_lwe a_key a_nonce a_resp]. split; [apply Z0, Hj|]. split; [apply (Hhk j Hj)|]. split; [apply (Hhn j Hj)|apply (Hhr j Hj)].
Qed.

(* C66: an observer of fewer than 2^e of the values inside ALL attempts of one signing, who in addition sees all
   shares of every commitment A * nonce + error and all shares of every response (so everything that is published,
   and the rejected responses), learns at most as many shares of the secret key (K: row, share) and noise
   polynomials (U, V: attempt, term) as there are observed values, and otherwise only commitments and responses:
   every change of the key's shares and of the noise that is zero on K, U, V and leaves every commitment and every
   challenge * key + nonce as it is, is compensated by a change M' of the masks, the same for all keys, noise and
   masks, that leaves all observed values and all commitment and response shares as they are. The changes of masks
   are permutations. *)
Theorem C66_signing_probing : forall e l k rep A T (c : nat -> list Z) (W : list (nat * awire)), (0 < rep)%nat -> (0 < T)%nat -> matrix_ok k l A -> (forall n, (n < T)%nat -> is_poly (c n)) ->
  Forall (fun nw => (fst nw < T)%nat /\ awire_ok e rep l k (snd nw)) W -> (length W < 2 ^ e)%nat ->
  exists (K : list (nat * nat)) (U V : list (nat * (nat * nat * nat))), (length K + length U + length V <= length W)%nat /\
  forall key' N', (forall j, (j < l)%nat -> masked (2 ^ e) (key' j)) -> (forall n, (n < T)%nat -> noise_ok e rep l k (N' n)) ->
    zero_shares key' K -> zero_at (fun n => n_s (N' n)) U -> zero_at (fun n => n_e (N' n)) V ->
    (forall n i, (n < T)%nat -> (i < k)%nat -> sample_total l rep A (N' n) i = ring_zero) -> (forall n j, (n < T)%nat -> (j < l)%nat -> resp_total rep (c n) key' (N' n) j = ring_zero) ->
  exists M' : nat -> att_masks, (forall n, (n < T)%nat -> att_masks_ok e rep l k (M' n)) /\
  (forall n M'', (n < T)%nat -> att_masks_ok e rep l k M'' -> exists M, att_masks_ok e rep l k M /\
     (forall j, (j < l)%nat -> m_zero (a_lwe (att_plus M (M' n))) j = m_zero (a_lwe M'') j /\ a_key (att_plus M (M' n)) j = a_key M'' j /\ a_nonce (att_plus M (M' n)) j = a_nonce M'' j /\ a_resp (att_plus M (M' n)) j = a_resp M'' j) /\
     (forall j i, (j < l)%nat -> (i < rep)%nat -> m_s (a_lwe (att_plus M (M' n))) j i = m_s (a_lwe M'') j i) /\
     (forall j i, (j < k)%nat -> (i < rep)%nat -> m_e (a_lwe (att_plus M (M' n))) j i = m_e (a_lwe M'') j i)) /\
  forall key N M, (forall j, (j < l)%nat -> masked (2 ^ e) (key j)) -> (forall n, (n < T)%nat -> noise_ok e rep l k (N n)) -> (forall n, (n < T)%nat -> att_masks_ok e rep l k (M n)) ->
    let key2 := key_at e (fun j => tuple_add (key j) (key' j)) (fun n => att_plus (M n) (M' n)) in let key1 := key_at e key M in
    (forall n w, In (n, w) W -> awire_value e l rep A (c n) (key2 n) (noise_plus (N n) (N' n)) (att_plus (M n) (M' n)) w = awire_value e l rep A (c n) (key1 n) (N n) (M n) w) /\
    (forall n i, (n < T)%nat -> (i < k)%nat -> sample_row e l rep A (noise_plus (N n) (N' n)) (a_lwe (att_plus (M n) (M' n))) i = sample_row e l rep A (N n) (a_lwe (M n)) i) /\
    (forall n j, (n < T)%nat -> (j < l)%nat -> resp_row e rep (c n) (key2 n) (noise_plus (N n) (N' n)) (att_plus (M n) (M' n)) j = resp_row e rep (c n) (key1 n) (N n) (M n) j).
Proof.
  intros e l k rep A T c W Hr HT HA Hc FW HL. set (c0 := fun n => if (n <? T)%nat then c n else ring_zero).
  assert (C0 : forall n, (n < T)%nat -> c0 n = c n) by (intros n Hn; unfold c0; apply Nat.ltb_lt in Hn; rewrite Hn; reflexivity).
  assert (Hc0 : forall n, is_poly (c0 n)) by (intros n; unfold c0; destruct (Nat.ltb_spec n T); [apply Hc; assumption|apply ring_zero_poly]).
  destruct (sign_probe e l k rep A T c0 W Hr HT HA Hc0 FW HL) as (K & U & V & LK & H). exists K, U, V. split; [exact LK|].
  intros key' N' Mk' MN' ZK ZU ZV TS TR. destruct (H key' N' Mk' MN' ZK ZU ZV TS) as (M' & OKM & D).
  { intros n j Hn Hj. rewrite C0 by exact Hn. apply TR; assumption. }
  exists M'. split; [exact OKM|]. split; [intros n M'' Hn HM''; apply att_masks_onto; [apply OKM, Hn|exact HM'']|].
  intros key N M Mk MN HM. destruct (D key N M Mk MN HM) as (D1 & D2 & D3). cbv zeta. split; [|split; [exact D2|]].
  - intros n w Hw. rewrite Forall_forall in FW. destruct (FW _ Hw) as [Hn _]. cbn [fst] in Hn. pose proof (D1 n w Hw) as X. rewrite C0 in X by exact Hn. exact X.
  - intros n j Hn Hj. pose proof (D3 n j Hn Hj) as X. rewrite C0 in X by exact Hn. exact X.
Qed.
Print Assumptions C66_signing_probing.

(* C66: the code holds key, nonce and response transformed.  The values a refreshing of transformed shares with
   transformed masks goes through are the transforms of the values of the refreshing, so observing them is
   observing the values above. *)
Theorem C66_transformed_values : forall e a rs w, masked (2 ^ e) a -> mask_tuple e rs -> wire_ok e w ->
  wire_value e (map transform a) (map transform rs) w = transform (wire_value e a rs w) /\
  forall e' a' rs' w', masked (2 ^ e') a' -> mask_tuple e' rs' -> wire_ok e' w' -> transform (wire_value e a rs w) = transform (wire_value e' a' rs' w') -> wire_value e a rs w = wire_value e' a' rs' w'.
Proof.
  assert (PW : forall e a rs w, masked (2 ^ e) a -> mask_tuple e rs -> wire_ok e w -> is_poly (wire_value e a rs w)).
  { intros e a rs w [La Fa] [Lr Fr] Hw. destruct w as [j|n|n j]; cbn [wire_value wire_ok] in *.
    - rewrite Forall_forall in Fa. apply Fa, nth_In. lia.
    - rewrite Forall_forall in Fr. apply Fr, nth_In. lia.
    - apply (mod_poly (fun i => mask_coef j i (firstn n (combine (mask_pairs e) rs)))). }
  assert (TM : forall v, Forall is_poly v -> map transform v = map ntt v) by (intros v Fv; apply map_ext_in; intros y Hy; apply transform_ntt; rewrite Forall_forall in Fv; apply Fv, Hy).
  intros e a rs w Ma Mr Hw. split.
  - rewrite (TM a (proj2 Ma)), (TM rs (proj2 Mr)), transform_ntt by (apply PW; assumption). symmetry. apply (F_wire ntt ntt_poly ntt_ring_add ntt_zero); assumption.
  - intros e' a' rs' w' Ma' Mr' Hw' E. rewrite !transform_ntt in E by (apply PW; assumption). rewrite <- (intt_ntt (wire_value e a rs w)) by (apply PW; assumption). rewrite E. apply intt_ntt, PW; assumption.
Qed.
Print Assumptions C66_transformed_values.

(* signing runs exist; four shares, a 1 x 2 matrix, two attempts: three values, one of them a share of the whole
   refreshed key and nonce *)
Example C66_nonvacuous :
  (exists sig, sk_sign ex_G 512 (raccoon128_params 2) ex_sk [1; 2] (repeat 171 (Z.to_nat 11524)) ex_tape = Ok sig) /\ masked_vec 4 2 (sk_s ex_sk) /\
  let W := [(0%nat, aw_share 1); (1%nat, aw_key 0 (wire_acc 2 3)); (1%nat, aw_resp 1 (wire_input 2))] in
  let A := [[repeat 3 512; repeat 5 512]] in let c := 2 :: repeat 0 511 in
  matrix_ok 1 2 A /\ is_poly c /\ Forall (fun nw => (fst nw < 2)%nat /\ awire_ok 2 2 2 1 (snd nw)) W /\ (length W < 2 ^ 2)%nat /\
  let key := fun j => map (fun kk => Z.of_nat (100 * j + kk) :: repeat 0 511) (seq 1 4) in
  let N := LNoise (fun j i => map (fun kk => repeat (Z.of_nat (10 * j + 5 * i + kk)) 512) (seq 1 4)) (fun _ _ => repeat ring_zero 4) in
  let z := fun _ : nat => repeat ring_zero 4 in let M := AMasks (LMasks z (fun _ => z) (fun _ => z)) z z z in
  (forall j, (j < 2)%nat -> masked (2 ^ 2) (key j)) /\ noise_ok 2 2 2 1 N /\ att_masks_ok 2 2 2 1 M /\
  map (fun p => coef p 0) (awire_value 2 2 2 A c key N M (aw_share 1)) = [2; 102; 2 + 7; 12 + 17].
Proof.
  assert (R : forall z, 0 <= z < 1000 -> is_poly (repeat z 512)).
  { intros z Hz. split; [apply repeat_length|]. apply Forall_forall. intros y Hy. apply repeat_spec in Hy. subst y. unfold reduced. rewrite q_Q, Q_val. lia. }
  assert (R1 : forall z, 0 <= z < 1000 -> is_poly (z :: repeat 0 511)).
  { intros z Hz. split; [cbn [length]; rewrite repeat_length; reflexivity|]. constructor; [unfold reduced; rewrite q_Q, Q_val; lia|]. apply Forall_forall. intros y Hy. apply repeat_spec in Hy. subst y. unfold reduced. rewrite q_Q, Q_val. lia. }
  assert (Z0 : is_poly ring_zero) by apply ring_zero_poly.
  assert (ZT : mask_tuple 2 (repeat ring_zero 4)).
  { split; [reflexivity|]. apply Forall_forall. intros y Hy. apply repeat_spec in Hy. subst y. exact Z0. }
  assert (ZM : masked (2 ^ 2) (repeat ring_zero 4)).
  { split; [reflexivity|]. apply Forall_forall. intros y Hy. apply repeat_spec in Hy. subst y. exact Z0. }
  split; [apply ex_sk_signs; unfold zlen; rewrite repeat_length; reflexivity|]. split; [exact ex_sk_masked|]. intros W A c.
  split; [|split; [|split; [|split; [apply Nat.ltb_lt; reflexivity|]]]].
  - split; [reflexivity|]. constructor; [|constructor]. split; [reflexivity|]. constructor; [apply R; lia|]. constructor; [apply R; lia|constructor].
  - apply R1. lia.
  - constructor; [split; apply Nat.ltb_lt; reflexivity|]. constructor; [split; [apply Nat.ltb_lt; reflexivity|]|].
    + split; [apply Nat.ltb_lt; reflexivity|]. split; [apply Nat.leb_le; reflexivity|apply Nat.ltb_lt; reflexivity].
    + constructor; [|constructor]. split; [apply Nat.ltb_lt; reflexivity|]. split; apply Nat.ltb_lt; reflexivity.
  - intros key N z M. split; [|split; [|split]].
    + intros j Hj. split; [reflexivity|]. unfold key. apply Forall_forall. intros y Hy. apply in_map_iff in Hy. destruct Hy as (kk & <- & Hk). apply in_seq in Hk. apply R1. lia.
    + split; [|intros; exact ZM]. intros j i Hj Hi. split; [reflexivity|]. unfold N. cbn [n_s]. apply Forall_forall. intros y Hy. apply in_map_iff in Hy. destruct Hy as (kk & <- & Hk). apply in_seq in Hk. apply R. lia.
    + split; [split; [intros; exact ZT|split; intros; exact ZT]|]. intros j _. split; [exact ZT|]. split; exact ZT.
    + vm_compute. reflexivity.
Qed.
