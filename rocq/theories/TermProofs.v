(* Termination of signing, verification and key generation; uniqueness of signing attempts; signing
   equations with noise bounds. *)
From Coq Require Import ZArith Lia Bool List Arith.
From Coq Require Import ZifyBool ZifyNat.
From Verif Require Import ModelBase ModelU128 ModelField ModelUtils ModelPoly ModelVec ModelSerial ModelScheme ModelApi.
From Verif Require Import Spec SpecScheme SpecSig SpecVerify.
From Verif Require Import Words FieldProofs ArithLemmas BytesProofs PolyProofs NttLayers NttProofs Cong NttEval NttBounds MaskedProofs LinProofs SampleProofs SampleLemmas NoiseProofs PolyLemmas MaskedLemmas.
From Verif Require Import ParamProofs KeyLemmas PackProofs FinProofs SigEnc SigDec2 SigLemmas SchemeCore VerifyProofs SignProofs SignVerify KeygenProofs FuelProofs HashLemmas.
Import ListNotations.
Open Scope Z_scope.
Ltac Zify.zify_post_hook ::= idtac.

(* attempts are functions of the tape *)
Lemma sign_attempt_fun H T p A t s mu n c cp h z c' cp' h' z' :
  sign_attempt H T p A t s mu n c cp h z -> sign_attempt H T p A t s mu n c' cp' h' z' -> c = c' /\ cp = cp' /\ h = h' /\ z = z'.
Proof.
  intros (C1 & C2 & C3 & C4) (D1 & D2 & D3 & D4).
  assert (Ec : c = c') by (rewrite C1, D1; reflexivity). split; [exact Ec|].
  assert (Ecp : cp = cp').
  { rewrite Ec in C2. apply (challenge_poly_fun _ _ _ _ C2 D2). }
  split; [exact Ecp|]. clear C1 D1 C2 D2. subst cp'. split; [rewrite C4, D4; reflexivity|rewrite C3, D3; reflexivity].
Qed.
(* signing is a deterministic process over one family of attempts *)
Lemma signed_and O tp P sk msg G G' : signed O tp P sk msg G -> signed O tp P sk msg G' -> signed O tp P sk msg (fun att => G att /\ G' att).
Proof.
  intros (A & pkb & sr & PM & CP & Fs & Es & HG) (A' & pkb' & sr' & PM' & CP' & Fs' & Es' & HG').
  exists A, pkb, sr. do 4 (split; [assumption|]). split; [exact HG|].
  rewrite (public_matrix_fun _ _ _ _ _ _ PM PM'), (public_key_code_unique _ _ _ _ CP CP').
  rewrite (transform_inj_list sr sr' Fs Fs' (eq_trans Es (eq_sym Es'))). exact HG'.
Qed.
Lemma signed_fun O tp P sk msg (F : Prop) G : signed O tp P sk msg G ->
  (forall att : nat -> list Z -> list Z -> list Z -> list Z -> Prop, (forall n c cp h z c' cp' h' z', att n c cp h z -> att n c' cp' h' z' -> c = c' /\ cp = cp' /\ h = h' /\ z = z') -> G att -> F) -> F.
Proof. intros (A & pkb & sr & _ & _ & _ & _ & HG) K. apply (K _ (fun n c cp h z c' cp' h' z' => sign_attempt_fun _ _ _ _ _ _ _ n c cp h z c' cp' h' z') HG). Qed.

(* signing stops at the first acceptable attempt *)
Lemma sign_terminates O fuel P sk msg buf tp n : params_ok P = true ->
  valid_public (Z.to_nat (p_kappa P / 8)) (p_k P) (pk_seed (sk_pkey sk)) (pk_t (sk_pkey sk)) ->
  masked_vec49 (p_l P) (p_d P) (sk_s sk) -> zlen buf = p_siglen P ->
  good_mask O fuel (p_d P) -> expandA O fuel (p_k P) (p_l P) (pk_seed (sk_pkey sk)) <> OutOfFuel ->
  signed O tp P sk msg (fun att => (forall i, (i <= n)%nat -> exists c cp h z, att i c cp h z /\ chal_poly O fuel (p_omega P) c <> OutOfFuel) /\ (exists c cp h z, att n c cp h z /\ acceptable (row_of P) c h z) /\
    forall i, (i < n)%nat -> forall c cp h z, att i c cp h z -> buffer_fits h z) -> (n < fuel)%nat ->
  exists sig, sk_sign O fuel P sk msg buf tp = Ok sig /\
    signed O tp P sk msg (fun att => exists i c cp h z, (i <= n)%nat /\ att i c cp h z /\ acceptable (row_of P) c h z /\ signature_code c h z sig /\
      forall j, (j < i)%nat -> forall c cp h z, att j c cp h z -> ~ acceptable (row_of P) c h z).
Proof.
  intros HP V Hs Lb HI HE HA Hn.
  assert (HC : signed O tp P sk msg (fun att => forall i, (i <= n)%nat -> exists c cp h z, att i c cp h z /\ chal_poly O fuel (p_omega P) c <> OutOfFuel)).
  { destruct HA as (A & pkb & sr & S1 & S2 & S3 & S4 & HC & _). exists A, pkb, sr. do 4 (split; [assumption|]). exact HC. }
  assert (HA' : signed O tp P sk msg (fun att => (exists c cp h z, att n c cp h z /\ acceptable (row_of P) c h z) /\
    forall i, (i < n)%nat -> forall c cp h z, att i c cp h z -> buffer_fits h z)).
  { destruct HA as (A & pkb & sr & S1 & S2 & S3 & S4 & _ & HA). exists A, pkb, sr. do 4 (split; [assumption|]). exact HA. }
  clear HA. rename HA' into HA.
  pose proof (sign_spec False n O fuel P sk msg buf tp HP V Hs Lb (or_introl (conj HI (conj HE HC)))) as S.
  destruct (sk_sign O fuel P sk msg buf tp) as [sig| |]; cbn [wpx] in S.
  - exists sig. split; [reflexivity|]. destruct S as (_ & _ & _ & S). pose proof (signed_and _ _ _ _ _ _ _ HA S) as B. clear S HA.
    destruct B as (A & pkb & sr & PM & CP & Fs & Es & (HA & HB) & S). exists A, pkb, sr. do 4 (split; [assumption|]).
    destruct S as (i & c & cp & h & z & S1 & S2 & S3 & _ & _ & _ & _ & _ & S4). exists i, c, cp, h, z.
    split. { destruct (Nat.le_gt_cases i n) as [L|L]; [exact L|exfalso]. destruct (S4 n L) as (c1 & cp1 & h1 & z1 & T1 & T2).
             destruct HA as (c2 & cp2 & h2 & z2 & U1 & U2). destruct (sign_attempt_fun _ _ _ _ _ _ _ _ _ _ _ _ _ _ _ _ T1 U1) as (-> & -> & -> & ->). exact (T2 U2). }
    do 3 (split; [assumption|]). intros j Hj c1 cp1 h1 z1 T1. destruct (S4 j Hj) as (c2 & cp2 & h2 & z2 & U1 & U2).
    destruct (sign_attempt_fun _ _ _ _ _ _ _ _ _ _ _ _ _ _ _ _ T1 U1) as (-> & -> & -> & ->). exact U2.
  - exfalso. pose proof (signed_and _ _ _ _ _ _ _ HA S) as B. apply (signed_fun _ _ _ _ _ False _ B). clear.
    intros att F ((HA & HB) & i & c & cp & h & z & S1 & S2 & _ & _ & S4). destruct HA as (c2 & cp2 & h2 & z2 & U1 & U2).
    destruct (lt_eq_lt_dec i n) as [[L|E]|L].
    + exact (S2 (HB i L _ _ _ _ S1)).
    + subst i. destruct (F _ _ _ _ _ _ _ _ _ S1 U1) as (-> & -> & -> & ->). exact (S2 (proj1 U2)).
    + destruct (S4 n L) as (c1 & cp1 & h1 & z1 & T1 & T2). destruct (F _ _ _ _ _ _ _ _ _ T1 U1) as (-> & -> & -> & ->). exact (T2 U2).
  - exfalso. destruct S as [S|S]; [exact S|]. pose proof (signed_and _ _ _ _ _ _ _ HA S) as B. apply (signed_fun _ _ _ _ _ False _ B).
    intros att F ((HA' & _) & S'). destruct HA' as (c2 & cp2 & h2 & z2 & U1 & U2). destruct (S' n Hn (le_n n)) as (c1 & cp1 & h1 & z1 & T1 & T2).
    destruct (F _ _ _ _ _ _ _ _ _ T1 U1) as (-> & -> & -> & ->). exact (T2 U2).
Qed.

(* exact stopping of the three samplers *)
Lemma samplers_stop O fuel :
  (forall hdr seed, sampleQ O fuel hdr seed = OutOfFuel <-> (length (accepted49 (hash_of O (hdr ++ seed)) fuel) < 512)%nat) /\
  (forall omega c, (omega < 256)%nat -> (chal_poly O fuel omega c = OutOfFuel <->
     (length (distinct (map (chal_pos (challenge_stream (hash_of O) omega c)) (seq 0 fuel))) < omega)%nat)) /\
  (forall d idx m, (idx < d - 1)%nat -> length m = (d - 1)%nat -> (sample_polynomial O fuel d idx m = OutOfFuel <->
     (length (filter (fun x => (x <? q)%Z) (map (fun t => (a0 (Nat.iter t (ascon_permute O 6) (nth idx m ascon_zero)) mod 2 ^ 49)%Z) (seq 0 fuel))) < 512)%nat)).
Proof.
  split; [|split].
  - intros hdr seed. rewrite sampleQ_eq. unfold take512. destruct (512 <=? length (accepted49 (hash_of O (hdr ++ seed)) fuel))%nat eqn:E; [apply Nat.leb_le in E|apply Nat.leb_gt in E]; split; intros H; try discriminate H; try reflexivity; try exact E; exfalso; lia.
  - intros omega c Ho. apply (challenge_facts O fuel omega c Ho).
  - intros d idx m Hi L. unfold sample_polynomial. replace (d - 1 <=? idx)%nat with false by lia.
    pose proof (sample_loop_eq O d idx Hi fuel 0 (nth idx m ascon_zero) m [] L eq_refl ltac:(cbn [length]; lia)) as X. unfold take512, acc_from in X. cbn [app] in X.
    unfold mrng_word in X. destruct (sample_polynomial_loop O fuel d idx m []) as [[p m']| |]; cbn [bind] in X;
      match type of X with context [(512 <=? ?n)%nat] => destruct (512 <=? n)%nat eqn:E end; [apply Nat.leb_le in E|apply Nat.leb_gt in E|apply Nat.leb_le in E|apply Nat.leb_gt in E|apply Nat.leb_le in E|apply Nat.leb_gt in E]; split; intros H; try discriminate; try reflexivity; try exact E; exfalso; lia.
Qed.
(* verification and key generation finish if the streams they read contain enough acceptable values *)
Lemma code_prefix c h z sig : Forall is_byte c -> Forall is_byte sig -> signature_code c h z sig -> firstn (length c) sig = c.
Proof.
  intros Bc Bs [n E]. assert (L : (length c <= length sig)%nat).
  { apply (f_equal (@length bool)) in E. rewrite !app_length, !bits_of_bytes_length in E. lia. }
  apply bits_of_bytes_inj; [apply firstn_Forall; exact Bs|exact Bc|].
  assert (X : bits_of_bytes (firstn (length c) sig ++ skipn (length c) sig) = bits_of_bytes c ++ sig_code h z ++ repeat false n) by (rewrite firstn_skipn; exact E).
  rewrite bits_of_bytes_app in X. apply app_inv_len in X; [apply X|]. rewrite !bits_of_bytes_length, firstn_length. lia.
Qed.
Lemma verify_finishes O fuel P pk msg sig : params_ok P = true ->
  valid_public (Z.to_nat (p_kappa P / 8)) (p_k P) (pk_seed pk) (pk_t pk) -> Forall is_byte sig -> zlen sig = p_siglen P ->
  (forall r c, (r < p_k P)%nat -> (c < p_l P)%nat -> (512 <= length (accepted49 (matrix_stream (hash_of O) (pk_seed pk) r c) fuel))%nat) ->
  (p_omega P <= length (distinct (map (chal_pos (challenge_stream (hash_of O) (p_omega P) (firstn (Z.to_nat (2 * p_kappa P / 8)) sig))) (seq 0 fuel))))%nat ->
  verify O fuel P pk msg sig <> OutOfFuel.
Proof.
  intros HP V B L H1 H2 E. pose proof (verify_spec O fuel P pk msg sig HP V B L) as S. rewrite E in S.
  destruct S as (c & h & z & S1 & _ & Lc & Bc & _ & _ & N). apply N. split; [exact H1|].
  pose proof (code_prefix c h z sig Bc B S1) as X. replace (Z.to_nat (2 * p_kappa P / 8)) with (length c) in H2 by (unfold zlen in Lc; lia). rewrite X in H2. exact H2.
Qed.
Lemma generate_finishes O fuel P seed tp : params_ok P = true ->
  (forall r c, (r < p_k P)%nat -> (c < p_l P)%nat -> (512 <= length (accepted49 (matrix_stream (hash_of O) seed r c) fuel))%nat) ->
  ((2 <= p_d P)%nat -> window_accepts (fun t => a0 (Nat.iter t (ascon_permute O 6) ascon_zero) mod 2 ^ 49) fuel) ->
  sk_generate O fuel P seed tp <> OutOfFuel.
Proof.
  intros HP H1 H2. destruct (params_facts P HP) as (kb & e & F). pose proof (pf_k _ _ _ F). pose proof (pf_l _ _ _ F).
  apply sk_generate_fin; [apply expandA_enough; [lia|lia|exact H1]|exact H2|exists e; exact (pf_d _ _ _ F)].
Qed.
Lemma sign_finishes O fuel P sk msg buf tp A pkb s n : params_ok P = true ->
  valid_public (Z.to_nat (p_kappa P / 8)) (p_k P) (pk_seed (sk_pkey sk)) (pk_t (sk_pkey sk)) ->
  masked_vec49 (p_l P) (p_d P) (sk_s sk) -> zlen buf = p_siglen P ->
  (* the streams contain enough acceptable values *)
  (forall r c, (r < p_k P)%nat -> (c < p_l P)%nat -> (512 <= length (accepted49 (matrix_stream (hash_of O) (pk_seed (sk_pkey sk)) r c) fuel))%nat) ->
  ((2 <= p_d P)%nat -> window_accepts (fun t => a0 (Nat.iter t (ascon_permute O 6) ascon_zero) mod 2 ^ 49) fuel) ->
  (* attempt n is acceptable, and no earlier one overflows the bit buffer *)
  public_matrix (hash_of O) (pk_seed (sk_pkey sk)) (p_k P) (p_l P) A ->
  public_key_code (pk_seed (sk_pkey sk)) (pk_t (sk_pkey sk)) pkb ->
  Forall is_poly s -> map transform s = map unmask (sk_s sk) ->
  let att := sign_attempt (hash_of O) (tape_of tp) (row_of P) A (rows1 (pk_t (sk_pkey sk))) s
               (bound_message (hash_of O) (Z.to_nat (2 * p_kappa P / 8)) pkb msg) in
  (forall i, (i <= n)%nat -> exists c cp h z, att i c cp h z /\ (p_omega P <= length (distinct (map (chal_pos (challenge_stream (hash_of O) (p_omega P) c)) (seq 0 fuel))))%nat) ->
  (exists c cp h z, att n c cp h z /\ acceptable (row_of P) c h z) ->
  (forall i c cp h z, (i < n)%nat -> att i c cp h z -> buffer_fits h z) -> (n < fuel)%nat ->
  exists sig i c cp h z, sk_sign O fuel P sk msg buf tp = Ok sig /\ (i <= n)%nat /\ att i c cp h z /\ acceptable (row_of P) c h z /\
    signature_code c h z sig /\
    forall j c cp h z, (j < i)%nat -> att j c cp h z -> ~ acceptable (row_of P) c h z.
Proof.
  intros HP V Hs Lb G1 G3 PM CP Fs Es att G2 HA HB Hn. destruct (params_facts P HP) as (kb & e & F).
  assert (Ho : (p_omega P < 256)%nat) by (pose proof (pf_omega _ _ _ F); lia). pose proof (pf_k _ _ _ F). pose proof (pf_l _ _ _ F).
  destruct (sign_terminates O fuel P sk msg buf tp n HP V Hs Lb) as (sig & E & S); [| | |exact Hn|].
  - exact G3.
  - apply expandA_enough; [lia|lia|exact G1].
  - exists A, pkb, s. do 4 (split; [assumption|]). rewrite (proj2 (sig_len_cl P HP)). fold att. split; [|split; [exact HA|intros i Hi c cp h z; apply HB; exact Hi]].
    intros i Hi. destruct (G2 i Hi) as (c & cp & h & z & AT & D). exists c, cp, h, z. split; [exact AT|].
    exact (fun E => Nat.lt_irrefl _ (Nat.lt_le_trans _ _ _ (proj1 (proj1 (proj2 (proj2 (challenge_facts O fuel (p_omega P) c Ho)))) E) D)).
  - destruct S as (A' & pkb' & s' & PM' & CP' & Fs' & Es' & S).
    rewrite <- (public_matrix_fun _ _ _ _ _ _ PM PM'), <- (public_key_code_unique _ _ _ _ CP CP') in S.
    rewrite <- (transform_inj_list s s' Fs Fs' (eq_trans Es (eq_sym Es'))), (proj2 (sig_len_cl P HP)) in S.
    destruct S as (i & c & cp & h & z & S1 & S2 & S3 & S4 & S5). exists sig, i, c, cp, h, z. split; [exact E|]. do 4 (split; [assumption|]).
    intros j c' cp' h' z' Hj. apply S5. exact Hj.
Qed.
