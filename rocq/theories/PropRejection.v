(* Property theorems about why an honest signing attempt can be rejected. *)
From Coq Require Import ZArith List Bool Lia.
From Verif Require Import ModelBase ModelU128 ModelField ModelUtils ModelPoly ModelVec ModelSerial ModelScheme.
From Verif Require Import Spec SpecScheme SpecSig SpecVerify SpecLattice.
From Verif Require Import Words FieldProofs ArithLemmas PolyProofs NttProofs MaskedProofs PolyLemmas MaskedLemmas ParamProofs KeyLemmas SigEnc SchemeCore BoundProofs KeygenProofs SignProofs VerifyProofs LatticeProofs ExGood TermProofs KeyExamples ExSign.
Import ListNotations.
Open Scope Z_scope.
Ltac Zify.zify_post_hook ::= idtac.

Lemma response_numbers P : params_ok P = true -> 0 <= noise_bound_of P (p_ut P) /\
  Z.of_nat (p_omega P) * noise_bound_of P (p_ut P) + noise_bound_of P (p_uw P) = honest_response (row_of P) /\ honest_response (row_of P) <= p_Binf P /\
  ((p_d P <= 4)%nat -> honest_response (row_of P) < 2 ^ 43 + 2 ^ 32).
Proof.
  intros HP. destruct (params_ok_cases P HP) as (d & Id & C). cbn [dvals In] in Id.
  destruct C as [->|[->| ->]]; repeat (destruct Id as [<-|Id]; [split; [vm_compute; discriminate|]; split; [vm_compute; reflexivity|]; split; [vm_compute; discriminate|]; intros Hd; first [vm_compute; reflexivity|exfalso; revert Hd; cbn [p_d raccoon128_params raccoon192_params raccoon256_params]; lia]|]); contradiction.
Qed.
Lemma square_sum_bound (B : Z) : 0 <= B -> forall z, Forall (fun x => Z.abs x <= B) z -> fold_right Z.add 0 (map (fun x => (Z.abs x / 2 ^ 32) ^ 2) z) <= Z.of_nat (length z) * (B / 2 ^ 32) ^ 2.
Proof.
  intros HB. induction 1 as [|x z Hx Fz IH]; [cbn; lia|]. cbn [map fold_right length]. rewrite Nat2Z.inj_succ, Z.mul_succ_l.
  assert (X : (Z.abs x / 2 ^ 32) ^ 2 <= (B / 2 ^ 32) ^ 2).
  { apply Z.pow_le_mono_l. split; [apply Z.div_pos; [apply Z.abs_nonneg|reflexivity]|]. apply Z.div_le_mono; [reflexivity|exact Hx]. }
  lia.
Qed.
(* C67: with a generated key, every signing attempt on every message and tape has response coefficients of at most
   honest_response, which is below the bound B_inf that is checked: the response's infinity norm never rejects an
   honest attempt, only hints, the Euclidean norm and the signature size can.  With at most four shares the
   response alone can not exceed the Euclidean bound either: the norm check then fails only if a hint exceeds
   B_inf / 2^44 or the squares of the hints sum up to more than 361, 848 or 1395. *)
Theorem C67_honest_responses : forall O fuel P seed tp sk A s T mu n c cp h z, params_ok P = true -> Forall is_byte seed ->
  length seed = Z.to_nat (p_kappa P / 8) -> sk_generate O fuel P seed tp = Ok sk ->
  Forall is_poly s -> map transform s = map unmask (sk_s sk) ->
  sign_attempt (hash_of O) T (row_of P) A (rows1 (pk_t (sk_pkey sk))) s mu n c cp h z ->
  let small_hints := Forall (fun x => Z.abs x <= p_Binf P / 2 ^ p_nuw P) h in
  let hint_squares := fold_right Z.add 0 (map (fun x => x * x) h) in
  Forall (fun x => Z.abs x <= honest_response (row_of P)) z /\ honest_response (row_of P) <= p_Binf P /\
  (norms_ok (p_nuw P) (p_Binf P) (p_B22 P) h z <-> small_hints /\
     2 ^ (2 * p_nuw P - 64) * hint_squares + fold_right Z.add 0 (map (fun x => (Z.abs x / 2 ^ 32) ^ 2) z) <= p_B22 P) /\
  ((p_d P <= 4)%nat -> small_hints -> hint_squares <= (if p_kappa P =? 128 then 361 else if p_kappa P =? 192 then 848 else 1395) ->
     norms_ok (p_nuw P) (p_Binf P) (p_B22 P) h z).
Proof.
  intros O fuel P seed tp sk A s T mu n c cp h z HP B L EG Ps Es HS small_hints hint_squares.
  pose proof (generate_spec O fuel P seed tp HP B L) as G. rewrite EG in G. cbn [wp] in G. destruct G as (G1 & G2 & G3 & A' & G4 & G5 & G6 & G7 & G8).
  assert (Es' : s = noise (hash_of O) (tape_of tp) (row_of P) (p_ut P) (p_l P) 0).
  { apply transform_inj_list; [exact Ps|exact (proj1 (noise_polys _ _ _ _ _ _))|]. rewrite Es. exact G5. }
  destruct (response_numbers P HP) as (N0 & N1 & N2 & N3). destruct (params_facts P HP) as (kb & e & F). pose proof (pf_omega _ _ _ F) as Ho.
  assert (Z1 : Forall (fun x => Z.abs x <= honest_response (row_of P)) z).
  { rewrite <- N1. apply (attempt_response_bound (hash_of O) T P A (rows1 (pk_t (sk_pkey sk))) s mu n c cp h z _ HP N0); [rewrite Es'; exact G7|exact HS|]. intros HC. apply (challenge_poly_facts O (p_omega P) c cp); [lia|exact HC]. }
  assert (Z2 : Forall (fun x => Z.abs x <= p_Binf P) z) by (refine (Forall_impl _ _ Z1); intros x Hx; cbv beta in Hx; lia).
  assert (LZ : length z = (p_l P * 512)%nat).
  { destruct HS as (_ & _ & -> & _). cbn [row_of r_l r_uw]. rewrite !Nat2Z.id.
    assert (X : forall (rows : list (list Z)), Forall (fun r => length r = 512%nat) rows -> length (concat (map (map (centered q)) rows)) = (length rows * 512)%nat).
    { induction 1 as [|r rows Hr FR IH]; [reflexivity|]. cbn [map concat length]. rewrite app_length, map_length, IH, Hr. reflexivity. }
    rewrite X.
    - f_equal. unfold zipw. rewrite !map_length, combine_length, map_length. rewrite Es', !(proj2 (noise_polys _ _ _ _ _ _)). apply Nat.min_id.
    - unfold zipw. apply Forall_map, Forall_forall. intros [x y] _. unfold ring_add. rewrite map_length. apply seq_length. }
  assert (NI : norms_ok (p_nuw P) (p_Binf P) (p_B22 P) h z <-> small_hints /\
     2 ^ (2 * p_nuw P - 64) * hint_squares + fold_right Z.add 0 (map (fun x => (Z.abs x / 2 ^ 32) ^ 2) z) <= p_B22 P).
  { unfold norms_ok. split; [intros (X1 & _ & X3); split; assumption|intros [X1 X3]; split; [exact X1|split; [exact Z2|exact X3]]]. }
  split; [exact Z1|]. split; [exact N2|]. split; [exact NI|]. intros Hd Sh Hs. apply NI. split; [exact Sh|].
  assert (R0 : 0 <= honest_response (row_of P)) by (rewrite <- N1; unfold noise_bound_of; apply Z.add_nonneg_nonneg; [apply Z.mul_nonneg_nonneg; [lia|exact N0]|apply Z.mul_nonneg_nonneg; [lia|apply Z.pow_nonneg; discriminate]]).
  pose proof (square_sum_bound _ R0 z Z1) as SB. rewrite LZ in SB.
  assert (R1 : (honest_response (row_of P) / 2 ^ 32) ^ 2 <= 2 ^ 22).
  { specialize (N3 Hd). change (2 ^ 22) with (2 ^ 11 * 2 ^ 11). rewrite Z.pow_2_r. assert (Y : honest_response (row_of P) / 2 ^ 32 <= 2 ^ 11).
    { apply Z.lt_succ_r. apply Z.div_lt_upper_bound; [reflexivity|]. eapply Z.lt_le_trans; [exact N3|]. vm_compute. discriminate. }
    assert (Y0 : 0 <= honest_response (row_of P) / 2 ^ 32) by (apply Z.div_pos; [exact R0|reflexivity]). apply Z.mul_le_mono_nonneg; assumption. }
  assert (SB' : fold_right Z.add 0 (map (fun x => (Z.abs x / 2 ^ 32) ^ 2) z) <= Z.of_nat (p_l P * 512) * 2 ^ 22) by (eapply Z.le_trans; [exact SB|]; apply Z.mul_le_mono_nonneg_l; [lia|exact R1]).
  assert (NUM : 2 ^ (2 * p_nuw P - 64) * (if p_kappa P =? 128 then 361 else if p_kappa P =? 192 then 848 else 1395) + Z.of_nat (p_l P * 512) * 2 ^ 22 <= p_B22 P).
  { clear - HP. destruct (params_ok_cases P HP) as (d & Id & C). destruct C as [->|[->| ->]]; vm_compute; discriminate. }
  assert (MM : 2 ^ (2 * p_nuw P - 64) * hint_squares <= 2 ^ (2 * p_nuw P - 64) * (if p_kappa P =? 128 then 361 else if p_kappa P =? 192 then 848 else 1395)) by (apply Z.mul_le_mono_nonneg_l; [apply Z.pow_nonneg; discriminate|exact Hs]).
  clear - SB' NUM MM. lia.
Qed.
Print Assumptions C67_honest_responses.
(* generated keys and attempts exist *)
Example C67_nonvacuous : forall seed tp T mu, let P := raccoon192_params 4 in Forall is_byte seed -> length seed = 24%nat ->
  params_ok P = true /\ exists sk s c cp h z, sk_generate ex_G 512 P seed tp = Ok sk /\ Forall is_poly s /\ map transform s = map unmask (sk_s sk) /\
    sign_attempt (hash_of ex_G) (tape_of T) (row_of P) (repeat (repeat ring_zero 5) 7) (rows1 (pk_t (sk_pkey sk))) s mu 0 c cp h z /\ (p_d P <= 4)%nat /\
    honest_response (row_of P) = 8796093022208 + 31 * 512.
Proof.
  intros seed tp T mu P B L. assert (HP : params_ok P = true) by (vm_compute; reflexivity).
  destruct (exG_generate P seed tp 512 HP B L (le_n _)) as (sk & E & E1 & E2 & E3 & E4).
  destruct (exG_attempt P (repeat ring_zero 5) T mu HP (repeat_length _ _)) as (c & cp & h & z & H & _).
  - apply Forall_repeat. exists ring_zero. split; [apply repeat_length|]. split; [unfold to_ring, ring_zero; rewrite map_rep, mod0; reflexivity|]. apply Forall_repeat. discriminate.
  - vm_compute. discriminate.
  - split; [exact HP|]. exists sk, (repeat ring_zero 5), c, cp, h, z. split; [exact E|].
    split; [apply Forall_repeat; exact zero_poly|]. split; [symmetry; exact E4|].
    split; [unfold rows1; rewrite E2, map_rep; exact H|]. split; [apply le_n|]. vm_compute. reflexivity.
Qed.
