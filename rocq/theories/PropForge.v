(* Property theorem about changing a signature without changing its challenge. *)
From Coq Require Import ZArith List Bool Lia.
From Verif Require Import ModelBase ModelField ModelUtils ModelPoly ModelVec ModelSerial ModelScheme.
From Verif Require Import Spec SpecScheme SpecSig SpecVerify SpecLattice.
From Verif Require Import ParamProofs KeyExamples VerifyProofs SigLemmas SignProofs SchemeCore BoundProofs SignVerify ExSign LatticeScheme ExLattice ExForge StrongForge.
Import ListNotations.
Open Scope Z_scope.

(* C68: two different byte strings accepted under one public key (for the same or for different messages) whose first
   2 kappa / 8 bytes agree give two different challenge inputs with the same digest, or short vectors u, v, u not zero,
   with A u + v = 0. *)
Theorem C68_same_challenge : forall O fuel fuel' P pk msg msg' sig sig', params_ok P = true ->
  valid_public (Z.to_nat (p_kappa P / 8)) (p_k P) (pk_seed pk) (pk_t pk) ->
  Forall is_byte sig -> zlen sig = p_siglen P -> Forall is_byte sig' -> zlen sig' = p_siglen P ->
  verify O fuel P pk msg sig = Ok true -> verify O fuel' P pk msg' sig' = Ok true -> sig <> sig' ->
  let n := Z.to_nat (2 * p_kappa P / 8) in firstn n sig = firstn n sig' ->
  exists pkb, public_key_code (pk_seed pk) (pk_t pk) pkb /\
  let mu := bound_message (hash_of O) n pkb msg in let mu' := bound_message (hash_of O) n pkb msg' in
  (exists w w', claimed_commitment (hash_of O) (row_of P) (pk_seed pk) (pk_t pk) sig w /\
     claimed_commitment (hash_of O) (row_of P) (pk_seed pk) (pk_t pk) sig' w' /\
     challenge_input w mu <> challenge_input w' mu' /\
     digest (hash_of O) n (challenge_input w mu) = digest (hash_of O) n (challenge_input w' mu')) \/
  (exists A u v, public_matrix (hash_of O) (pk_seed pk) (p_k P) (p_l P) A /\ length u = p_l P /\ length v = p_k P /\
     Forall (bounded_by (2 * p_Binf P)) u /\ Forall (bounded_by (2 * opening_error (row_of P))) v /\
     u <> repeat ring_zero (p_l P) /\ zipw ring_add (ring_matvec A u) v = repeat ring_zero (p_k P)).
Proof. exact same_challenge. Qed.
Print Assumptions C68_same_challenge.
(* under a hash function for which A is zero there are two accepted signatures of every message with the same
   challenge, and they differ in the response *)
Example C68_nonvacuous : forall msg, let P := raccoon128_params 8 in
  params_ok P = true /\ valid_public 16 5 (pk_seed ex_pk) (pk_t ex_pk) /\
  exists f sig sig', Forall is_byte sig /\ zlen sig = 11524 /\ Forall is_byte sig' /\ zlen sig' = 11524 /\
    verify (ex_K 0) f P ex_pk msg sig = Ok true /\ verify (ex_K 0) f P ex_pk msg sig' = Ok true /\
    sig <> sig' /\ firstn 32 sig = firstn 32 sig'.
Proof.
  intros msg P. assert (HP : params_ok P = true) by (vm_compute; reflexivity).
  assert (V : valid_public 16 5 (pk_seed ex_pk) (pk_t ex_pk)) by exact ex_sk_public.
  destruct (bind_msg_ok (ex_K 0) P ex_pk msg HP V) as (pkb & Cpk & _).
  destruct (exK_zero_sig 0 8 pkb msg HP (or_introl eq_refl) Cpk) as (B0 & L0 & S0 & W0 & _).
  destruct (exK_one_sig 0 8 pkb msg HP (or_introl eq_refl) Cpk) as (B1 & L1 & S1).
  destruct (verify_complete (ex_K 0) P ex_pk msg _ HP V B0 L0 S0) as (f0 & F0).
  destruct (verify_complete (ex_K 0) P ex_pk msg _ HP V B1 L1 S1) as (f1 & F1).
  split; [exact HP|]. split; [exact V|].
  exists (Nat.max f0 f1), (zero_sig (ex_K 0) (raccoon128_params 8) pkb msg), (one_sig (ex_K 0) (raccoon128_params 8) pkb msg).
  do 4 (split; [assumption|]). split; [apply F0, Nat.le_max_l|]. split; [apply F1, Nat.le_max_r|].
  clear. unfold zero_sig, one_sig. cbn [raccoon128_params p_kappa p_k p_siglen]. change (Z.to_nat (2 * 128 / 8)) with 32%nat.
  assert (Lc : length (challenge_value (hash_of (ex_K 0)) 32 (repeat ring_zero 5) (bound_message (hash_of (ex_K 0)) 32 pkb msg)) = 32%nat) by apply digest_length.
  revert Lc. generalize (challenge_value (hash_of (ex_K 0)) 32 (repeat ring_zero 5) (bound_message (hash_of (ex_K 0)) 32 pkb msg)). intros c Lc. split.
  - intros E. apply app_inv_head in E. assert (X : In 128 (repeat 0 (Z.to_nat 11524 - 32))).
    { rewrite E. unfold one_tail. apply in_or_app. right. left. reflexivity. }
    apply repeat_spec in X. discriminate X.
  - rewrite !firstn_app, Lc, Nat.sub_diag, !firstn_O. reflexivity.
Qed.
