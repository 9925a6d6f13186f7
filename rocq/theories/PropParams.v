(* Property theorem about the compile-time parameter checks: params.hpp, raccoon128.hpp,
   raccoon192.hpp, raccoon256.hpp, utils.hpp:63-77. *)
From Coq Require Import ZArith List Bool.
From Verif Require Import ModelBase ModelUtils ModelScheme ParamProofs.
From Verif Require Import Spec.
Import ListNotations.
Open Scope Z_scope.

(* C34: the three consteval predicates accept exactly the rows of the parameter tables (param_table in
   Spec.v); the tables in the API headers only select accepted arguments, and every accepted argument
   tuple is one of theirs; key and signature lengths are the documented ones. *)
Theorem C34_parameter_sets :
  (forall kappa k l d ut nut rep,
     validate_keygen_args kappa k l d ut nut rep = true <->
     exists r, In r param_table /\
       (kappa, k, l, d, ut, nut, rep) = (r_kappa r, r_k r, r_l r, r_d r, r_ut r, r_nut r, r_rep r)) /\
  (forall kappa k l d uw nuw nut rep omega siglen Binf B22,
     validate_sign_args kappa k l d uw nuw nut rep omega siglen Binf B22 = true <->
     exists r, In r param_table /\
       (kappa, k, l, d, uw, nuw, nut, rep, omega, siglen, Binf, B22)
       = (r_kappa r, r_k r, r_l r, r_d r, r_uw r, r_nuw r, r_nut r, r_rep r, r_omega r, r_siglen r, r_Binf r, r_B22 r)) /\
  (forall kappa k l nuw nut omega siglen Binf B22,
     validate_verify_args kappa k l nuw nut omega siglen Binf B22 = true <->
     exists r, In r param_table /\
       (kappa, k, l, nuw, nut, omega, siglen, Binf, B22)
       = (r_kappa r, r_k r, r_l r, r_nuw r, r_nut r, r_omega r, r_siglen r, r_Binf r, r_B22 r)) /\
  (forall d, In d [1; 2; 4; 8; 16; 32]%nat ->
     params_ok (raccoon128_params d) = true /\ params_ok (raccoon192_params d) = true /\
     params_ok (raccoon256_params d) = true) /\
  (forall P, params_ok P = true ->
     exists d, In d [1; 2; 4; 8; 16; 32]%nat /\
       (P = raccoon128_params d \/ P = raccoon192_params d \/ P = raccoon256_params d)) /\
  (forall P, params_ok P = true ->
   (p_kappa P = 128 /\ pk_byte_len P = 2256 /\ sk_byte_len P = 14800 + 16 * (Z.of_nat (p_d P) - 1) /\ p_siglen P = 11524) \/
   (p_kappa P = 192 /\ pk_byte_len P = 3160 /\ sk_byte_len P = 18840 + 24 * (Z.of_nat (p_d P) - 1) /\ p_siglen P = 14544) \/
   (p_kappa P = 256 /\ pk_byte_len P = 4064 /\ sk_byte_len P = 26016 + 32 * (Z.of_nat (p_d P) - 1) /\ p_siglen P = 20330)).
Proof. exact param_facts. Qed.
Print Assumptions C34_parameter_sets.
Example C34_nonvacuous : params_ok (raccoon192_params 16) = true /\ sk_byte_len (raccoon192_params 16) = 19200 /\
  validate_keygen_args 192 7 5 16 6 42 2 = true /\ validate_keygen_args 192 7 5 16 5 42 2 = false /\
  validate_sign_args 128 5 4 3 41 44 42 8 19 11524 41954689765971 14656575897 = false.
Proof. vm_compute. exact (conj eq_refl (conj eq_refl (conj eq_refl (conj eq_refl eq_refl)))). Qed.
