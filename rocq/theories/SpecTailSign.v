(* Specification: the challenge hash that attempt n of signing computes (the first equation of sign_attempt of SpecVerify.v).
   Nothing here refers to the model of the code. *)
From Coq Require Import ZArith List.
From Verif Require Import Spec SpecScheme SpecSig SpecVerify.
Import ListNotations.
Open Scope Z_scope.

Definition attempt_hash (H : list Z -> nat -> Z) (T : nat -> Z) (p : param_row) (A : list (list (list Z))) (mu : list Z) (n : nat) : list Z :=
  let k := Z.to_nat (r_k p) in let l := Z.to_nat (r_l p) in
  let pos := (n * ((l + k) * row_bytes p))%nat in
  let r := noise H T p (r_uw p) l pos in
  let e := noise H T p (r_uw p) k (pos + l * row_bytes p) in
  challenge_value H (Z.to_nat (2 * r_kappa p / 8)) (map (round_poly (r_nuw p)) (zipw ring_add (ring_matvec A r) e)) mu.
