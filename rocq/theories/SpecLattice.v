(* Specification of the lattice relations that signatures satisfy.  Nothing here refers to the model of the
   code. *)
From Coq Require Import ZArith List.
From Verif Require Import Spec SpecScheme SpecSig SpecVerify.
Import ListNotations.
Open Scope Z_scope.

(* the public vector times a ring element: 2^nu_t t c *)
Definition key_times (r : param_row) (t : list (list Z)) (c : list Z) : list (list Z) :=
  map (fun p => ring_mul (ring_scale (2 ^ r_nut r) p) c) t.
(* largest error of the verification equation: rounding, hint, and wrap-around of the rounded values *)
Definition opening_error (r : param_row) : Z :=
  2 ^ (r_nuw r - 1) + 2 ^ r_nuw r * (r_Binf r / 2 ^ r_nuw r) + q mod 2 ^ r_nuw r.
(* the short vectors z, e open the commitment w for the challenge polynomial c:
   A z + e = 2^nu_t t c + 2^nu_w w *)
Definition opens (r : param_row) (A : list (list (list Z))) (t : list (list Z)) (c : list Z)
           (w z e : list (list Z)) : Prop :=
  length z = Z.to_nat (r_l r) /\ length e = Z.to_nat (r_k r) /\
  Forall (bounded_by (r_Binf r)) z /\ Forall (bounded_by (opening_error r)) e /\
  zipw ring_add (ring_matvec A z) e = zipw ring_add (key_times r t c) (map (ring_scale (2 ^ r_nuw r)) w).
(* largest hint of an attempt with an honest key: the noise of the commitment, omega times the noise and the
   rounding error of the public key, one wrap-around *)
Definition honest_hint (r : param_row) : Z :=
  let noise_max u := r_rep r * r_d r * 2 ^ (u - 1) in
  let err := noise_max (r_uw r) + r_omega r * (noise_max (r_ut r) + (2 ^ (r_nut r - 1) + q mod 2 ^ r_nut r)) in
  (err + q mod 2 ^ r_nuw r) / 2 ^ r_nuw r + 1.
(* largest response coefficient of an attempt with an honest key *)
Definition honest_response (r : param_row) : Z :=
  let noise_max u := r_rep r * r_d r * 2 ^ (u - 1) in noise_max (r_uw r) + r_omega r * noise_max (r_ut r).
