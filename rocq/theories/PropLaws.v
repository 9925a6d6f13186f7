(* Property theorems about the algebraic laws of the arithmetic operators: field.hpp:125-190, poly.hpp (operators, ntt, intt). *)
From Coq Require Import ZArith List Bool Lia.
From Verif Require Import ModelBase ModelU128 ModelField ModelUtils ModelPoly.
From Verif Require Import Spec LawLemmas.
Import ListNotations.
Open Scope Z_scope.
Ltac Zify.zify_post_hook ::= idtac.

(* C81: on canonical values the field operators +, -, * return canonical values and are those of a commutative ring
   with unit, *)
Theorem C81_field_ring_laws : forall a b c, reduced a -> reduced b -> reduced c ->
  (reduced (zq_add a b) /\ reduced (zq_sub a b) /\ reduced (zq_mul a b)) /\
  zq_add a b = zq_add b a /\ zq_add (zq_add a b) c = zq_add a (zq_add b c) /\ zq_add a 0 = a /\
  zq_add a (zq_neg a) = 0 /\ zq_add (zq_sub a b) b = a /\ zq_sub (zq_add a b) b = a /\
  zq_mul a b = zq_mul b a /\ zq_mul (zq_mul a b) c = zq_mul a (zq_mul b c) /\ zq_mul a 1 = a /\ zq_mul a 0 = 0 /\
  zq_mul a (zq_add b c) = zq_add (zq_mul a b) (zq_mul a c) /\ zq_mul a (zq_sub b c) = zq_sub (zq_mul a b) (zq_mul a c).
Proof.
  intros a b c A B C. split; [apply f_closed; assumption|]. split; [apply f_add_comm; assumption|]. split; [apply f_add_assoc; assumption|].
  split; [apply f_add_0; assumption|]. split; [apply f_add_neg; assumption|]. split; [apply f_sub_add; assumption|]. split; [apply f_add_sub; assumption|].
  split; [apply f_mul_comm; assumption|]. split; [apply f_mul_assoc; assumption|]. split; [apply f_mul_1; assumption|]. split; [apply f_mul_0; assumption|].
  split; [apply f_distr; assumption|apply f_distr_sub; assumption].
Qed.
Print Assumptions C81_field_ring_laws.

(* C81: powers obey the laws of exponents as long as the exponents stay within 64 bits, and division undoes
   multiplication: always from the left, and from the right by every value that has an inverse. *)
Theorem C81_power_and_division_laws :
  (forall a m n, reduced a -> 0 <= m -> 0 <= n -> m + n < 2 ^ 64 -> zq_pow a (m + n) = zq_mul (zq_pow a m) (zq_pow a n)) /\
  (forall a b n, reduced a -> reduced b -> 0 <= n < 2 ^ 64 -> zq_pow (zq_mul a b) n = zq_mul (zq_pow a n) (zq_pow b n)) /\
  (forall a b r, reduced a -> reduced b -> zq_div a b = Ok (r, true) -> zq_mul r b = a) /\
  (forall a b, reduced a -> reduced b -> Z.gcd b q = 1 -> zq_div (zq_mul a b) b = Ok (a, true)).
Proof.
  split; [exact f_pow_add|]. split; [exact f_pow_mul|]. split; [|exact f_div_mul].
  intros a b r A B E. exact (f_mul_div a b r true A B E eq_refl).
Qed.
Print Assumptions C81_power_and_division_laws.

(* C81: polynomials with canonical coefficients: + and - of poly_t, and the product through the transform (ntt, *,
   intt), return polynomials with canonical coefficients and are the operations of a commutative ring with unit. *)
Theorem C81_polynomial_ring_laws : let mul a b := intt (poly_mul (ntt a) (ntt b)) in
  forall a b c, is_poly a -> is_poly b -> is_poly c ->
  (is_poly (poly_add a b) /\ is_poly (poly_sub a b) /\ is_poly (mul a b)) /\
  poly_add a b = poly_add b a /\ poly_add (poly_add a b) c = poly_add a (poly_add b c) /\ poly_add a poly_zero = a /\
  poly_add (poly_sub a b) b = a /\ poly_sub (poly_add a b) b = a /\
  mul a b = mul b a /\ mul (mul a b) c = mul a (mul b c) /\ mul a (1 :: repeat 0 511) = a /\
  mul a (poly_add b c) = poly_add (mul a b) (mul a c) /\ mul a (poly_sub b c) = poly_sub (mul a b) (mul a c).
Proof.
  intros mul a b c A B C. split; [apply p_closed; assumption|]. split; [apply p_add_comm; assumption|]. split; [apply p_add_assoc; assumption|].
  split; [apply p_add_zero; assumption|]. split; [apply p_sub_add; assumption|]. split; [apply p_add_sub; assumption|].
  split; [exact (p_mul_comm a b A B)|]. split; [exact (p_mul_assoc a b c A B C)|]. split; [exact (p_mul_one a A)|].
  split; [exact (p_distr a b c A B C)|exact (p_distr_sub a b c A B C)].
Qed.
Print Assumptions C81_polynomial_ring_laws.

Example C81_nonvacuous : reduced (q - 1) /\ Z.gcd 3 q = 1 /\ zq_div (zq_mul (q - 1) 3) 3 = Ok (q - 1, true) /\
  is_poly (repeat (q - 1) 512) /\ poly_add (repeat (q - 1) 512) (repeat 2 512) = repeat 1 512.
Proof.
  assert (R1 : reduced (q - 1)) by (split; [discriminate|reflexivity]). assert (R3 : reduced 3) by (split; [discriminate|reflexivity]).
  assert (R2 : reduced 2) by (split; [discriminate|reflexivity]).
  assert (G : Z.gcd 3 q = 1) by (vm_compute; reflexivity).
  split; [exact R1|]. split; [exact G|]. split; [exact (proj2 (proj2 (proj2 C81_power_and_division_laws)) (q - 1) 3 R1 R3 G)|]. split.
  - split; [apply repeat_length|]. apply Forall_forall. intros x Hx. apply repeat_spec in Hx. subst x. exact R1.
  - unfold poly_add. generalize 512%nat as n. induction n as [|n IH]; [reflexivity|]. cbn [repeat map2]. rewrite IH.
    rewrite (add_val (q - 1) 2 R1 R2). reflexivity.
Qed.
