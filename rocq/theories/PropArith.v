(* Property theorems about math/field.hpp, math/u64.hpp and math/u128.hpp. *)
From Coq Require Import ZArith List Bool Lia.
From Verif Require Import ModelBase ModelU128 ModelField Words U128Proofs FieldProofs ArithLemmas.
From Verif Require Spec.
Import ListNotations.
Open Scope Z_scope.

(* C15: for reduced operands the field operations return the reduced representative of the exact
   result; exponentiation for every 64-bit exponent; Barrett reduction below 2^98. *)
Theorem C15_field_arithmetic :
  (forall a b, Spec.reduced a -> Spec.reduced b ->
     zq_add a b = (a + b) mod Spec.q /\
     zq_sub a b = (a - b) mod Spec.q /\
     zq_mul a b = (a * b) mod Spec.q) /\
  (forall a n, Spec.reduced a -> 0 <= n < 2 ^ 64 -> zq_pow a n = a ^ n mod Spec.q) /\
  (forall hi lo, 0 <= hi < 2 ^ 64 -> 0 <= lo < 2 ^ 64 -> hi * 2 ^ 64 + lo < 2 ^ 98 ->
     barrett_reduce (U128 hi lo) = (hi * 2 ^ 64 + lo) mod Spec.q) /\
  (forall v, 0 <= v < 2 ^ 64 -> zq_random_of_word v = v mod Spec.q).
Proof. exact arith_field. Qed.
Print Assumptions C15_field_arithmetic.
Example C15_nonvacuous :
  Spec.reduced (Spec.q - 1) /\ Spec.reduced 12345 /\
  zq_add (Spec.q - 1) 12345 = 12344 /\ zq_sub 12345 (Spec.q - 1) = 12346 /\
  zq_mul (Spec.q - 1) (Spec.q - 1) = 1 /\ zq_pow (Spec.q - 1) 12345 = Spec.q - 1.
Proof. vm_compute. repeat split; congruence. Qed.

(* C15, the shift operators: << always returns a canonical value, which is the product with 2^n modulo q
   as long as that product fits 64 bits (beyond, the lost bits change the residue); >> is the integer
   quotient, and canonical again. *)
Theorem C15_field_shifts : forall a n, Spec.reduced a -> 0 <= n < 64 ->
  Spec.reduced (zq_shl a n) /\ (a * 2 ^ n < 2 ^ 64 -> zq_shl a n = (a * 2 ^ n) mod Spec.q) /\
  (2 ^ 64 <= a * 2 ^ n -> zq_shl a n = ((a * 2 ^ n) mod 2 ^ 64) mod Spec.q) /\
  zq_shr a n = a / 2 ^ n /\ Spec.reduced (zq_shr a n).
Proof.
  intros a n Ha Hn. assert (Hq : 0 < Spec.q) by reflexivity. assert (E64 : two64 = 2 ^ 64) by reflexivity.
  assert (P : 1 <= 2 ^ n) by (pose proof (Z.pow_pos_nonneg 2 n); lia). unfold Spec.reduced in *.
  rewrite (zq_shl_spec a n Hn), <- q_Q, E64. split; [apply Z.mod_pos_bound; exact Hq|]. split; [|split; [reflexivity|]].
  - intros H. rewrite (Z.mod_small (a * 2 ^ n)); [reflexivity|]. split; [apply Z.mul_nonneg_nonneg; lia|exact H].
  - unfold zq_shr. rewrite shr64_spec by lia. split; [reflexivity|]. split; [apply Z.div_pos; lia|].
    apply Z.le_lt_trans with a; [apply Z.div_le_upper_bound; [lia|]|lia].
    rewrite <- (Z.mul_1_l a) at 1. apply Z.mul_le_mono_nonneg_r; lia.
Qed.
Print Assumptions C15_field_shifts.
(* the largest shift that the library makes, and a shift that loses bits *)
Example C15_shifts_nonvacuous :
  zq_shl 63 42 = (63 * 2 ^ 42) mod Spec.q /\ zq_shr (Spec.q - 1) 44 = 31 /\
  zq_shl (Spec.q - 1) 16 <> ((Spec.q - 1) * 2 ^ 16) mod Spec.q /\ 2 ^ 64 <= (Spec.q - 1) * 2 ^ 16.
Proof. vm_compute. repeat split; congruence. Qed.

(* C16: inversion and division. `Ok` as result = no signed overflow, loop terminated. *)
Theorem C16_inverse_and_division :
  (forall v, Spec.reduced v ->
     (Z.gcd v Spec.q = 1 -> exists i, zq_inv v = Ok (i, true) /\ Spec.reduced i /\
                                     (v * i) mod Spec.q = 1) /\
     (Z.gcd v Spec.q <> 1 -> zq_inv v = Ok (0, false))) /\
  (forall a v, Spec.reduced a -> Spec.reduced v ->
     (Z.gcd v Spec.q = 1 -> exists r, zq_div a v = Ok (r, true) /\ Spec.reduced r /\
                                     (r * v) mod Spec.q = a) /\
     (Z.gcd v Spec.q <> 1 -> zq_div a v = Ok (0, false))).
Proof. exact arith_inverse. Qed.
Print Assumptions C16_inverse_and_division.
Example C16_nonvacuous :
  Z.gcd 3 Spec.q = 1 /\ Z.gcd (5 * (2 ^ 24 - 2 ^ 18 + 1)) Spec.q <> 1 /\
  zq_div 1 3 = Ok (183274861057366, true) /\
  zq_inv (5 * (2 ^ 24 - 2 ^ 18 + 1)) = Ok (0, false).
Proof. vm_compute. repeat split; congruence. Qed.

(* C17: the claim "unary minus of a canonical element is canonical" fails, at 0 only. *)
Theorem C17_negation_refuted : exists v, Spec.reduced v /\ ~ Spec.reduced (zq_neg v).
Proof. exact arith_neg_refuted. Qed.
Print Assumptions C17_negation_refuted.
Theorem C17_negation_partial : forall v, Spec.reduced v ->
  (v <> 0 -> zq_neg v = (- v) mod Spec.q) /\ (v = 0 -> zq_neg v = Spec.q).
Proof. exact arith_neg. Qed.
Print Assumptions C17_negation_partial.

(* C18: the portable two-word implementation computes modulo 2^128, exactly like the __int128
   build (n128_* functions). [val] = hi * 2^64 + lo. *)
Theorem C18_portable_128_bit_arithmetic : forall ah al bh bl n,
  0 <= ah < 2 ^ 64 -> 0 <= al < 2 ^ 64 -> 0 <= bh < 2 ^ 64 -> 0 <= bl < 2 ^ 64 -> 0 <= n < 128 ->
  let a := U128 ah al in let b := U128 bh bl in
  let va := ah * 2 ^ 64 + al in let vb := bh * 2 ^ 64 + bl in
  let represents r v := 0 <= u_hi r < 2 ^ 64 /\ 0 <= u_lo r < 2 ^ 64 /\
                        u_hi r * 2 ^ 64 + u_lo r = v in
  represents (u128_add a b) (n128_add va vb) /\ n128_add va vb = (va + vb) mod 2 ^ 128 /\
  represents (u128_sub a b) (n128_sub va vb) /\ n128_sub va vb = (va - vb) mod 2 ^ 128 /\
  represents (u128_neg a) (n128_neg va) /\ n128_neg va = (- va) mod 2 ^ 128 /\
  represents (u128_mul a b) (n128_mul va vb) /\ n128_mul va vb = (va * vb) mod 2 ^ 128 /\
  represents (u128_or a b) (Z.lor va vb) /\ represents (u128_and a b) (Z.land va vb) /\
  (exists r, u128_shl_chk a n = Ok r /\ represents r ((va * 2 ^ n) mod 2 ^ 128) /\
             n128_shl va n = Ok ((va * 2 ^ n) mod 2 ^ 128)) /\
  (exists r, u128_shr_chk a n = Ok r /\ represents r (va / 2 ^ n) /\
             n128_shr va n = Ok (va / 2 ^ n)) /\
  u128_shl_chk a 128 = Ok (U128 0 0) /\ u128_shr_chk a 128 = Ok (U128 0 0) /\
  u128_gt a b = (vb <? va) /\ u128_lt a b = (va <? vb) /\ u128_eq a b = (va =? vb) /\
  u128_ge a b = (vb <=? va) /\ u128_le a b = (va <=? vb) /\
  (forall w, 0 <= w <= 64 -> u128_to w a = va mod 2 ^ w) /\
  mul_full_u64 al bl = (al * bl / 2 ^ 64, (al * bl) mod 2 ^ 64).
Proof. exact arith_u128. Qed.
Print Assumptions C18_portable_128_bit_arithmetic.
Example C18_nonvacuous :
  u128_mul (U128 3 (2 ^ 64 - 1)) (U128 1 (2 ^ 63 + 5))
  = U128 ((((3 * 2 ^ 64 + 2 ^ 64 - 1) * (2 ^ 64 + 2 ^ 63 + 5)) mod 2 ^ 128) / 2 ^ 64)
         (((3 * 2 ^ 64 + 2 ^ 64 - 1) * (2 ^ 64 + 2 ^ 63 + 5)) mod 2 ^ 64).
Proof. reflexivity. Qed.

(* C19: division with remainder *)
Theorem C19_division : forall ah al bh bl,
  0 <= ah < 2 ^ 64 -> 0 <= al < 2 ^ 64 -> 0 <= bh < 2 ^ 64 -> 0 <= bl < 2 ^ 64 ->
  0 < bh * 2 ^ 64 + bl ->
  let a := U128 ah al in let b := U128 bh bl in
  let va := ah * 2 ^ 64 + al in let vb := bh * 2 ^ 64 + bl in
  let represents r v := 0 <= u_hi r < 2 ^ 64 /\ 0 <= u_lo r < 2 ^ 64 /\
                        u_hi r * 2 ^ 64 + u_lo r = v in
  represents (u128_div a b) (va / vb) /\ represents (u128_mod a b) (va mod vb) /\
  (* the initial shift distance of the divisor is in range whenever it is used *)
  (vb < va -> 0 <= sub64 (u128_msb a) (u128_msb b) < 128).
Proof. exact arith_div. Qed.
Print Assumptions C19_division.
Example C19_nonvacuous :
  u128_divmod (U128 (2 ^ 64 - 1) 7) (U128 1 9) = (U128 0 (2 ^ 64 - 10), U128 0 97) /\
  0 < 1 * 2 ^ 64 + 9.
Proof. vm_compute. split; reflexivity. Qed.

(* C20: rotations. Portable build: for all distances 0..128. *)
Theorem C20_rotations_portable_partial : forall ah al n,
  0 <= ah < 2 ^ 64 -> 0 <= al < 2 ^ 64 -> 0 <= n <= 128 ->
  let a := U128 ah al in
  bind (u128_rotl a n) (fun r => u128_rotr r n) = Ok a /\
  (exists r, u128_rotl a n = Ok r /\ forall i, 0 <= i < 128 ->
     Z.testbit (u_hi r * 2 ^ 64 + u_lo r) i = Z.testbit (ah * 2 ^ 64 + al) ((i - n) mod 128)) /\
  (exists r, u128_rotr a n = Ok r /\ forall i, 0 <= i < 128 ->
     Z.testbit (u_hi r * 2 ^ 64 + u_lo r) i = Z.testbit (ah * 2 ^ 64 + al) ((i + n) mod 128)).
Proof. exact arith_rot. Qed.
Print Assumptions C20_rotations_portable_partial.
(* __int128 build: right for 0 < n < 128 *)
Theorem C20_rotations_native_partial : forall v n,
  0 <= v < 2 ^ 128 -> 0 < n < 128 ->
  bind (n128_rotl v n) (fun r => n128_rotr r n) = Ok v /\
  (exists r, n128_rotl v n = Ok r /\ 0 <= r < 2 ^ 128 /\ forall i, 0 <= i < 128 ->
     Z.testbit r i = Z.testbit v ((i - n) mod 128)) /\
  (exists r, n128_rotr v n = Ok r /\ 0 <= r < 2 ^ 128 /\ forall i, 0 <= i < 128 ->
     Z.testbit r i = Z.testbit v ((i + n) mod 128)).
Proof. exact arith_rot_native. Qed.
Print Assumptions C20_rotations_native_partial.
(* ... and undefined for n = 0 and n = 128: the property fails for the __int128 build *)
Theorem C20_rotations_native_refuted : forall v n, n = 0 \/ n = 128 ->
  n128_rotl v n = UB /\ n128_rotr v n = UB.
Proof. exact arith_rot_refuted. Qed.
Print Assumptions C20_rotations_native_refuted.
Example C20_nonvacuous :
  u128_rotl (U128 (2 ^ 63) 1) 1 = Ok (U128 0 3) /\ n128_rotl (2 ^ 127 + 1) 1 = Ok 3.
Proof. split; reflexivity. Qed.
