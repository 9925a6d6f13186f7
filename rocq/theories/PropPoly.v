(* Property theorems about polynomial/poly.hpp (ring arithmetic, transforms, rounding, centring,
   equality) and utility/utils.hpp (byte conversions, comparison). *)
From Coq Require Import ZArith List Bool.
From Verif Require Import ModelBase ModelField ModelUtils ModelPoly ModelVec ModelPolyChk PolyLemmas NttBounds.
From Verif Require Import Spec.
Import ListNotations.
Open Scope Z_scope.

(* a concrete polynomial used in the examples: 100 + 101 X + ... + 611 X^511 *)
Definition ex_poly : list Z := map Z.of_nat (seq 100 512).
Lemma ex_poly_is_poly : is_poly ex_poly.
Proof. apply is_polyb_ok. vm_compute. reflexivity. Qed.

(* C21: forward and inverse transform are mutually inverse on polynomials with reduced
   coefficients, and their outputs are again reduced. *)
Theorem C21_transforms_inverse : forall p, is_poly p ->
  is_poly (ntt p) /\ is_poly (intt p) /\ intt (ntt p) = p /\ ntt (intt p) = p.
Proof. exact transforms_inverse. Qed.
Print Assumptions C21_transforms_inverse.
Example C21_nonvacuous : is_poly ex_poly /\ intt (ntt ex_poly) = ex_poly.
Proof. exact (conj ex_poly_is_poly (proj1 (proj2 (proj2 (transforms_inverse ex_poly ex_poly_is_poly))))). Qed.

(* C22: transform-domain products are negacyclic products; the transform evaluates at the odd
   powers of zeta, a 1024-th root of unity (zeta^512 = -1), in bit-reversed order. *)
Theorem C22_transform_products :
  (forall a b, is_poly a -> is_poly b -> intt (poly_mul (ntt a) (ntt b)) = ring_mul a b) /\
  (forall a i, is_poly a -> (i < 512)%nat ->
     coef (ntt a) i = eval a (zeta ^ (2 * Z.of_nat (bit_reverse 9 i) + 1)) mod q) /\
  (zeta ^ 512) mod q = (-1) mod q.
Proof. exact transform_products. Qed.
Print Assumptions C22_transform_products.
(* X^511 * X = -1 in the ring *)
Definition ex_X : list Z := 0 :: 1 :: repeat 0 510.
Definition ex_X511 : list Z := repeat 0 511 ++ [1].
Example C22_nonvacuous : is_poly ex_X /\ is_poly ex_X511 /\
  coef (intt (poly_mul (ntt ex_X) (ntt ex_X511))) 0 = q - 1.
Proof.
  assert (A : is_poly ex_X) by (apply is_polyb_ok; vm_compute; reflexivity).
  assert (B : is_poly ex_X511) by (apply is_polyb_ok; vm_compute; reflexivity).
  split; [exact A|]. split; [exact B|].
  rewrite (proj1 transform_products _ _ A B).
  unfold coef, ring_mul. cbn [seq map nth]. vm_compute. reflexivity.
Qed.

(* C23: with every array access checked (out of bounds = UB) the transforms finish without UB on
   every polynomial (any coefficients), and give the same result as without the checks. *)
Theorem C23_transforms_in_bounds : forall p, length p = 512%nat ->
  ntt_chk p = Ok (ntt p) /\ intt_chk p = Ok (intt p).
Proof. exact (fun p H => conj (ntt_chk_ok p H) (intt_chk_ok p H)). Qed.
Print Assumptions C23_transforms_in_bounds.
Example C23_nonvacuous : ntt_butterfly_chk 3 256 (repeat 7 511) 255 = UB /\ ntt_chk ex_poly = Ok (ntt ex_poly).
Proof. split; [vm_compute; reflexivity|]. apply ntt_chk_ok. reflexivity. Qed.

(* C30: centring modulo m is the bijection from [0, m) onto -(m/2) .. (m-1)/2 preserving residues,
   and from_centered is its inverse; in particular for the hint modulus q >> 44 and for q. *)
Theorem C30_centering : forall m, 0 < m <= 2 ^ 62 ->
  (forall a, Forall (fun x => 0 <= x < m) a ->
     poly_center m a = map (centered m) a /\
     Forall (fun y => - (m / 2) <= y <= (m - 1) / 2) (poly_center m a) /\
     poly_from_centered m (poly_center m a) = a) /\
  (forall c, Forall (fun y => - (m / 2) <= y <= (m - 1) / 2) c ->
     poly_from_centered m c = map (fun y => y mod m) c /\
     Forall (fun x => 0 <= x < m) (poly_from_centered m c) /\
     poly_center m (poly_from_centered m c) = c) /\
  (forall x, centered m x mod m = x mod m).
Proof. exact centering. Qed.
Print Assumptions C30_centering.
Example C30_nonvacuous : 0 < shr64 Q 44 <= 2 ^ 62 /\ 0 < Q <= 2 ^ 62 /\
  poly_center (shr64 Q 44) [0; 1; 15; 16; 30] = [0; 1; 15; -15; -1] /\
  poly_from_centered Q [-1; 5] = [Q - 1; 5].
Proof. vm_compute. repeat split; congruence. Qed.

(* C31: rounding right shift *)
Theorem C31_rounding_shift : forall nu a, 1 <= nu <= 47 -> is_poly a ->
  poly_rounding_shr nu a = map (fun x => ((x + 2 ^ (nu - 1)) / 2 ^ nu) mod (q / 2 ^ nu)) a /\
  Forall (fun x => 0 <= x < q / 2 ^ nu) (poly_rounding_shr nu a).
Proof. exact rounding. Qed.
Print Assumptions C31_rounding_shift.
Example C31_nonvacuous : is_poly (repeat (q - 1) 512) /\
  nth 3 (poly_rounding_shr 42 (repeat (q - 1) 512)) 7 = 0 /\
  nth 3 (poly_rounding_shr 42 (repeat (2 ^ 41) 512)) 7 = 1.
Proof.
  split; [apply is_polyb_ok; vm_compute; reflexivity|].
  vm_compute. split; reflexivity.
Qed.

(* C35: equality mask of two equally long byte arrays *)
Theorem C35_byte_array_comparison : forall a b, length a = length b ->
  (a = b -> ct_eq_byte_array a b = 2 ^ 32 - 1) /\ (a <> b -> ct_eq_byte_array a b = 0).
Proof. exact byte_eq. Qed.
Print Assumptions C35_byte_array_comparison.
Example C35_nonvacuous : ct_eq_byte_array [1; 2; 255] [1; 2; 255] = 4294967295 /\
  ct_eq_byte_array [1; 2; 255] [1; 2; 254] = 0 /\ ct_eq_byte_array [0; 2; 255] [1; 2; 255] = 0.
Proof. vm_compute. repeat split; reflexivity. Qed.

(* C36: little-endian conversions *)
Theorem C36_little_endian :
  (forall l, Forall is_byte l -> from_le_bytes 8 l = le_value (firstn 8 l)) /\
  (forall v dst, 0 <= v < 2 ^ 64 -> Forall is_byte dst ->
     let n := Nat.min 8 (length dst) in
     Forall is_byte (to_le_bytes v dst) /\
     length (to_le_bytes v dst) = length dst /\
     le_value (firstn n (to_le_bytes v dst)) = v mod 2 ^ (8 * Z.of_nat n) /\
     skipn n (to_le_bytes v dst) = skipn n dst /\
     from_le_bytes 8 (to_le_bytes v dst) = v mod 2 ^ (8 * Z.of_nat n)).
Proof. exact le_conv. Qed.
Print Assumptions C36_little_endian.
Example C36_nonvacuous : from_le_bytes 8 [1; 2; 3] = 197121 /\
  to_le_bytes 197121 [9; 9; 9; 9; 9; 9; 9; 9; 77] = [1; 2; 3; 0; 0; 0; 0; 0; 77] /\
  to_le_bytes 197121 [9; 9] = [1; 2].
Proof. vm_compute. repeat split; reflexivity. Qed.

(* C37: left shift. General law, exactness while no bit leaves the 64-bit word, exactness for the
   7-bit coefficients of a public key, and a reduced coefficient for which it is not exact. *)
Theorem C37_left_shift :
  (forall x n, 0 <= x < 2 ^ 64 -> 0 <= n < 64 -> zq_shl x n = ((x * 2 ^ n) mod 2 ^ 64) mod q) /\
  (forall x n, 0 <= x -> 0 <= n < 64 -> x * 2 ^ n < 2 ^ 64 -> zq_shl x n = (2 ^ n * x) mod q) /\
  (forall a, length a = 512%nat -> Forall (fun x => 0 <= x < 128) a ->
     poly_shl 42 a = ring_scale (2 ^ 42) a /\ is_poly (poly_shl 42 a)) /\
  (exists x, reduced x /\ zq_shl x 42 <> (2 ^ 42 * x) mod q).
Proof. exact left_shift. Qed.
Print Assumptions C37_left_shift.
Example C37_nonvacuous : zq_shl 127 42 = (2 ^ 42 * 127) mod q /\ zq_shl 127 42 <> 0 /\ 2 ^ 42 * 127 > q.
Proof. vm_compute. repeat split; congruence. Qed.

(* C42: equality of polynomials, masked polynomials, vectors *)
Theorem C42_equality :
  (forall a b, length a = 512%nat -> length b = 512%nat -> (poly_eqb a b = true <-> a = b)) /\
  (forall d a b, length a = d -> length b = d ->
     Forall (fun p => length p = 512%nat) a -> Forall (fun p => length p = 512%nat) b ->
     (mp_eqb a b = true <-> a = b)) /\
  (forall k d a b, length a = k -> length b = k ->
     Forall (fun m => length m = d /\ Forall (fun p => length p = 512%nat) m) a ->
     Forall (fun m => length m = d /\ Forall (fun p => length p = 512%nat) m) b ->
     (pv_eqb a b = true <-> a = b)).
Proof. exact equality. Qed.
Print Assumptions C42_equality.
Example C42_nonvacuous : poly_eqb ex_poly ex_poly = true /\ poly_eqb ex_poly (repeat 0 512) = false /\
  pv_eqb [[ex_poly; ex_poly]; [ex_poly; ex_poly]] [[ex_poly; ex_poly]; [ex_poly; ex_X]] = false.
Proof. vm_compute. repeat split; reflexivity. Qed.
