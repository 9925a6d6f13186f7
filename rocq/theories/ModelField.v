(* Model of include/raccoon/internals/math/field.hpp. *)
From Verif Require Import ModelBase ModelU128.
Open Scope Z_scope.

(* field.hpp:11-17 *)
Definition Q1 : Z := 2 ^ 24 - 2 ^ 18 + 1.
Definition Q2 : Z := 2 ^ 25 - 2 ^ 18 + 1.
Definition Q : Z := mul64 Q1 Q2.
Definition Q_BIT_WIDTH : Z := bit_width Q.

(* field.hpp:20 *)
Definition R : Z := u128_to 64 (u128_div (u128_shl (u128_from 1) (2 * Q_BIT_WIDTH)) (u128_from Q)).

(* field.hpp:38-46 *)
Definition reduce_once (v : Z) : Z :=
  let t := sub64 v Q in
  let mask := neg64 (shr64 t 63) in
  let q_masked := Z.land Q mask in
  add64 t q_masked.

(* field.hpp:54-86 *)
Definition barrett_reduce (v : u128) : Z :=
  let op0_hi := u128_shr v 64 in
  let op0_lo := u128_and v (u128_from (two64 - 1)) in
  let op1_hi := u128_zero in
  let op1_lo := u128_from R in
  let hi := u128_mul op0_hi op1_hi in
  let mid := u128_add (u128_mul op0_hi op1_lo) (u128_mul op1_hi op0_lo) in
  let lo := u128_mul op0_lo op1_lo in
  let mid_hi := u128_shr mid 64 in
  let mid_lo := u128_and mid (u128_from (two64 - 1)) in
  let t0 := u128_shr lo 64 in
  let t1 := u128_add t0 mid_lo in
  let carry := u128_shr t1 64 in
  let res_hi := u128_add (u128_add hi mid_hi) carry in
  let res_lo := u128_add lo (u128_shl mid_lo 64) in
  let res := u128_or (u128_shl (u128_and res_hi (u128_from 1048575)) 30)
                     (u128_shr res_lo (2 * Q_BIT_WIDTH)) in
  let t2 := u128_mul res (u128_from Q) in
  let t3 := u128_to 64 (u128_sub v t2) in
  reduce_once t3.

(* field.hpp:125 *)
Definition zq_add (a b : Z) : Z := reduce_once (add64 a b).
(* field.hpp:129-130 *)
Definition zq_neg (a : Z) : Z := sub64 Q a.
Definition zq_sub (a b : Z) : Z := zq_add a (zq_neg b).
(* field.hpp:134 *)
Definition zq_mul (a b : Z) : Z := barrett_reduce (u128_mul (u128_from a) (u128_from b)).
(* field.hpp:138, 142; offset < 64 at every call site *)
Definition zq_shr (a offset : Z) : Z := shr64 a offset.
Definition zq_shl (a offset : Z) : Z := barrett_reduce (u128_from (shl64 a offset)).

(* field.hpp:97-112: one signed division and three updates per iteration; int64_t arithmetic,
   overflow is UB. C++ `/` truncates: Z.quot. *)
Fixpoint xgcd_loop (fuel : nat) (old_a a old_b b old_g g : Z) : res (Z * Z * Z) :=
  if g =? 0 then Ok (old_a, old_b, old_g)
  else match fuel with
  | O => OutOfFuel
  | S f =>
      let quotient := Z.quot old_g g in
      pa <- s64_chk (quotient * a) ;; a' <- s64_chk (old_a - pa) ;;
      pb <- s64_chk (quotient * b) ;; b' <- s64_chk (old_b - pb) ;;
      pg <- s64_chk (quotient * g) ;; g' <- s64_chk (old_g - pg) ;;
      xgcd_loop f a a' b b' g g'
  end.
(* field.hpp:91-115; `int64_t old_g = x, g = y` are implicit conversions. The loop needs at most
   64 * 2 iterations (proved), hence the fixed fuel. *)
Definition XGCD_FUEL : nat := 130.
Definition xgcd (x y : Z) : res (Z * Z * Z) :=
  xgcd_loop XGCD_FUEL 1 0 0 1 (s64_of_u64 x) (s64_of_u64 y).

(* field.hpp:145-163; the boolean is is_invertible_t::yes *)
Definition zq_inv (v : Z) : res (Z * bool) :=
  if v =? 0 then Ok (0, false)
  else
    '(a, _, g) <- xgcd v Q ;;
    if negb (g =? 1) then Ok (0, false)
    else
      let a := a + (if a <? 0 then Q else 0) in
      let a := a - (if Q <=? a then Q else 0) in
      Ok (u64_of_s64 a, true).
(* field.hpp:164-168 *)
Definition zq_div (a rhs : Z) : res (Z * bool) :=
  '(i, flg) <- zq_inv rhs ;; Ok (zq_mul a i, flg).

(* field.hpp:181-186: iterations i = i0 .. till-1 *)
Fixpoint zq_pow_loop (n : Z) (cnt : nat) (i : Z) (base res : Z) : Z :=
  match cnt with
  | O => res
  | S c =>
      let base := zq_mul base base in
      let br := if Z.land (shr64 n i) 1 =? 0 then 1 else base in
      zq_pow_loop n c (i + 1) base (zq_mul res br)
  end.
(* field.hpp:171-189; `br[bit]` is a two-entry table lookup, `till - 1` iterations (none when
   till <= 1) *)
Definition zq_pow (base : Z) (n : Z) : Z :=
  let res := if Z.land n 1 =? 0 then 1 else base in
  let zeros := clz64 n in
  let till := 64 - zeros in
  zq_pow_loop n (Z.to_nat (till - 1)) 1 base res.

(* field.hpp:195-201: 8 bytes from the PRNG, read as a little-endian word by reinterpret_cast *)
Definition zq_random_of_word (v : Z) : Z := barrett_reduce (u128_from v).
