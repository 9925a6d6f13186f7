(* Model of include/raccoon/internals/math/u64.hpp and math/u128.hpp. *)
From Verif Require Import ModelBase.
Open Scope Z_scope.

(* u64.hpp:20-64, portable branch (lines 35-61): full 64x64 -> 128 product as (hi, lo). *)
Definition MASK32 : Z := 4294967295. (* (1ul << 32) - 1 *)
Definition mul_full_u64 (lhs rhs : Z) : Z * Z :=
  let lhs_hi32 := shr64 lhs 32 in
  let lhs_lo32 := Z.land lhs MASK32 in
  let rhs_hi32 := shr64 rhs 32 in
  let rhs_lo32 := Z.land rhs MASK32 in
  let hi := mul64 lhs_hi32 rhs_hi32 in
  let lo := mul64 lhs_lo32 rhs_lo32 in
  let loxhi := mul64 lhs_lo32 rhs_hi32 in
  let hixlo := mul64 lhs_hi32 rhs_lo32 in
  let loxhi_hi32 := shr64 loxhi 32 in
  let loxhi_lo32 := Z.land loxhi MASK32 in
  let hixlo_hi32 := shr64 hixlo 32 in
  let hixlo_lo32 := Z.land hixlo MASK32 in
  let lo_hi32 := shr64 lo 32 in
  let carry := shr64 (add64 (add64 lo_hi32 loxhi_lo32) hixlo_lo32) 32 in
  let res_hi := add64 (add64 (add64 hi loxhi_hi32) hixlo_hi32) carry in
  let res_lo := add64 (add64 lo (shl64 loxhi_lo32 32)) (shl64 hixlo_lo32 32) in
  (res_hi, res_lo).

(* u128.hpp:25-34, portable branch: two 64-bit words. *)
Record u128 : Type := U128 { u_hi : Z; u_lo : Z }.

(* u128.hpp:98, 113-126, 130-138 *)
Definition u128_zero : u128 := U128 0 0.
Definition u128_from (v : Z) : u128 := U128 0 v.
(* to<T>() for a T of [bits] bits (8/16/32/64) *)
Definition u128_to (bits : Z) (a : u128) : Z := u_lo a mod 2 ^ bits.

(* u128.hpp:141-157 *)
Definition u128_add (a rhs : u128) : u128 :=
  let u64_max := two64 - 1 in
  let lo := add64 (u_lo a) (u_lo rhs) in
  let tmp := sub64 u64_max (u_lo rhs) in
  let carry := b2z (tmp <? u_lo a) in
  let hi := add64 (add64 (u_hi a) (u_hi rhs)) carry in
  U128 hi lo.

(* u128.hpp:163-174 *)
Definition u128_neg (a : u128) : u128 :=
  let lo := neg64 (u_lo a) in
  let borrow := b2z (0 <? u_lo a) in
  let hi := neg64 (add64 (u_hi a) borrow) in
  U128 hi lo.

(* u128.hpp:177 *)
Definition u128_sub (a rhs : u128) : u128 := u128_add a (u128_neg rhs).

(* u128.hpp:183-195 *)
Definition u128_mul (a rhs : u128) : u128 :=
  let '(loxlo_hi64, loxlo_lo64) := mul_full_u64 (u_lo a) (u_lo rhs) in
  let lo := loxlo_lo64 in
  let hi := add64 (add64 (mul64 (u_lo a) (u_hi rhs)) (mul64 (u_hi a) (u_lo rhs))) loxlo_hi64 in
  U128 hi lo.

(* u128.hpp:221-246. For 0 <= n <= 128 all inner distances are < 64; for n > 128 line 241
   shifts by n-64 > 64 (see [u128_shl_chk]). *)
Definition u128_shl (a : u128) (n : Z) : u128 :=
  if n =? 0 then a
  else if n =? 128 then U128 0 0
  else if n <? 64 then
    let moved_bits := shr64 (u_lo a) (64 - n) in
    let hi := Z.lor (shl64 (u_hi a) n) moved_bits in
    let lo := shl64 (u_lo a) n in
    U128 hi lo
  else if n =? 64 then U128 (u_lo a) 0
  else U128 (shl64 (u_lo a) (n - 64)) 0.
Definition u128_shl_chk (a : u128) (n : Z) : res u128 :=
  if (0 <=? n) && (n <=? 128) then Ok (u128_shl a n) else UB.

(* u128.hpp:252-279 *)
Definition u128_shr (a : u128) (n : Z) : u128 :=
  if n =? 0 then a
  else if n =? 128 then U128 0 0
  else if n <? 64 then
    let mask := sub64 (shl64 1 n) 1 in
    let moved_bits := Z.land (u_hi a) mask in
    let hi := shr64 (u_hi a) n in
    let lo := Z.lor (shr64 (u_lo a) n) (shl64 moved_bits (64 - n)) in
    U128 hi lo
  else if n =? 64 then U128 0 (u_hi a)
  else U128 0 (shr64 (u_hi a) (n - 64)).
Definition u128_shr_chk (a : u128) (n : Z) : res u128 :=
  if (0 <=? n) && (n <=? 128) then Ok (u128_shr a n) else UB.

(* u128.hpp:291-304 *)
Definition u128_gt (a rhs : u128) : bool :=
  let flg0 := u_hi rhs <? u_hi a in
  let flg1 := u_hi a =? u_hi rhs in
  let flg2 := u_hi a <? u_hi rhs in
  let flg3 := u_lo rhs <? u_lo a in
  flg0 || (flg1 && flg3) || (negb flg2 && negb flg1).
(* u128.hpp:307 *)
Definition u128_lt (a rhs : u128) : bool := u128_gt rhs a.
(* u128.hpp:310-317 *)
Definition u128_eq (a rhs : u128) : bool := (u_hi a =? u_hi rhs) && (u_lo a =? u_lo rhs).
(* u128.hpp:320, 323 *)
Definition u128_ge (a rhs : u128) : bool := u128_gt a rhs || u128_eq a rhs.
Definition u128_le (a rhs : u128) : bool := u128_lt a rhs || u128_eq a rhs.
(* u128.hpp:326-333, 339-346 *)
Definition u128_or (a rhs : u128) : u128 :=
  U128 (Z.lor (u_hi a) (u_hi rhs)) (Z.lor (u_lo a) (u_lo rhs)).
Definition u128_and (a rhs : u128) : u128 :=
  U128 (Z.land (u_hi a) (u_hi rhs)) (Z.land (u_lo a) (u_lo rhs)).

(* u128.hpp:285, 288; (sizeof(u128_t) * 8) - n is a size_t subtraction *)
Definition u128_rotl (a : u128) (n : Z) : res u128 :=
  x <- u128_shl_chk a n ;; y <- u128_shr_chk a (sub64 128 n) ;; Ok (u128_or x y).
Definition u128_rotr (a : u128) (n : Z) : res u128 :=
  x <- u128_shr_chk a n ;; y <- u128_shl_chk a (sub64 128 n) ;; Ok (u128_or x y).

(* u128.hpp:40-62 *)
Definition u128_msb (a : u128) : Z :=
  if 0 <? u_hi a then sub64 127 (clz64 (u_hi a))
  else if 0 <? u_lo a then sub64 63 (clz64 (u_lo a))
  else 0.

(* u128.hpp:82-91: [n] remaining iterations of the for loop (shift + 1 in total) *)
Fixpoint u128_div_loop (n : nat) (quotient dividend divisor : u128) : u128 * u128 :=
  match n with
  | O => (quotient, dividend)
  | S n' =>
      let quotient := u128_shl quotient 1 in
      let '(dividend, quotient) :=
        if u128_ge dividend divisor
        then (u128_sub dividend divisor, u128_or quotient (u128_from 1))
        else (dividend, quotient) in
      let divisor := u128_shr divisor 1 in
      u128_div_loop n' quotient dividend divisor
  end.

(* u128.hpp:67-94.  The shift distance is msb(dividend) - msb(divisor), in 0..127. *)
Definition u128_divmod (dividend divisor : u128) : u128 * u128 :=
  if u128_gt divisor dividend then (u128_zero, dividend)
  else if u128_eq divisor dividend then (u128_from 1, u128_zero)
  else
    let shift := sub64 (u128_msb dividend) (u128_msb divisor) in
    u128_div_loop (S (Z.to_nat shift)) u128_zero dividend (u128_shl divisor shift).

(* u128.hpp:201-205, 211-215 *)
Definition u128_div (a rhs : u128) : u128 := fst (u128_divmod a rhs).
Definition u128_mod (a rhs : u128) : u128 := snd (u128_divmod a rhs).

(* ---- the PREFER_INT128_COMPILER_EXTENSION_TYPE branch of u128.hpp: `unsigned __int128` ----
   values are Z in [0, 2^128); shifting by >= 128 is undefined (C++ [expr.shift]). *)
Definition two128 : Z := 340282366920938463463374607431768211456.
Definition n128_add (a b : Z) : Z := (a + b) mod two128.          (* u128.hpp:144 *)
Definition n128_neg (a : Z) : Z := (- a) mod two128.              (* u128.hpp:166 *)
Definition n128_sub (a b : Z) : Z := n128_add a (n128_neg b).     (* u128.hpp:177 *)
Definition n128_mul (a b : Z) : Z := (a * b) mod two128.          (* u128.hpp:186 *)
Definition n128_shl (a n : Z) : res Z :=                          (* u128.hpp:224 *)
  if (0 <=? n) && (n <? 128) then Ok (Z.shiftl a n mod two128) else UB.
Definition n128_shr (a n : Z) : res Z :=                          (* u128.hpp:255 *)
  if (0 <=? n) && (n <? 128) then Ok (Z.shiftr a n) else UB.
Definition n128_rotl (a n : Z) : res Z :=                         (* u128.hpp:285 *)
  x <- n128_shl a n ;; y <- n128_shr a (sub64 128 n) ;; Ok (Z.lor x y).
Definition n128_rotr (a n : Z) : res Z :=                         (* u128.hpp:288 *)
  x <- n128_shr a n ;; y <- n128_shl a (sub64 128 n) ;; Ok (Z.lor x y).
