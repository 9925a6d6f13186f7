(* Model of include/raccoon/internals/math/{u64,u128,field}.hpp as compiled with
   PREFER_INT128_COMPILER_EXTENSION_TYPE (u64.hpp:10-12, u128.hpp:12-14): u128_t wraps one `unsigned __int128`, a Z in
   [0, 2^128), and each of its operators is the built-in one.  Shifts by 128 or more are undefined, so functions that
   shift are [res].  Nothing outside field.hpp mentions u128_t, so these are all the functions whose text changes. *)
From Verif Require Import ModelBase ModelU128 ModelField.
Open Scope Z_scope.

(* u64.hpp:23-31 *)
Definition mul_full_u64_n (lhs rhs : Z) : res (Z * Z) :=
  let r := n128_mul lhs rhs in
  s <- n128_shr r 64 ;; Ok (s mod two64, r mod two64).

(* u128.hpp:98 (data = 0), 113-126 (static_cast<u128>), 130-138 (static_cast<T>), 294, 307, 313, 320, 323, 329, 342 *)
Definition n128_zero : Z := 0.
Definition n128_from (v : Z) : Z := v.
Definition n128_to (bits : Z) (a : Z) : Z := a mod 2 ^ bits.
Definition n128_gt (a b : Z) : bool := b <? a.
Definition n128_lt (a b : Z) : bool := n128_gt b a.
Definition n128_eq (a b : Z) : bool := a =? b.
Definition n128_ge (a b : Z) : bool := n128_gt a b || n128_eq a b.
Definition n128_le (a b : Z) : bool := n128_lt a b || n128_eq a b.
Definition n128_or (a b : Z) : Z := Z.lor a b.
Definition n128_and (a b : Z) : Z := Z.land a b.

(* u128.hpp:42-52 *)
Definition n128_msb (a : Z) : res Z :=
  s64 <- n128_shr a 64 ;; s0 <- n128_shr a 0 ;;
  let hi := s64 mod two64 in
  let lo := s0 mod two64 in
  Ok (if 0 <? hi then sub64 127 (clz64 hi)
      else if 0 <? lo then sub64 63 (clz64 lo)
      else 0).

(* u128.hpp:82-91: division is the same shift-subtract loop in this build, on the built-in operators *)
Fixpoint n128_div_loop (n : nat) (quotient dividend divisor : Z) : res (Z * Z) :=
  match n with
  | O => Ok (quotient, dividend)
  | S n' =>
      quotient <- n128_shl quotient 1 ;;
      let '(dividend, quotient) :=
        if n128_ge dividend divisor
        then (n128_sub dividend divisor, n128_or quotient (n128_from 1))
        else (dividend, quotient) in
      divisor <- n128_shr divisor 1 ;;
      n128_div_loop n' quotient dividend divisor
  end.
(* u128.hpp:67-94 *)
Definition n128_divmod (dividend divisor : Z) : res (Z * Z) :=
  if n128_gt divisor dividend then Ok (n128_zero, dividend)
  else if n128_eq divisor dividend then Ok (n128_from 1, n128_zero)
  else
    ma <- n128_msb dividend ;; mb <- n128_msb divisor ;;
    let shift := sub64 ma mb in
    d <- n128_shl divisor shift ;;
    n128_div_loop (S (Z.to_nat shift)) n128_zero dividend d.
(* u128.hpp:201-205, 211-215 *)
Definition n128_div (a b : Z) : res Z := '(x, _) <- n128_divmod a b ;; Ok x.
Definition n128_mod (a b : Z) : res Z := '(_, y) <- n128_divmod a b ;; Ok y.

(* field.hpp:20 *)
Definition R_n : res Z :=
  s <- n128_shl (n128_from 1) (2 * Q_BIT_WIDTH) ;; d <- n128_div s (n128_from Q) ;; Ok (n128_to 64 d).

(* field.hpp:54-86 *)
Definition barrett_reduce_n (v : Z) : res Z :=
  op0_hi <- n128_shr v 64 ;;
  let op0_lo := n128_and v (n128_from (two64 - 1)) in
  let op1_hi := n128_zero in
  r <- R_n ;;
  let op1_lo := n128_from r in
  let hi := n128_mul op0_hi op1_hi in
  let mid := n128_add (n128_mul op0_hi op1_lo) (n128_mul op1_hi op0_lo) in
  let lo := n128_mul op0_lo op1_lo in
  mid_hi <- n128_shr mid 64 ;;
  let mid_lo := n128_and mid (n128_from (two64 - 1)) in
  t0 <- n128_shr lo 64 ;;
  let t1 := n128_add t0 mid_lo in
  carry <- n128_shr t1 64 ;;
  let res_hi := n128_add (n128_add hi mid_hi) carry in
  mid_lo_up <- n128_shl mid_lo 64 ;;
  let res_lo := n128_add lo mid_lo_up in
  top <- n128_shl (n128_and res_hi (n128_from 1048575)) 30 ;;
  bot <- n128_shr res_lo (2 * Q_BIT_WIDTH) ;;
  let res := n128_or top bot in
  let t2 := n128_mul res (n128_from Q) in
  let t3 := n128_to 64 (n128_sub v t2) in
  Ok (reduce_once t3).

(* field.hpp:134, 142, 195-201 *)
Definition zq_mul_n (a b : Z) : res Z := barrett_reduce_n (n128_mul (n128_from a) (n128_from b)).
Definition zq_shl_n (a offset : Z) : res Z := barrett_reduce_n (n128_from (shl64 a offset)).
Definition zq_random_of_word_n (v : Z) : res Z := barrett_reduce_n (n128_from v).
(* field.hpp:164-168 (inv() itself, 145-163, uses no u128_t) *)
Definition zq_div_n (a rhs : Z) : res (Z * bool) :=
  '(i, flg) <- zq_inv rhs ;; m <- zq_mul_n a i ;; Ok (m, flg).
(* field.hpp:171-189 *)
Fixpoint zq_pow_loop_n (n : Z) (cnt : nat) (i : Z) (base r : Z) : res Z :=
  match cnt with
  | O => Ok r
  | S c =>
      base' <- zq_mul_n base base ;;
      let br := if Z.land (shr64 n i) 1 =? 0 then 1 else base' in
      r' <- zq_mul_n r br ;;
      zq_pow_loop_n n c (i + 1) base' r'
  end.
Definition zq_pow_n (base n : Z) : res Z :=
  let r := if Z.land n 1 =? 0 then 1 else base in
  let zeros := clz64 n in
  let till := 64 - zeros in
  zq_pow_loop_n n (Z.to_nat (till - 1)) 1 base r.
