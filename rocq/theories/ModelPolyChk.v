(* The two transforms of poly.hpp once more, with every array access checked: reading or writing
   at an index outside the array is [UB].  (poly_t, POWERS_OF_zeta and NEG_POWERS_OF_zeta are
   std::array with operator[], so an out-of-range index is undefined behaviour in the C++ code.)
   Indices are size_t: the subtraction  k_beg - (start >> (l + 1))  is taken modulo 2^64, so an
   underflow gives a huge index. *)
From Verif Require Import ModelBase ModelU128 ModelField ModelUtils ModelPoly ModelVec.
Open Scope Z_scope.

(* std::array::operator[] const, array of any size *)
Definition aget (l : list Z) (i : Z) : res Z :=
  if (0 <=? i) && (i <? zlen l) then Ok (nth (Z.to_nat i) l 0) else UB.
(* assignment through std::array::operator[] *)
Definition aset (l : list Z) (i : Z) (v : Z) : res (list Z) :=
  if (0 <=? i) && (i <? zlen l) then Ok (upd (Z.to_nat i) v l) else UB.

(* poly.hpp:339-342 *)
Definition ntt_butterfly_chk (z : Z) (len : Z) (p : poly) (i : Z) : res poly :=
  y <- aget p (add64 i len) ;;
  let tmp := zq_mul z y in
  x <- aget p i ;;
  p <- aset p (add64 i len) (zq_sub x tmp) ;;
  x <- aget p i ;;
  aset p i (zq_add x tmp).
(* poly.hpp:326-344 *)
Definition ntt_layer_chk (l : nat) (p : poly) : res poly :=
  let len := shl64 1 (Z.of_nat l) in
  let k_beg := shr64 512 (Z.of_nat l + 1) in
  foldM (fun p start =>
           let k_now := add64 k_beg (shr64 start (Z.of_nat l + 1)) in
           z <- aget powers_of_zeta k_now ;;
           foldM (ntt_butterfly_chk z len) (map Z.of_nat (seq (Z.to_nat start) (Z.to_nat len))) p)
        (map Z.of_nat (range_step PN (Z.to_nat (shl64 len 1)))) p.
(* poly.hpp:320-346 *)
Definition ntt_chk (p : poly) : res poly :=
  foldM (fun p l => ntt_layer_chk l p) (rev (seq 0 LOG2N)) p.

(* poly.hpp:371-375 *)
Definition intt_butterfly_chk (nz : Z) (len : Z) (p : poly) (i : Z) : res poly :=
  tmp <- aget p i ;;
  x <- aget p i ;;
  y <- aget p (add64 i len) ;;
  p <- aset p i (zq_add x y) ;;
  y <- aget p (add64 i len) ;;
  p <- aset p (add64 i len) (zq_sub tmp y) ;;
  y <- aget p (add64 i len) ;;
  aset p (add64 i len) (zq_mul y nz).
(* poly.hpp:358-377 *)
Definition intt_layer_chk (l : nat) (p : poly) : res poly :=
  let len := shl64 1 (Z.of_nat l) in
  let k_beg := sub64 (shr64 512 (Z.of_nat l)) 1 in
  foldM (fun p start =>
           let k_now := sub64 k_beg (shr64 start (Z.of_nat l + 1)) in
           nz <- aget neg_powers_of_zeta k_now ;;
           foldM (intt_butterfly_chk nz len) (map Z.of_nat (seq (Z.to_nat start) (Z.to_nat len))) p)
        (map Z.of_nat (range_step PN (Z.to_nat (shl64 len 1)))) p.
(* poly.hpp:352-388 *)
Definition intt_chk (p : poly) : res poly :=
  p <- foldM (fun p l => intt_layer_chk l p) (seq 0 LOG2N) p ;;
  foldM (fun p i => x <- aget p i ;; aset p i (zq_mul x INV_N)) (map Z.of_nat (seq 0 PN)) p.
