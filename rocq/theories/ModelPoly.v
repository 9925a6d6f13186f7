(* Model of include/raccoon/internals/polynomial/poly.hpp. *)
From Verif Require Import ModelBase ModelU128 ModelField ModelUtils.
Open Scope Z_scope.

(* poly.hpp:16-17 *)
Definition LOG2N : nat := 9.
Definition PN : nat := 512. (* N = 1ul << LOG2N *)

(* poly.hpp:22 *)
Definition zeta : Z := 358453792785495.

(* poly.hpp:25-30; the static_assert makes a failing inversion a compile error *)
Definition INV_N : Z := match zq_inv (Z.of_nat PN) with Ok (v, true) => v | _ => 0 end.

(* poly.hpp:36-49 with mbw = LOG2N *)
Definition bit_rev (v : Z) : Z :=
  fold_left (fun v_rev i =>
               let bit := Z.land (Z.shiftr v (Z.of_nat i)) 1 in
               Z.lxor v_rev (Z.shiftl bit (Z.of_nat (LOG2N - 1 - i))))
            (seq 0 LOG2N) 0.

(* poly.hpp:51-63: entry i - begin_at (= n - (till - i)) holds zeta ^ bit_rev(i) *)
Definition gen_powers (n begin_at : nat) : list Z :=
  map (fun i => zq_pow zeta (bit_rev (Z.of_nat i))) (seq begin_at n).

(* poly.hpp:65-86 *)
Definition powers_of_zeta : list Z :=
  gen_powers (PN / 4) 0 ++ gen_powers (PN / 4) (PN / 4)
  ++ gen_powers (PN / 4) (2 * (PN / 4)) ++ gen_powers (PN / 4) (3 * (PN / 4)).

(* poly.hpp:89-97 *)
Definition neg_powers_of_zeta : list Z := map zq_neg powers_of_zeta.

(* poly.hpp:100-103: std::array<zq_t, N> *)
Definition poly : Type := list Z.
Definition poly_zero : poly := repeat 0 PN.

(* poly.hpp:106-115 *)
Definition reduce_once_mod (q x : Z) : Z :=
  let t := sub64 x q in
  let mask := neg64 (shr64 t 63) in
  let q_masked := Z.land q mask in
  add64 t q_masked.

(* poly.hpp:129 *)
Definition poly_fill (v : Z) : poly := repeat v PN.
(* poly.hpp:132-147; the coefficient-wise loops touch only index i: map2 *)
Definition poly_add (a b : poly) : poly := map2 zq_add a b.
(* poly.hpp:152-168 *)
Definition poly_add_mod (q : Z) (a b : poly) : poly :=
  map2 (fun x y => reduce_once_mod q (add64 x y)) a b.
(* poly.hpp:171-186 *)
Definition poly_sub (a b : poly) : poly := map2 zq_sub a b.
(* poly.hpp:191-205 *)
Definition poly_sub_mod (q : Z) (a b : poly) : poly :=
  map2 (fun x y => reduce_once_mod q (add64 x (sub64 q y))) a b.
(* poly.hpp:208-223 *)
Definition poly_mul (a b : poly) : poly := map2 zq_mul a b.
(* poly.hpp:226-240 *)
Definition poly_rounding_shr (bit_offset : Z) (a : poly) : poly :=
  let Q_prime := shr64 Q bit_offset in
  let rounding := shl64 1 (bit_offset - 1) in
  map (fun x => reduce_once_mod Q_prime (shr64 (add64 x rounding) bit_offset)) a.
(* poly.hpp:243-256 *)
Definition poly_shl (offset : Z) (a : poly) : poly := map (fun x => zq_shl x offset) a.
(* poly.hpp:259-267 *)
Definition poly_eqb (a b : poly) : bool :=
  fold_left (fun r i => r && (nth i a 0 =? nth i b 0)) (seq 0 PN) true.

(* poly.hpp:271-296; the final signed subtraction cannot overflow for x < 2 * Q_prime < 2^63
   (lemma [center_coeff_spec]) and is computed in Z *)
Definition center_coeff (Q_prime x : Z) : Z :=
  let Q_prime_by_2 := Q_prime / 2 in
  let y := add64 x Q_prime_by_2 in
  let t := sub64 y Q_prime in
  let mask := neg64 (shr64 t 63) in
  let res := add64 t (Z.land mask Q_prime) in
  s64_of_u64 res - s64_of_u64 Q_prime_by_2.
Definition poly_center (Q_prime : Z) (a : poly) : list Z := map (center_coeff Q_prime) a.

(* poly.hpp:300-314 *)
Definition from_centered_coeff (Q_prime x : Z) : Z :=
  let mask := u64_of_s64 (Z.shiftr x 63) in
  u64_of_s64 (x + s64_of_u64 (Z.land mask Q_prime)).
Definition poly_from_centered (Q_prime : Z) (c : list Z) : poly :=
  map (from_centered_coeff Q_prime) c.

(* poly.hpp:339-342: butterfly on indices i, i + len *)
Definition ntt_butterfly (z : Z) (len : nat) (p : poly) (i : nat) : poly :=
  let tmp := zq_mul z (nth (i + len) p 0) in
  let p := upd (i + len) (zq_sub (nth i p 0) tmp) p in
  upd i (zq_add (nth i p 0) tmp) p.
(* poly.hpp:326-344: one layer, len = 2^l *)
Definition ntt_layer (l : nat) (p : poly) : poly :=
  let len := (2 ^ l)%nat in
  let lenx2 := (len * 2)%nat in
  let k_beg := (PN / 2 ^ (l + 1))%nat in
  fold_left (fun p start =>
               let k_now := (k_beg + start / 2 ^ (l + 1))%nat in
               let zeta_exp := nth k_now powers_of_zeta 0 in
               fold_left (ntt_butterfly zeta_exp len) (seq start len) p)
            (range_step PN lenx2) p.
(* poly.hpp:320-346: l = LOG2N-1 downto 0 *)
Definition ntt (p : poly) : poly :=
  fold_left (fun p l => ntt_layer l p) (rev (seq 0 LOG2N)) p.

(* poly.hpp:371-375 *)
Definition intt_butterfly (nz : Z) (len : nat) (p : poly) (i : nat) : poly :=
  let tmp := nth i p 0 in
  let p := upd i (zq_add (nth i p 0) (nth (i + len) p 0)) p in
  let p := upd (i + len) (zq_sub tmp (nth (i + len) p 0)) p in
  upd (i + len) (zq_mul (nth (i + len) p 0) nz) p.
(* poly.hpp:358-377 *)
Definition intt_layer (l : nat) (p : poly) : poly :=
  let len := (2 ^ l)%nat in
  let lenx2 := (len * 2)%nat in
  let k_beg := (PN / 2 ^ l - 1)%nat in
  fold_left (fun p start =>
               let k_now := (k_beg - start / 2 ^ (l + 1))%nat in
               let neg_zeta_exp := nth k_now neg_powers_of_zeta 0 in
               fold_left (intt_butterfly neg_zeta_exp len) (seq start len) p)
            (range_step PN lenx2) p.
(* poly.hpp:352-388 *)
Definition intt (p : poly) : poly :=
  let p := fold_left (fun p l => intt_layer l p) (seq 0 LOG2N) p in
  map (fun x => zq_mul x INV_N) p.

(* ------------------------------------------------------------------------- *)
(* poly.hpp:394-434.  State of the while loop: XOF, buffer, buffer offset, accepted prefix
   res[0 .. coeff_idx) (the array entries from coeff_idx on are still zero and are not read). *)
Definition MASK49 : Z := shl64 1 Q_BIT_WIDTH - 1.
Definition NEEDED_BYTES : nat := Z.to_nat ((Q_BIT_WIDTH + 7) / 8).

Fixpoint sampleQ_loop (O : oracles) (fuel : nat) (x : xof) (buf : list Z) (off : nat)
         (acc : list Z) : res poly :=
  if (PN <=? length acc)%nat then Ok acc
  else match fuel with
  | O => OutOfFuel
  | S f =>
      let '(buf, off, x) :=
        if (length buf <? off + NEEDED_BYTES)%nat then
          let rem := (length buf - off)%nat in
          let kept := firstn rem (skipn off buf) in
          let '(fresh, x) := xof_squeeze O x (length buf - rem) in
          (kept ++ fresh, 0%nat, x)
        else (buf, off, x) in
      let coeff := Z.land (from_le_bytes 8 (firstn NEEDED_BYTES (skipn off buf))) MASK49 in
      let off := (off + NEEDED_BYTES)%nat in
      if Q <=? coeff then sampleQ_loop O f x buf off acc
      else sampleQ_loop O f x buf off (acc ++ [coeff])
  end.
Definition sampleQ (O : oracles) (fuel : nat) (hdr sigma : list Z) : res poly :=
  let x := xof_absorb (xof_absorb xof_new hdr) sigma in
  let '(buf, x) := xof_squeeze O x SHAKE256_RATE_BYTES in
  sampleQ_loop O fuel x buf 0 [].

(* poly.hpp:438-462 *)
Fixpoint sample_polynomial_loop (O : oracles) (fuel : nat) (d idx : nat) (m : mrng)
         (acc : list Z) : res (poly * mrng) :=
  if (PN <=? length acc)%nat then Ok (acc, m)
  else match fuel with
  | O => OutOfFuel
  | S f =>
      let '(v, m) := mrng_get O d idx m in
      let coeff := Z.land v MASK49 in
      if coeff <? Q then sample_polynomial_loop O f d idx m (acc ++ [coeff])
      else sample_polynomial_loop O f d idx m acc
  end.
Definition sample_polynomial (O : oracles) (fuel : nat) (d idx : nat) (m : mrng)
  : res (poly * mrng) :=
  if (d - 1 <=? idx)%nat then Ok (poly_zero, m)
  else sample_polynomial_loop O fuel d idx m [].

(* poly.hpp:466-497 *)
Definition chal_step (c_poly : poly) (b : list Z) : poly * nat :=
  let b_word := from_le_bytes 2 b in
  let b_0 := Z.land b_word 1 in
  let i := Z.to_nat (Z.land (Z.shiftr b_word 1) (2 ^ Z.of_nat LOG2N - 1)) in
  let cond := nth i c_poly 0 =? 0 in
  let v := if cond then zq_sub 1 (2 * b_0) else nth i c_poly 0 in
  (upd i v c_poly, if cond then 1%nat else 0%nat).
Fixpoint chal_poly_loop (O : oracles) (fuel : nat) (omega : nat) (x : xof) (c_poly : poly)
         (cnt : nat) : res poly :=
  if (omega <=? cnt)%nat then Ok c_poly
  else match fuel with
  | O => OutOfFuel
  | S f =>
      let '(b, x) := xof_squeeze O x 2 in
      let '(c_poly, inc) := chal_step c_poly b in
      chal_poly_loop O f omega x c_poly (cnt + inc)
  end.
Definition chal_poly (O : oracles) (fuel : nat) (omega : nat) (c_hash : list Z) : res poly :=
  let hdr := [99 (* 'c' *); Z.of_nat omega mod 256; 0; 0; 0; 0; 0; 0] in
  let x := xof_absorb (xof_absorb xof_new hdr) c_hash in
  chal_poly_loop O fuel omega x poly_zero 0.
