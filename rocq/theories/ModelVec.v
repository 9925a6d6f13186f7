(* Model of include/raccoon/internals/polynomial/masked_poly.hpp, poly_vec.hpp, poly_mat.hpp,
   challenge.hpp. *)
From Verif Require Import ModelBase ModelU128 ModelField ModelUtils ModelPoly.
Open Scope Z_scope.

Fixpoint foldM {S A} (f : S -> A -> res S) (l : list A) (s : S) : res S :=
  match l with
  | [] => Ok s
  | a :: l' => s' <- f s a ;; foldM f l' s'
  end.

(* masked_poly.hpp:10-13: d shares *)
Definition mpoly : Type := list poly.
(* poly_vec.hpp:11-14: rows *)
Definition pvec : Type := list mpoly.

(* ------------------------------ masked_poly.hpp ------------------------------ *)
(* masked_poly.hpp:79-88, 107-116, 95-104, 122-132, 156-165, 147-153, 168-176 *)
Definition mp_add (a b : mpoly) : mpoly := map2 poly_add a b.
Definition mp_sub (a b : mpoly) : mpoly := map2 poly_sub a b.
Definition mp_add_mod (q : Z) (a b : mpoly) : mpoly := map2 (poly_add_mod q) a b.
Definition mp_sub_mod (q : Z) (a b : mpoly) : mpoly := map2 (poly_sub_mod q) a b.
Definition mp_shl (off : Z) (a : mpoly) : mpoly := map (poly_shl off) a.
Definition mp_rounding_shr (off : Z) (a : mpoly) : mpoly := map (poly_rounding_shr off) a.
Definition mp_eqb (a b : mpoly) : bool :=
  fold_left (fun r i => r && poly_eqb (nth i a []) (nth i b [])) (seq 0 (length b)) true.
(* masked_poly.hpp:179-192 *)
Definition mp_ntt (a : mpoly) : mpoly := map ntt a.
Definition mp_intt (a : mpoly) : mpoly := map intt a.

(* masked_poly.hpp:217-220 and 227-230: share[sidx] += r; share[sidx + off] -= r *)
Definition zenc_step (O : oracles) (fuel d off : nat) (st : mpoly * mrng) (sidx : nat)
  : res (mpoly * mrng) :=
  let '(mp, m) := st in
  '(r, m) <- sample_polynomial O fuel d sidx m ;;
  if (sidx + off <? length mp)%nat then
    let mp := upd sidx (poly_add (nth sidx mp []) r) mp in
    Ok (upd (sidx + off) (poly_sub (nth (sidx + off) mp []) r) mp, m)
  else UB.
(* masked_poly.hpp:223-235: while (d_idx < d) { ..; d_idx <<= 1 }; at most d iterations *)
Fixpoint zenc_while (O : oracles) (fuel : nat) (n : nat) (d d_idx : nat) (st : mpoly * mrng)
  : res (mpoly * mrng) :=
  if (d <=? d_idx)%nat then Ok st
  else match n with
  | O => OutOfFuel
  | S n' =>
      st <- foldM (fun st i => foldM (zenc_step O fuel d d_idx) (seq i d_idx) st)
                  (range_step d (2 * d_idx)) st ;;
      zenc_while O fuel n' d (2 * d_idx) st
  end.
(* masked_poly.hpp:211-237 *)
Definition mp_zero_encoding (O : oracles) (fuel d : nat) (m : mrng) : res (mpoly * mrng) :=
  let mp := repeat (poly_fill 0) d in
  if (1 <? d)%nat then
    st <- foldM (zenc_step O fuel d 1) (range_step d 2) (mp, m) ;;
    zenc_while O fuel d d 2 st
  else Ok (mp, m).

(* masked_poly.hpp:242-248 *)
Definition mp_refresh (O : oracles) (fuel d : nat) (a : mpoly) (m : mrng) : res (mpoly * mrng) :=
  '(z, m) <- mp_zero_encoding O fuel d m ;; Ok (mp_add a z, m).

(* masked_poly.hpp:253-262: sum of shares, starting from the zero polynomial *)
Definition mp_decode (a : mpoly) : poly := fold_left poly_add a poly_zero.

(* masked_poly.hpp:17-57 *)
Definition sampleU_coeff (u : Z) (b : list Z) : Z :=
  let mask_msb := shl64 1 (u - 1) in
  let mask_lsb := mask_msb - 1 in
  let b_word := from_le_bytes 8 b in
  let msb := s64_of_u64 (Z.land b_word mask_msb) in
  let lsb := s64_of_u64 (Z.land b_word mask_lsb) in
  lsb - msb.
(* the while loop visits coefficient i at byte offset i * squeezed_bytes_per_coeff *)
Definition sampleU (O : oracles) (u : Z) (hdr sigma : list Z) : list Z :=
  let per := Z.to_nat ((u + 7) / 8) in
  let '(bytes, _) :=
    xof_squeeze O (xof_absorb (xof_absorb xof_new hdr) sigma) (per * PN) in
  map (fun i => sampleU_coeff u (firstn per (skipn (i * per) bytes))) (seq 0 PN).

(* masked_poly.hpp:281-288 *)
Definition noise_coeff (raw f : Z) : Z :=
  let coeff := s64_of_u64 raw + f in
  let is_lt_zero := neg64 (shr64 (u64_of_s64 coeff) 63) in
  let is_ge_q := ct_ge64 (Z.land (u64_of_s64 coeff) (not64 is_lt_zero)) Q in
  u64_of_s64 (s64_of_u64 (Z.land Q is_lt_zero) + coeff - s64_of_u64 (Z.land Q is_ge_q)).

Definition kbytes (kappa : Z) : nat := Z.to_nat (kappa / 8).

(* masked_poly.hpp:274-290: one iteration of the share loop *)
Definition noise_share (O : oracles) (u kappa : Z) (idx i_rep : nat)
           (st : mpoly * prng) (sidx : nat) : mpoly * prng :=
  let '(mp, p) := st in
  let '(sigma, p) := prng_read p (kbytes kappa) in
  let hdr_u := [117 (* 'u' *); Z.of_nat i_rep mod 256; Z.of_nat idx mod 256;
                Z.of_nat sidx mod 256; 0; 0; 0; 0] in
  let poly_u := sampleU O u hdr_u sigma in
  (upd sidx (map2 noise_coeff (nth sidx mp []) poly_u) mp, p).
(* masked_poly.hpp:268-294; [d] shares *)
Definition mp_add_rep_noise (O : oracles) (fuel : nat) (u : Z) (rep : nat) (kappa : Z) (d : nat)
           (idx : nat) (a : mpoly) (p : prng) (m : mrng) : res (mpoly * prng * mrng) :=
  foldM (fun '(a, p, m) i_rep =>
           let '(a, p) := fold_left (noise_share O u kappa idx i_rep) (seq 0 d) (a, p) in
           '(a, m) <- mp_refresh O fuel d a m ;;
           Ok (a, p, m))
        (seq 0 rep) (a, p, m).

(* ------------------------------ poly_vec.hpp ------------------------------ *)
(* poly_vec.hpp:28-37, 41-51, 54-63, 67-77, 80-91, 94-113, 116-140 *)
Definition pv_add (a b : pvec) : pvec := map2 mp_add a b.
Definition pv_add_mod (q : Z) (a b : pvec) : pvec := map2 (mp_add_mod q) a b.
Definition pv_sub (a b : pvec) : pvec := map2 mp_sub a b.
Definition pv_sub_mod (q : Z) (a b : pvec) : pvec := map2 (mp_sub_mod q) a b.
Definition pv_mul_poly (a : pvec) (c : poly) : pvec := map (map (fun s => poly_mul s c)) a.
Definition pv_rounding_shr (off : Z) (a : pvec) : pvec := map (mp_rounding_shr off) a.
Definition pv_shl (off : Z) (a : pvec) : pvec := map (mp_shl off) a.
Definition pv_eqb (a b : pvec) : bool :=
  fold_left (fun r i => r && mp_eqb (nth i a []) (nth i b [])) (seq 0 (length b)) true.
Definition pv_ntt (a : pvec) : pvec := map mp_ntt a.
Definition pv_intt (a : pvec) : pvec := map mp_intt a.

(* poly_vec.hpp:144-153 *)
Definition pv_zero_encoding (O : oracles) (fuel rows d : nat) (m : mrng) : res (pvec * mrng) :=
  foldM (fun '(v, m) _ => '(z, m) <- mp_zero_encoding O fuel d m ;; Ok (v ++ [z], m))
        (seq 0 rows) ([], m).
(* poly_vec.hpp:158-163 *)
Definition pv_refresh (O : oracles) (fuel d : nat) (v : pvec) (m : mrng) : res (pvec * mrng) :=
  foldM (fun '(acc, m) row => '(z, m) <- mp_refresh O fuel d row m ;; Ok (acc ++ [z], m))
        v ([], m).
(* poly_vec.hpp:168-177: poly_vec_t<rows, 1> *)
Definition pv_decode (v : pvec) : pvec := map (fun row => [mp_decode row]) v.
(* poly_vec.hpp:181-187 *)
Definition pv_add_rep_noise (O : oracles) (fuel : nat) (u : Z) (rep : nat) (kappa : Z) (d : nat)
           (v : pvec) (p : prng) (m : mrng) : res (pvec * prng * mrng) :=
  foldM (fun '(acc, p, m) ridx =>
           '(z, p, m) <- mp_add_rep_noise O fuel u rep kappa d ridx (nth ridx v []) p m ;;
           Ok (acc ++ [z], p, m))
        (seq 0 (length v)) ([], p, m).

(* ------------------------------ poly_mat.hpp ------------------------------ *)
(* poly_mat.hpp:13-21: row-major array of rows * cols polynomials *)
Definition pmat : Type := list poly.
Definition mat_get (cols : nat) (A : pmat) (r c : nat) : poly := nth (r * cols + c) A [].
(* poly_mat.hpp:27-41: for each row, accumulate over columns and shares *)
Definition mat_mul (rows cols d : nat) (A : pmat) (v : pvec) : pvec :=
  map (fun r =>
         fold_left (fun acc c =>
                      map2 (fun a s => poly_add a (poly_mul (mat_get cols A r c) s))
                           acc (nth c v []))
                   (seq 0 cols) (repeat poly_zero d))
      (seq 0 rows).

(* poly_mat.hpp:45-58 *)
Definition expandA_hdr (ridx cidx : nat) : list Z :=
  [65 (* 'A' *); Z.of_nat ridx mod 256; Z.of_nat cidx mod 256; 0; 0; 0; 0; 0].
Definition expandA (O : oracles) (fuel : nat) (k l : nat) (seed : list Z) : res pmat :=
  foldM (fun A ridx =>
           foldM (fun A cidx =>
                    p <- sampleQ O fuel (expandA_hdr ridx cidx) seed ;; Ok (A ++ [p]))
                 (seq 0 l) A)
        (seq 0 k) [].

(* ------------------------------ challenge.hpp ------------------------------ *)
(* coefficients of an unmasked vector in the order of challenge.hpp:29-45
   (row_idx = w_idx / N, coeff_idx = w_idx % N), of sig_t (signature.hpp:33-45) and of the
   serialization loops: row after row *)
Definition pv_flat (v : pvec) : list Z := concat (map (fun row => nth 0 row []) v).

(* challenge.hpp:32-45; [buf] is _buffer[0 .. buf_off) *)
Fixpoint chal_hash_loop (ws : list Z) (buf : list Z) (x : xof) : list Z * xof :=
  match ws with
  | [] => (buf, x)
  | w :: ws' =>
      let '(buf, x) :=
        if (length buf =? SHAKE256_RATE_BYTES)%nat then ([], xof_absorb x buf) else (buf, x) in
      chal_hash_loop ws' (buf ++ [w mod 256]) x
  end.
(* challenge.hpp:10-56; k = number of rows of w, output 2 * kappa bits *)
Definition chal_hash (O : oracles) (kappa : Z) (k : nat) (w : pvec) (mu : list Z) : list Z :=
  let hdr := [104 (* 'h' *); Z.of_nat k mod 256; 0; 0; 0; 0; 0; 0] in
  let '(buf, x) := chal_hash_loop (pv_flat w) hdr xof_new in
  let x := if (0 <? length buf)%nat then xof_absorb x buf else x in
  let x := xof_absorb x mu in
  fst (xof_squeeze O x (kbytes (2 * kappa))).
