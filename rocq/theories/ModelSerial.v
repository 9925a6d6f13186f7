(* Model of include/raccoon/internals/utility/serialization.hpp. *)
From Verif Require Import ModelBase ModelU128 ModelField ModelUtils ModelPoly ModelVec.
Open Scope Z_scope.

(* ------------------------------ public key ------------------------------ *)

(* serialization.hpp:21-25, 72-77 *)
Definition pk_bitcnt (nut : Z) : Z := Q_BIT_WIDTH - nut.
Definition pk_bitmask (nut : Z) : Z := shl64 1 (pk_bitcnt nut) - 1.
Definition pk_buf_bits (nut : Z) : Z := Z.lcm (pk_bitcnt nut) 8.
Definition pk_buf_bytes (nut : Z) : Z := pk_buf_bits nut / 8.

(* to_le_bytes(buffer, out.subspan(off, n)) *)
Definition put_le (out : list Z) (off n : Z) (buffer : Z) : res (list Z) :=
  sp <- subspan out off n ;; write_at out off (to_le_bytes buffer sp).

(* serialization.hpp:37-43 and 52-58: flush when the buffer is full *)
Record pkenc : Type := PkEnc { pe_out : list Z; pe_idx : Z; pe_bits : Z; pe_buf : Z }.
Definition pk_flush (nut : Z) (st : pkenc) : res pkenc :=
  if pe_bits st =? pk_buf_bits nut then
    out <- put_le (pe_out st) (pe_idx st) (pk_buf_bytes nut) (pe_buf st) ;;
    Ok (PkEnc out (pe_idx st + pk_buf_bytes nut) 0 0)
  else Ok st.
(* serialization.hpp:45-46 *)
Definition pk_put (nut : Z) (st : pkenc) (c : Z) : res pkenc :=
  v <- shl_chk (Z.land c (pk_bitmask nut)) (pe_bits st) ;;
  Ok (PkEnc (pe_out st) (pe_idx st) (pe_bits st + pk_bitcnt nut) (Z.lor (pe_buf st) v)).
(* serialization.hpp:10-59; the while/for nest visits the coefficients row after row: pv_flat.
   [pkey] is the previous contents of the destination. *)
Definition encode_public_key (nut : Z) (seed : list Z) (t : pvec) (pkey : list Z)
  : res (list Z) :=
  out <- write_at pkey 0 seed ;;
  st <- foldM (fun st c => st <- pk_flush nut st ;; pk_put nut st c)
              (pv_flat t) (PkEnc out (zlen seed) 0 0) ;;
  st <- pk_flush nut st ;;
  Ok (pe_out st).

(* cutting a coefficient array t[ridx][0][cidx], index ridx * N + cidx, into rows *)
Definition rows_of (k : nat) (flat : list Z) : pvec :=
  map (fun r => [firstn PN (skipn (r * PN) flat)]) (seq 0 k).

(* serialization.hpp:88-96: one buffer of dec_coeffs_per_round coefficients written at t_idx;
   an index outside t is undefined *)
Definition pk_unpack (nut : Z) (t : list Z) (t_idx : Z) (buffer : Z) : res (list Z * Z) :=
  '(t, t_idx, _) <-
    foldM (fun '(t, t_idx, buffer) _ =>
             t <- write_at t t_idx [Z.land buffer (pk_bitmask nut)] ;;
             Ok (t, t_idx + 1, shr64 buffer (pk_bitcnt nut)))
          (seq 0 (Z.to_nat (pk_buf_bits nut / pk_bitcnt nut))) (t, t_idx, buffer) ;;
  Ok (t, t_idx).
(* serialization.hpp:84-97; every iteration consumes pk_buf_bytes >= 1 bytes *)
Fixpoint pk_dec_loop (nut : Z) (n : nat) (pkey : list Z) (idx : Z) (t : list Z) (t_idx : Z)
  : res (list Z) :=
  if zlen pkey <=? idx then Ok t
  else match n with
  | O => OutOfFuel
  | S n' =>
      sp <- subspan pkey idx (pk_buf_bytes nut) ;;
      '(t, t_idx) <- pk_unpack nut t t_idx (from_le_bytes 8 sp) ;;
      pk_dec_loop nut n' pkey (idx + pk_buf_bytes nut) t t_idx
  end.
(* serialization.hpp:61-98 *)
Definition decode_public_key (kappa : Z) (k : nat) (nut : Z) (pkey : list Z)
  : res (list Z * pvec) :=
  seed <- subspan pkey 0 (kappa / 8) ;;
  t <- pk_dec_loop nut (length pkey) pkey (kappa / 8) (repeat 0 (k * PN)) 0 ;;
  Ok (seed, rows_of k t).

(* ------------------------------ secret key ------------------------------ *)

(* serialization.hpp:142-156: pack the coefficients of one row *)
Definition mc_put (st : list Z * Z * Z * Z) (c : Z) : res (list Z * Z * Z * Z) :=
  let '(out, off, buffer, bbo) := st in
  v <- shl_chk (Z.land c MASK49) bbo ;;
  let buffer := Z.lor buffer v in
  let bbo := bbo + Q_BIT_WIDTH in
  let wbits := align8 bbo in
  let wbytes := wbits / 8 in
  out <- put_le out off wbytes buffer ;;
  buffer <- shr_chk buffer wbits ;;
  Ok (out, off + wbytes, buffer, bbo - wbits).
(* serialization.hpp:135-157 *)
Definition mc_row (st : list Z * Z) (row : list Z) : res (list Z * Z) :=
  let '(out, off) := st in
  '(out, off, _, _) <- foldM mc_put row (out, off, 0, 0) ;;
  Ok (out, off).

Definition hdr_K (sidx ridx : nat) : list Z :=
  [75 (* 'K' *); Z.of_nat sidx mod 256; Z.of_nat ridx mod 256; 0; 0; 0; 0; 0].

(* serialization.hpp:113-132: one share.  `r.sampleQ<kappa>(hdr, z)` (line 124) calls a static
   member function and discards the polynomial it returns: r stays the zero polynomial.  The
   discarded call is kept because it must terminate. *)
Definition mc_share (O : oracles) (fuel : nat) (kappa : Z) (s : pvec)
           (st : list poly * list Z * prng) (sidx : nat) : res (list poly * list Z * prng) :=
  let '(x, out, p) := st in
  let '(z, p) := prng_read p (kbytes kappa) in
  let r := poly_zero in
  out <- write_at out ((Z.of_nat sidx - 1) * (kappa / 8)) z ;;
  x <- foldM (fun x ridx =>
                _ <- sampleQ O fuel (hdr_K sidx ridx) z ;;
                Ok (upd ridx (poly_sub (nth ridx x []) r) x))
             (seq 0 (length s)) x ;;
  let x := map2 poly_add x (map (fun row => nth sidx row []) s) in
  Ok (x, out, p).
(* serialization.hpp:100-158; [s_c] is the previous contents of the destination *)
Definition mask_compress (O : oracles) (fuel : nat) (kappa : Z) (d : nat) (s : pvec)
           (s_c : list Z) (p : prng) : res (list Z * prng) :=
  let x := map (fun row => nth 0 row []) s in
  '(x, out, p) <- foldM (mc_share O fuel kappa s) (seq 1 (d - 1)) (x, s_c, p) ;;
  '(out, _) <- foldM mc_row x (out, (Z.of_nat d - 1) * kappa / 8) ;;
  Ok (out, p).

(* serialization.hpp:175-190: next coefficient of a row *)
Definition md_get (s_c : list Z) (st : list Z * Z * Z * Z) (_ : nat)
  : res (list Z * Z * Z * Z) :=
  let '(acc, off, buffer, bbo) := st in
  let bits_needed := Q_BIT_WIDTH - bbo in
  let rbits := align8 (bits_needed + 7) in
  let rbytes := rbits / 8 in
  sp <- subspan s_c off rbytes ;;
  w <- shl_chk (from_le_bytes 8 sp) bbo ;;
  let buffer := Z.lor buffer w in
  let bbo := bbo + rbits in
  let c := Z.land buffer MASK49 in
  Ok (acc ++ [c], off + rbytes, shr64 buffer Q_BIT_WIDTH, bbo - Q_BIT_WIDTH).
(* serialization.hpp:168-191; share 0 decoded, the other shares value-initialised (zero) *)
Definition md_rows (s_c : list Z) (d l : nat) (off : Z) : res (pvec * Z) :=
  foldM (fun '(s, off) _ =>
           '(row, off, _, _) <- foldM (md_get s_c) (seq 0 PN) ([], off, 0, 0) ;;
           Ok (s ++ [row :: repeat poly_zero (d - 1)], off))
        (seq 0 l) ([], off).
(* serialization.hpp:160-203.  `s[ridx][sidx].template sampleQ<kappa>(..)` (line 198) is again a
   call of a static member function whose result is discarded: shares 1..d-1 stay zero. *)
Definition mask_decompress (O : oracles) (fuel : nat) (kappa : Z) (l d : nat) (s_c : list Z)
  : res pvec :=
  '(s, _) <- md_rows s_c d l ((Z.of_nat d - 1) * kappa / 8) ;;
  foldM (fun s sidx =>
           foldM (fun s ridx =>
                    sigma <- subspan s_c ((Z.of_nat sidx - 1) * (kappa / 8)) (kappa / 8) ;;
                    _ <- sampleQ O fuel (hdr_K sidx ridx) sigma ;;
                    Ok s)
                 (seq 0 l) s)
        (seq 1 (d - 1)) s.

(* ------------------------------ signature encoding ------------------------------ *)

Record enc : Type := Enc { e_sig : list Z; e_off : Z; e_buf : Z; e_bbo : Z }.

(* serialization.hpp:229-243 and 275-289 (identical text); false = `encodable = false; break;` *)
Definition enc_flush (siglen : Z) (st : enc) : res (bool * enc) :=
  if 8 <=? e_bbo st then
    let wbits := align8 (e_bbo st) in
    let wbytes := wbits / 8 in
    if siglen <? e_off st + wbytes then Ok (false, st)
    else
      sig <- put_le (e_sig st) (e_off st) wbytes (e_buf st) ;;
      buf <- shr_chk (e_buf st) wbits ;;
      Ok (true, Enc sig (e_off st + wbytes) buf (e_bbo st - wbits))
  else Ok (true, st).

(* serialization.hpp:245-259 *)
Definition enc_put_h (st : enc) (x : Z) : res enc :=
  abs_x <- abs_chk x ;;
  one <- shl_chk 1 abs_x ;;
  let ones := sub64 one 1 in
  if 0 <? x then
    s <- shl_chk 0 abs_x ;;
    v <- shl_chk (Z.lor s ones) (e_bbo st) ;;
    Ok (Enc (e_sig st) (e_off st) (Z.lor (e_buf st) v) (e_bbo st + (abs_x + 2)))
  else if x <? 0 then
    s <- shl_chk 2 abs_x ;;
    v <- shl_chk (Z.lor s ones) (e_bbo st) ;;
    Ok (Enc (e_sig st) (e_off st) (Z.lor (e_buf st) v) (e_bbo st + (abs_x + 2)))
  else
    v <- shl_chk 0 (e_bbo st) ;;
    Ok (Enc (e_sig st) (e_off st) (Z.lor (e_buf st) v) (e_bbo st + 1)).

(* serialization.hpp:291-310 *)
Definition enc_put_z (st : enc) (x : Z) : res enc :=
  abs_x <- abs_chk x ;;
  let a := Z.land abs_x (2 ^ 40 - 1) in
  let b := Z.shiftr abs_x 40 in
  v <- shl_chk a (e_bbo st) ;;
  let buf := Z.lor (e_buf st) v in
  let bbo := e_bbo st + 40 in
  one <- shl_chk 1 b ;;
  let ones := sub64 one 1 in
  if 0 <? x then
    s <- shl_chk 0 b ;;
    v <- shl_chk (Z.lor s ones) bbo ;;
    Ok (Enc (e_sig st) (e_off st) (Z.lor buf v) (bbo + (b + 2)))
  else if x <? 0 then
    s <- shl_chk 2 b ;;
    v <- shl_chk (Z.lor s ones) bbo ;;
    Ok (Enc (e_sig st) (e_off st) (Z.lor buf v) (bbo + (b + 2)))
  else
    Ok (Enc (e_sig st) (e_off st) buf (bbo + 1)).

(* serialization.hpp:225-265 and 271-316: the row/coefficient loop nest leaves both loops at the
   first failing flush, so it is a single loop over the flat array *)
Fixpoint enc_loop (put : enc -> Z -> res enc) (siglen : Z) (xs : list Z) (st : enc)
  : res (bool * enc) :=
  match xs with
  | [] => Ok (true, st)
  | x :: xs' =>
      '(ok, st) <- enc_flush siglen st ;;
      if negb ok then Ok (false, st)
      else st <- put st x ;; enc_loop put siglen xs' st
  end.

(* serialization.hpp:322-336 *)
Definition enc_final (siglen : Z) (st : enc) : res (bool * enc) :=
  if 0 <? e_bbo st then
    let wbits := align8 (e_bbo st + 7) in
    let wbytes := wbits / 8 in
    if siglen <? e_off st + wbytes then Ok (false, st)
    else
      sig <- put_le (e_sig st) (e_off st) wbytes (e_buf st) ;;
      buf <- shr_chk (e_buf st) wbits ;;
      Ok (true, Enc sig (e_off st + wbytes) buf (e_bbo st - wbits))
  else Ok (true, st).

(* serialization.hpp:205-340; result: the returned boolean and the contents of the destination
   (partially written when false is returned) *)
Definition encode_sig (c_hash h z sig : list Z) : res (bool * list Z) :=
  let siglen := zlen sig in
  sig <- write_at sig 0 c_hash ;;
  '(ok, st) <- enc_loop enc_put_h siglen h (Enc sig (zlen c_hash) 0 0) ;;
  if negb ok then Ok (false, e_sig st)
  else
    '(ok, st) <- enc_loop enc_put_z siglen z st ;;
    if negb ok then Ok (false, e_sig st)
    else
      '(ok, st) <- enc_final siglen st ;;
      if negb ok then Ok (false, e_sig st)
      else
        (* serialization.hpp:338 *)
        sig <- write_at (e_sig st) (e_off st) (repeat 0 (Z.to_nat (siglen - e_off st))) ;;
        Ok (true, sig).

(* ------------------------------ signature decoding ------------------------------ *)

(* serialization.hpp:343-347; `word >> idx` is undefined for idx >= 64 *)
Definition get_bit_at (word idx : Z) : res Z :=
  w <- shr_chk word idx ;; Ok (Z.land w 1).

(* serialization.hpp:358-361 and 392-395.  bit_idx = 64 either ends the loop or is undefined, so
   65 iterations always suffice. *)
Fixpoint count_ones (n : nat) (buffer bbo bit_idx : Z) : res Z :=
  if bit_idx <? bbo then
    b <- get_bit_at buffer bit_idx ;;
    if b =? 1 then
      match n with
      | O => OutOfFuel
      | S n' => count_ones n' buffer bbo (bit_idx + 1)
      end
    else Ok bit_idx
  else Ok bit_idx.

(* serialization.hpp:349-380; `res` and `bit_idx` are incremented together *)
Definition decode_bits_as_hint_coeff (buffer bbo : Z) : res (Z * Z) :=
  bit_idx <- count_ones 65 buffer bbo 0 ;;
  let v := bit_idx in
  if bit_idx =? bbo then Ok (0, 0)
  else
    let bit_idx := bit_idx + 1 in
    if 0 <? v then
      b <- get_bit_at buffer bit_idx ;;
      Ok (if b =? 1 then - v else v, bit_idx + 1)
    else Ok (v, bit_idx).

(* serialization.hpp:382-415 *)
Definition decode_bits_as_response_coeff (buffer bbo a : Z) : res (Z * Z) :=
  bit_idx <- count_ones 65 buffer bbo 0 ;;
  let b := bit_idx in
  if bit_idx =? bbo then Ok (a, 0)
  else
    let bit_idx := bit_idx + 1 in
    let v := Z.lor (Z.shiftl b 40) a in
    if 0 <? v then
      sb <- get_bit_at buffer bit_idx ;;
      Ok (if sb =? 1 then - v else v, bit_idx + 1)
    else Ok (v, bit_idx).

Record dec : Type := Dec { d_off : Z; d_buf : Z; d_bbo : Z }.

(* serialization.hpp:438-445 and 476-483 (identical text); also returns
   to_be_buffered_num_bytes *)
Definition dec_refill (sig : list Z) (st : dec) : res (dec * Z) :=
  let bufferable := sub64 64 (d_bbo st) in
  let readable := align8 bufferable in
  let n := Z.min (readable / 8) (zlen sig - d_off st) in
  sp <- subspan sig (d_off st) n ;;
  w <- shl_chk (from_le_bytes 8 sp) (d_bbo st) ;;
  Ok (Dec (d_off st) (Z.lor (d_buf st) w) (add64 (d_bbo st) (n * 8)), n).

(* result of a decoding loop: decodable, state, coefficients decoded so far *)
(* serialization.hpp:436-463; every iteration decodes one coefficient or leaves the loop:
   recursion on the number of coefficients that are missing *)
Fixpoint dec_h_loop (sig : list Z) (n : nat) (st : dec) (acc : list Z)
  : res (bool * dec * list Z) :=
  match n with
  | O => Ok (true, st, acc)
  | S n' =>
      if zlen sig <=? d_off st then Ok (true, st, acc)
      else
        '(st, nbytes) <- dec_refill sig st ;;
        '(coeff, consumed) <- decode_bits_as_hint_coeff (d_buf st) (d_bbo st) ;;
        if 0 <? consumed then
          buf <- shr_chk (d_buf st) consumed ;;
          dec_h_loop sig n' (Dec (d_off st + nbytes) buf (sub64 (d_bbo st) consumed))
                     (acc ++ [coeff])
        else Ok (false, st, acc)
  end.

(* serialization.hpp:474-509; [n] coefficients missing.  An iteration may decode nothing
   (at most 40 bits buffered); [fuel] bounds the number of iterations. *)
Fixpoint dec_z_loop (sig : list Z) (fuel : nat) (n : nat) (st : dec) (acc : list Z)
  : res (bool * dec * list Z) :=
  match n with
  | O => Ok (true, st, acc)
  | S n' =>
      if zlen sig <=? d_off st then Ok (true, st, acc)
      else match fuel with
      | O => OutOfFuel
      | S f =>
          '(st, nbytes) <- dec_refill sig st ;;
          if 40 <? d_bbo st then
            let a := Z.land (d_buf st) (shl64 1 40 - 1) in
            let buf := shr64 (d_buf st) 40 in
            let bbo := sub64 (d_bbo st) 40 in
            '(coeff, consumed) <- decode_bits_as_response_coeff buf bbo a ;;
            if 0 <? consumed then
              buf <- shr_chk buf consumed ;;
              dec_z_loop sig f n' (Dec (d_off st + nbytes) buf (sub64 bbo consumed))
                         (acc ++ [coeff])
            else Ok (false, st, acc)
          else dec_z_loop sig f n (Dec (d_off st + nbytes) (d_buf st) (d_bbo st)) acc
      end
  end.

(* serialization.hpp:417-538; nh = h.size(), nz = z.size(), cl = c_hash.size();
   None = returns false *)
Definition decode_sig (cl : Z) (nh nz : nat) (sig : list Z)
  : res (option (list Z * list Z * list Z)) :=
  c_hash <- subspan sig 0 cl ;;
  '(ok, st, h) <- dec_h_loop sig nh (Dec cl 0 0) [] ;;
  if negb ok then Ok None
  else if (d_off st =? zlen sig) || negb (length h =? nh)%nat then Ok None
  else
    '(ok, st, z) <- dec_z_loop sig (length sig + nz) nz st [] ;;
    if negb ok then Ok None
    else if negb (length z =? nz)%nat then Ok None
    else
      pad <- (if 0 <? d_bbo st then
                one <- shl_chk 1 (d_bbo st) ;;
                _ <- shr_chk (d_buf st) (d_bbo st) ;;
                Ok (Z.land (d_buf st) (sub64 one 1) =? 0)
              else Ok true) ;;
      if negb pad then Ok None
      else
        rest <- subspan sig (d_off st) (zlen sig - d_off st) ;;
        if forallb (fun b => b =? 0) rest then Ok (Some (c_hash, h, z)) else Ok None.
