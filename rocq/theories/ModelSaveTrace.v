(* Model of the order in which saving a key writes the caller's buffer: the same functions as in
   ModelSerial.v and ModelScheme.v, which also log every byte store to the destination as a pair
   (index, byte), in program order.  The log is kept when the computation is undefined or when the waiting
   bound runs out, so that it describes every moment at which a save can be interrupted.
   Simplification: the stores inside one std::copy or std::copy_n are taken to happen at ascending indices
   (the library may use block operations).  SaveTraceProofs.v shows that forgetting the log gives exactly
   pk_to_bytes and sk_to_bytes. *)
From Coq Require Import ZArith List Bool.
From Verif Require Import ModelBase ModelU128 ModelField ModelUtils ModelPoly ModelVec ModelSerial ModelScheme ModelTrace.
Import ListNotations.
Open Scope Z_scope.

(* a computation with the stores it has made; not in the C++ text *)
Definition lres (A : Type) : Type := (list (Z * Z) * res A)%type.
Definition lret {A} (r : res A) : lres A := ([], r).
Definition lbind {A B} (m : lres A) (f : A -> lres B) : lres B :=
  match m with
  | (lg, Ok a) => let '(lg', r) := f a in (lg ++ lg', r)
  | (lg, UB) => (lg, UB)
  | (lg, OutOfFuel) => (lg, OutOfFuel)
  end.
Fixpoint foldL {S A} (f : S -> A -> lres S) (l : list A) (s : S) : lres S :=
  match l with
  | [] => lret (Ok s)
  | a :: l' => lbind (f s a) (fun s' => foldL f l' s')
  end.
(* std::copy of v to out[off ...] *)
Definition write_log (out : list Z) (off : Z) (v : list Z) : lres (list Z) :=
  match write_at out off v with
  | Ok o => (stores off v, Ok o)
  | UB => ([], UB)
  | OutOfFuel => ([], OutOfFuel)
  end.
(* utils.hpp:34-42 (to_le_bytes) into out.subspan(off, n) *)
Definition put_le_w (out : list Z) (off n buffer : Z) : lres (list Z) :=
  match put_le out off n buffer with
  | Ok o => (put_le_stores off n buffer, Ok o)
  | UB => ([], UB)
  | OutOfFuel => ([], OutOfFuel)
  end.

(* serialization.hpp:37-43 and 52-58 *)
Definition pk_flush_log (nut : Z) (st : pkenc) : lres pkenc :=
  if pe_bits st =? pk_buf_bits nut then
    lbind (put_le_w (pe_out st) (pe_idx st) (pk_buf_bytes nut) (pe_buf st)) (fun out =>
    lret (Ok (PkEnc out (pe_idx st + pk_buf_bytes nut) 0 0)))
  else lret (Ok st).
(* serialization.hpp:10-59 *)
Definition encode_public_key_log (nut : Z) (seed : list Z) (t : pvec) (pkey : list Z) : lres (list Z) :=
  lbind (write_log pkey 0 seed) (fun out =>
  lbind (foldL (fun st c => lbind (pk_flush_log nut st) (fun st => lret (pk_put nut st c)))
               (pv_flat t) (PkEnc out (zlen seed) 0 0)) (fun st =>
  lbind (pk_flush_log nut st) (fun st =>
  lret (Ok (pe_out st))))).
(* public_key.hpp:135 *)
Definition pk_to_bytes_log (P : params) (pk : pkey) (bytes : list Z) : lres (list Z) :=
  encode_public_key_log (p_nut P) (pk_seed pk) (pk_t pk) bytes.

(* serialization.hpp:142-156 *)
Definition mc_put_log (st : list Z * Z * Z * Z) (c : Z) : lres (list Z * Z * Z * Z) :=
  let '(out, off, buffer, bbo) := st in
  lbind (lret (shl_chk (Z.land c MASK49) bbo)) (fun v =>
  let buffer := Z.lor buffer v in
  let bbo := bbo + Q_BIT_WIDTH in
  let wbits := align8 bbo in
  let wbytes := wbits / 8 in
  lbind (put_le_w out off wbytes buffer) (fun out =>
  lbind (lret (shr_chk buffer wbits)) (fun buffer =>
  lret (Ok (out, off + wbytes, buffer, bbo - wbits))))).
(* serialization.hpp:135-157 *)
Definition mc_row_log (st : list Z * Z) (row : list Z) : lres (list Z * Z) :=
  let '(out, off) := st in
  lbind (foldL mc_put_log row (out, off, 0, 0)) (fun '(out, off, _, _) => lret (Ok (out, off))).
(* serialization.hpp:113-132 *)
Definition mc_share_log (O : oracles) (fuel : nat) (kappa : Z) (s : pvec)
           (st : list poly * list Z * prng) (sidx : nat) : lres (list poly * list Z * prng) :=
  let '(x, out, p) := st in
  let '(z, p) := prng_read p (kbytes kappa) in
  let r := poly_zero in
  lbind (write_log out ((Z.of_nat sidx - 1) * (kappa / 8)) z) (fun out =>
  lbind (lret (foldM (fun x ridx =>
                _ <- sampleQ O fuel (hdr_K sidx ridx) z ;;
                Ok (upd ridx (poly_sub (nth ridx x []) r) x))
             (seq 0 (length s)) x)) (fun x =>
  let x := map2 poly_add x (map (fun row => nth sidx row []) s) in
  lret (Ok (x, out, p)))).
(* serialization.hpp:100-158 *)
Definition mask_compress_log (O : oracles) (fuel : nat) (kappa : Z) (d : nat) (s : pvec)
           (s_c : list Z) (p : prng) : lres (list Z * prng) :=
  let x := map (fun row => nth 0 row []) s in
  lbind (foldL (mc_share_log O fuel kappa s) (seq 1 (d - 1)) (x, s_c, p)) (fun '(x, out, p) =>
  lbind (foldL mc_row_log x (out, (Z.of_nat d - 1) * kappa / 8)) (fun '(out, _) =>
  lret (Ok (out, p)))).

(* stores to bytes.subspan(off, ...) are stores to bytes, off places further *)
Definition shift_log (off : Z) (lg : list (Z * Z)) : list (Z * Z) := map (fun e => (off + fst e, snd e)) lg.
(* secret_key.hpp:211-220 *)
Definition sk_to_bytes_log (O : oracles) (fuel : nat) (P : params) (sk : skey) (bytes : list Z)
           (p : prng) : lres (list Z * prng) :=
  let pklen := pk_byte_len P in
  lbind (lret (subspan bytes 0 pklen)) (fun pkb =>
  lbind (lret (subspan bytes pklen (zlen bytes - pklen))) (fun skb =>
  lbind (pk_to_bytes_log P (sk_pkey sk) pkb) (fun pkb =>
  lbind (let '(lg, r) := mask_compress_log O fuel (p_kappa P) (p_d P) (sk_s sk) skb p in (shift_log pklen lg, r))
        (fun '(skb, p) =>
  lret (Ok (pkb ++ skb, p)))))).
