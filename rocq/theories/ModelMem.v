(* A second model of encode_sig and decode_sig (include/raccoon/internals/utility/serialization.hpp)
   for statements about memory accesses.  In ModelSerial.v an operation with undefined behaviour ends
   the execution with [UB], whatever the operation.  Here only an access outside an array ends the
   execution ([Oob]); an arithmetic operation with undefined behaviour (shift distance >= 64,
   std::abs(INT64_MIN), overflow of a signed counter) continues with an arbitrary 64-bit result, which
   is chosen anew each time ([Any]).  All size_t arithmetic wraps around here. *)
From Verif Require Import ModelBase ModelUtils ModelSerial.
Open Scope Z_scope.

Inductive prog (A : Type) : Type :=
| Ret (a : A)
| Oob                       (* access outside an array *)
| Fuel                      (* loop not finished within the waiting bound *)
| Any (k : Z -> prog A).    (* continue with an arbitrary value *)
Arguments Ret {A} a.
Arguments Oob {A}.
Arguments Fuel {A}.
Arguments Any {A} k.

Fixpoint pbind {A B} (m : prog A) (f : A -> prog B) : prog B :=
  match m with
  | Ret a => f a
  | Oob => Oob
  | Fuel => Fuel
  | Any k => Any (fun v => pbind (k v) f)
  end.
Notation "x <~ m ;; k" := (pbind m (fun x => k))
  (at level 61, m at next level, right associativity).
Notation "' p <~ m ;; k" := (pbind m (fun x => match x with p => k end))
  (at level 61, p pattern, m at next level, right associativity).

(* an arbitrary 64-bit word *)
Definition any_word : prog Z := Any (fun v => Ret (u64 v)).
Definition shl_any (a n : Z) : prog Z := if (0 <=? n) && (n <? 64) then Ret (shl64 a n) else any_word.
Definition shr_any (a n : Z) : prog Z := if (0 <=? n) && (n <? 64) then Ret (shr64 a n) else any_word.
(* std::abs on int64_t, then static_cast<size_t> *)
Definition abs_any (x : Z) : prog Z := if x =? - two63 then any_word else Ret (Z.abs x).
(* accesses: std::span::subspan as a source, to_le_bytes into a subspan, std::copy / std::fill_n *)
Definition read_mem (l : list Z) (off n : Z) : prog (list Z) :=
  match subspan l off n with Ok s => Ret s | _ => Oob end.
Definition put_mem (out : list Z) (off n buffer : Z) : prog (list Z) :=
  match put_le out off n buffer with Ok o => Ret o | _ => Oob end.
Definition write_mem (out : list Z) (off : Z) (v : list Z) : prog (list Z) :=
  match write_at out off v with Ok o => Ret o | _ => Oob end.
(* out[i] = v and a[i] of an array *)
Definition get_mem (l : list Z) (i : nat) : prog Z :=
  match nth_error l i with Some x => Ret x | None => Oob end.

(* ------------------------------ encode_sig ------------------------------ *)
(* serialization.hpp:229-243 and 275-289 *)
Definition enc_flush_mem (siglen : Z) (st : enc) : prog (bool * enc) :=
  if 8 <=? e_bbo st then
    let wbits := align8 (e_bbo st) in
    let wbytes := wbits / 8 in
    if siglen <? add64 (e_off st) wbytes then Ret (false, st)
    else
      sig <~ put_mem (e_sig st) (e_off st) wbytes (e_buf st) ;;
      buf <~ shr_any (e_buf st) wbits ;;
      Ret (true, Enc sig (add64 (e_off st) wbytes) buf (sub64 (e_bbo st) wbits))
  else Ret (true, st).

(* serialization.hpp:245-259 *)
Definition enc_put_h_mem (st : enc) (x : Z) : prog enc :=
  abs_x <~ abs_any x ;;
  one <~ shl_any 1 abs_x ;;
  let ones := sub64 one 1 in
  if 0 <? x then
    s <~ shl_any 0 abs_x ;;
    v <~ shl_any (Z.lor s ones) (e_bbo st) ;;
    Ret (Enc (e_sig st) (e_off st) (Z.lor (e_buf st) v) (add64 (e_bbo st) (add64 abs_x 2)))
  else if x <? 0 then
    s <~ shl_any 2 abs_x ;;
    v <~ shl_any (Z.lor s ones) (e_bbo st) ;;
    Ret (Enc (e_sig st) (e_off st) (Z.lor (e_buf st) v) (add64 (e_bbo st) (add64 abs_x 2)))
  else
    v <~ shl_any 0 (e_bbo st) ;;
    Ret (Enc (e_sig st) (e_off st) (Z.lor (e_buf st) v) (add64 (e_bbo st) 1)).

(* serialization.hpp:291-310; `abs_x & mask` and `abs_x >> 40` are int64_t operations: after an
   undefined std::abs they work on an arbitrary signed value, so that the distance b =
   static_cast<size_t>(abs_x >> 40) is an arbitrary word as well *)
Definition enc_put_z_mem (st : enc) (x : Z) : prog enc :=
  '(a, b) <~ (if x =? - two63
              then a <~ any_word ;; b <~ any_word ;; Ret (a, b)
              else Ret (Z.land (Z.abs x) (2 ^ 40 - 1), Z.shiftr (Z.abs x) 40)) ;;
  v <~ shl_any a (e_bbo st) ;;
  let buf := Z.lor (e_buf st) v in
  let bbo := add64 (e_bbo st) 40 in
  one <~ shl_any 1 b ;;
  let ones := sub64 one 1 in
  if 0 <? x then
    s <~ shl_any 0 b ;;
    v <~ shl_any (Z.lor s ones) bbo ;;
    Ret (Enc (e_sig st) (e_off st) (Z.lor buf v) (add64 bbo (add64 b 2)))
  else if x <? 0 then
    s <~ shl_any 2 b ;;
    v <~ shl_any (Z.lor s ones) bbo ;;
    Ret (Enc (e_sig st) (e_off st) (Z.lor buf v) (add64 bbo (add64 b 2)))
  else
    Ret (Enc (e_sig st) (e_off st) buf (add64 bbo 1)).

(* serialization.hpp:225-265 and 271-316: [n] coefficients from index i on; `xs[i]` is an access *)
Fixpoint enc_loop_mem (put : enc -> Z -> prog enc) (siglen : Z) (xs : list Z) (n i : nat) (st : enc)
  : prog (bool * enc) :=
  match n with
  | O => Ret (true, st)
  | S n' =>
      '(ok, st) <~ enc_flush_mem siglen st ;;
      if negb ok then Ret (false, st)
      else x <~ get_mem xs i ;; st <~ put st x ;; enc_loop_mem put siglen xs n' (S i) st
  end.

(* serialization.hpp:322-336 *)
Definition enc_final_mem (siglen : Z) (st : enc) : prog (bool * enc) :=
  if 0 <? e_bbo st then
    let wbits := align8 (add64 (e_bbo st) 7) in
    let wbytes := wbits / 8 in
    if siglen <? add64 (e_off st) wbytes then Ret (false, st)
    else
      sig <~ put_mem (e_sig st) (e_off st) wbytes (e_buf st) ;;
      buf <~ shr_any (e_buf st) wbits ;;
      Ret (true, Enc sig (add64 (e_off st) wbytes) buf (sub64 (e_bbo st) wbits))
  else Ret (true, st).

(* serialization.hpp:205-340; cl, nh, nz are the static extents (2 * kappa) / 8, k * N, l * N *)
Definition encode_sig_mem (cl : Z) (nh nz : nat) (c_hash h z sig : list Z) : prog (bool * list Z) :=
  let siglen := zlen sig in
  c <~ read_mem c_hash 0 cl ;;
  sig <~ write_mem sig 0 c ;;
  '(ok, st) <~ enc_loop_mem enc_put_h_mem siglen h nh 0 (Enc sig cl 0 0) ;;
  if negb ok then Ret (false, e_sig st)
  else
    '(ok, st) <~ enc_loop_mem enc_put_z_mem siglen z nz 0 st ;;
    if negb ok then Ret (false, e_sig st)
    else
      '(ok, st) <~ enc_final_mem siglen st ;;
      if negb ok then Ret (false, e_sig st)
      else
        sig <~ write_mem (e_sig st) (e_off st) (repeat 0 (Z.to_nat (sub64 siglen (e_off st)))) ;;
        Ret (true, sig).

(* ------------------------------ decode_sig ------------------------------ *)
(* serialization.hpp:343-347 *)
Definition get_bit_mem (word idx : Z) : prog Z := w <~ shr_any word idx ;; Ret (Z.land w 1).

(* serialization.hpp:358-361 and 392-395; [fuel] bounds the number of iterations *)
Fixpoint count_ones_mem (fuel : nat) (buffer bbo bit_idx : Z) : prog Z :=
  if bit_idx <? bbo then
    b <~ get_bit_mem buffer bit_idx ;;
    if b =? 1 then
      match fuel with
      | O => Fuel
      | S f => count_ones_mem f buffer bbo (add64 bit_idx 1)
      end
    else Ret bit_idx
  else Ret bit_idx.

(* the value of the int64_t counter that is incremented together with bit_idx: arbitrary after overflow *)
Definition counter_any (n : Z) : prog Z := if n <? two63 then Ret n else any_word.

(* serialization.hpp:349-380 *)
Definition hint_coeff_mem (fuel : nat) (buffer bbo : Z) : prog (Z * Z) :=
  bit_idx <~ count_ones_mem fuel buffer bbo 0 ;;
  v <~ counter_any bit_idx ;;
  if bit_idx =? bbo then Ret (0, 0)
  else
    let bit_idx := add64 bit_idx 1 in
    if 0 <? v then
      b <~ get_bit_mem buffer bit_idx ;;
      Ret (if b =? 1 then - v else v, add64 bit_idx 1)
    else Ret (v, bit_idx).

(* serialization.hpp:382-415; `b << 40` of a signed b that does not fit: arbitrary value *)
Definition response_coeff_mem (fuel : nat) (buffer bbo a : Z) : prog (Z * Z) :=
  bit_idx <~ count_ones_mem fuel buffer bbo 0 ;;
  b <~ counter_any bit_idx ;;
  if bit_idx =? bbo then Ret (a, 0)
  else
    let bit_idx := add64 bit_idx 1 in
    v <~ (if b <? 2 ^ 23 then Ret (Z.lor (Z.shiftl b 40) a) else any_word) ;;
    if 0 <? v then
      sb <~ get_bit_mem buffer bit_idx ;;
      Ret (if sb =? 1 then - v else v, add64 bit_idx 1)
    else Ret (v, bit_idx).

(* serialization.hpp:438-445 and 476-483 *)
Definition dec_refill_mem (sig : list Z) (st : dec) : prog (dec * Z) :=
  let bufferable := sub64 64 (d_bbo st) in
  let readable := align8 bufferable in
  let n := Z.min (readable / 8) (sub64 (zlen sig) (d_off st)) in
  sp <~ read_mem sig (d_off st) n ;;
  w <~ shl_any (from_le_bytes 8 sp) (d_bbo st) ;;
  Ret (Dec (d_off st) (Z.lor (d_buf st) w) (add64 (d_bbo st) (n * 8)), n).

(* serialization.hpp:436-463; [h] is the destination array, idx = h_coeff_idx *)
Fixpoint dec_h_loop_mem (sig : list Z) (fuel : nat) (st : dec) (h : list Z) (idx : nat)
  : prog (bool * dec * list Z * nat) :=
  if (zlen sig <=? d_off st) || (length h <=? idx)%nat then Ret (true, st, h, idx)
  else match fuel with
  | O => Fuel
  | S f =>
      '(st, nbytes) <~ dec_refill_mem sig st ;;
      '(coeff, consumed) <~ hint_coeff_mem fuel (d_buf st) (d_bbo st) ;;
      if 0 <? consumed then
        h <~ write_mem h (Z.of_nat idx) [coeff] ;;
        buf <~ shr_any (d_buf st) consumed ;;
        dec_h_loop_mem sig f (Dec (add64 (d_off st) nbytes) buf (sub64 (d_bbo st) consumed)) h (S idx)
      else Ret (false, st, h, idx)
  end.

(* serialization.hpp:474-509 *)
Fixpoint dec_z_loop_mem (sig : list Z) (fuel : nat) (st : dec) (z : list Z) (idx : nat)
  : prog (bool * dec * list Z * nat) :=
  if (zlen sig <=? d_off st) || (length z <=? idx)%nat then Ret (true, st, z, idx)
  else match fuel with
  | O => Fuel
  | S f =>
      '(st, nbytes) <~ dec_refill_mem sig st ;;
      if 40 <? d_bbo st then
        let a := Z.land (d_buf st) (shl64 1 40 - 1) in
        let buf := shr64 (d_buf st) 40 in
        let bbo := sub64 (d_bbo st) 40 in
        '(coeff, consumed) <~ response_coeff_mem fuel buf bbo a ;;
        if 0 <? consumed then
          z <~ write_mem z (Z.of_nat idx) [coeff] ;;
          buf <~ shr_any buf consumed ;;
          dec_z_loop_mem sig f (Dec (add64 (d_off st) nbytes) buf (sub64 bbo consumed)) z (S idx)
        else Ret (false, st, z, idx)
      else dec_z_loop_mem sig f (Dec (add64 (d_off st) nbytes) (d_buf st) (d_bbo st)) z idx
  end.

(* serialization.hpp:417-538; c_hash, h, z are the previous contents of the destinations; result:
   returned boolean and new contents *)
Definition decode_sig_mem (fuel : nat) (sig c_hash h z : list Z)
  : prog (bool * list Z * list Z * list Z) :=
  c <~ read_mem sig 0 (zlen c_hash) ;;
  c_hash <~ write_mem c_hash 0 c ;;
  '(ok, st, h, h_idx) <~ dec_h_loop_mem sig fuel (Dec (zlen c_hash) 0 0) h 0 ;;
  if negb ok then Ret (false, c_hash, h, z)
  else if (d_off st =? zlen sig) || negb (h_idx =? length h)%nat then Ret (false, c_hash, h, z)
  else
    '(ok, st, z, z_idx) <~ dec_z_loop_mem sig fuel st z 0 ;;
    if negb ok then Ret (false, c_hash, h, z)
    else if negb (z_idx =? length z)%nat then Ret (false, c_hash, h, z)
    else
      pad <~ (if 0 <? d_bbo st then
                one <~ shl_any 1 (d_bbo st) ;;
                _ <~ shr_any (d_buf st) (d_bbo st) ;;
                Ret (Z.land (d_buf st) (sub64 one 1) =? 0)
              else Ret true) ;;
      if negb pad then Ret (false, c_hash, h, z)
      else
        rest <~ read_mem sig (d_off st) (sub64 (zlen sig) (d_off st)) ;;
        Ret (forallb (fun b => b =? 0) rest, c_hash, h, z).

(* ------------------------------------------------------------------------- *)
(* Not part of the code: whatever the arbitrary values are, no access is outside an array. *)
Fixpoint safe {A} (p : prog A) : Prop :=
  match p with
  | Ret _ => True
  | Oob => False
  | Fuel => True
  | Any k => forall v, safe (k v)
  end.
(* the same, and every returned value satisfies R *)
Fixpoint always {A} (p : prog A) (R : A -> Prop) : Prop :=
  match p with
  | Ret a => R a
  | Oob => False
  | Fuel => True
  | Any k => forall v, always (k v) R
  end.
