(* Model of the order in which signing writes the caller's signature buffer: the same functions as in
   ModelSerial.v and ModelScheme.v, which also log every byte store to sig_bytes as a pair
   (index, byte), in program order.  Simplification: the stores inside one std::copy or std::fill_n are
   taken to happen at ascending indices (the library may use block operations).  TraceProofs.v shows
   that forgetting the log gives exactly encode_sig and sk_sign. *)
From Coq Require Import ZArith List Bool.
From Verif Require Import ModelBase ModelU128 ModelField ModelUtils ModelPoly ModelVec ModelSerial ModelScheme.
Import ListNotations.
Open Scope Z_scope.

Notation store := (Z * Z)%type (only parsing).
(* stores of the bytes v at indices off, off + 1, ... *)
Definition stores (off : Z) (v : list Z) : list store :=
  combine (map (fun i => off + Z.of_nat i) (seq 0 (length v))) v.
(* utils.hpp:34-42 (to_le_bytes) into sig.subspan(off, n): one store for each of the first min(8, n) bytes *)
Definition put_le_stores (off n buffer : Z) : list store :=
  stores off (map (fun i => shr64 buffer (8 * Z.of_nat i) mod 256) (seq 0 (Nat.min 8 (Z.to_nat n)))).

(* serialization.hpp:229-243 and 275-289 *)
Definition enc_flush_log (siglen : Z) (st : enc) (lg : list store) : res (bool * enc * list store) :=
  if 8 <=? e_bbo st then
    let wbits := align8 (e_bbo st) in
    let wbytes := wbits / 8 in
    if siglen <? e_off st + wbytes then Ok (false, st, lg)
    else
      sig <- put_le (e_sig st) (e_off st) wbytes (e_buf st) ;;
      let lg := lg ++ put_le_stores (e_off st) wbytes (e_buf st) in
      buf <- shr_chk (e_buf st) wbits ;;
      Ok (true, Enc sig (e_off st + wbytes) buf (e_bbo st - wbits), lg)
  else Ok (true, st, lg).
(* serialization.hpp:225-265 and 271-316 *)
Fixpoint enc_loop_log (put : enc -> Z -> res enc) (siglen : Z) (xs : list Z) (st : enc) (lg : list store)
  : res (bool * enc * list store) :=
  match xs with
  | [] => Ok (true, st, lg)
  | x :: xs' =>
      '(ok, st, lg) <- enc_flush_log siglen st lg ;;
      if negb ok then Ok (false, st, lg)
      else st <- put st x ;; enc_loop_log put siglen xs' st lg
  end.
(* serialization.hpp:322-336 *)
Definition enc_final_log (siglen : Z) (st : enc) (lg : list store) : res (bool * enc * list store) :=
  if 0 <? e_bbo st then
    let wbits := align8 (e_bbo st + 7) in
    let wbytes := wbits / 8 in
    if siglen <? e_off st + wbytes then Ok (false, st, lg)
    else
      sig <- put_le (e_sig st) (e_off st) wbytes (e_buf st) ;;
      let lg := lg ++ put_le_stores (e_off st) wbytes (e_buf st) in
      buf <- shr_chk (e_buf st) wbits ;;
      Ok (true, Enc sig (e_off st + wbytes) buf (e_bbo st - wbits), lg)
  else Ok (true, st, lg).
(* serialization.hpp:205-340 *)
Definition encode_sig_log (c_hash h z sig : list Z) : res (bool * list Z * list store) :=
  let siglen := zlen sig in
  sig <- write_at sig 0 c_hash ;;
  let lg := stores 0 c_hash in
  '(ok, st, lg) <- enc_loop_log enc_put_h siglen h (Enc sig (zlen c_hash) 0 0) lg ;;
  if negb ok then Ok (false, e_sig st, lg)
  else
    '(ok, st, lg) <- enc_loop_log enc_put_z siglen z st lg ;;
    if negb ok then Ok (false, e_sig st, lg)
    else
      '(ok, st, lg) <- enc_final_log siglen st lg ;;
      if negb ok then Ok (false, e_sig st, lg)
      else
        let zeros := repeat 0 (Z.to_nat (siglen - e_off st)) in
        sig <- write_at (e_sig st) (e_off st) zeros ;;
        Ok (true, sig, lg ++ stores (e_off st) zeros).

(* one pass of the loop up to the candidate signature: secret_key.hpp:136-189 *)
Definition sign_try (O : oracles) (wfuel : nat) (P : params) (A : pmat) (t : pvec)
         (mu : list Z) (s : pvec) (prng : prng) (m : mrng) : res (sig_t * pvec * ModelUtils.prng * mrng) :=
  '(r, m) <- pv_zero_encoding O wfuel (p_l P) (p_d P) m ;;
  '(r, prng, m) <- pv_add_rep_noise O wfuel (p_uw P) (p_rep P) (p_kappa P) (p_d P) r prng m ;;
  let r := pv_ntt r in
  let w := pv_intt (mat_mul (p_k P) (p_l P) (p_d P) A r) in
  '(w, prng, m) <- pv_add_rep_noise O wfuel (p_uw P) (p_rep P) (p_kappa P) (p_d P) w prng m ;;
  let w' := pv_rounding_shr (p_nuw P) (pv_decode w) in
  let c_hash := chal_hash O (p_kappa P) (p_k P) w' mu in
  c <- chal_poly O wfuel (p_omega P) c_hash ;;
  let c := ntt c in
  '(s, m) <- pv_refresh O wfuel (p_d P) s m ;;
  '(r, m) <- pv_refresh O wfuel (p_d P) r m ;;
  let z := pv_add (pv_mul_poly s c) r in
  '(z, m) <- pv_refresh O wfuel (p_d P) z m ;;
  let z' := pv_decode z in
  let y := pv_sub (mat_mul (p_k P) (p_l P) 1 A z') (pv_mul_poly t c) in
  let y := pv_intt y in
  let z' := pv_intt z' in
  let y := pv_rounding_shr (p_nuw P) y in
  let h := pv_sub_mod (shr64 Q (p_nuw P)) w' y in
  let sg := sig_make (p_nuw P) c_hash h z' in
  Ok (sg, s, prng, m).
(* secret_key.hpp:135-207 with the stores of each completed pass; the stores of a pass are kept also
   when a later pass is undefined or the waiting bound runs out.  sig.to_bytes is signature.hpp:150-153. *)
Fixpoint sign_loop_tr (O : oracles) (wfuel fuel : nat) (P : params) (A : pmat) (t : pvec)
         (mu : list Z) (s : pvec) (prng : prng) (m : mrng) (sig : list Z) : list (list store) * res (list Z) :=
  match fuel with
  | O => ([], OutOfFuel)
  | S fuel' =>
      match sign_try O wfuel P A t mu s prng m with
      | UB => ([], UB)
      | OutOfFuel => ([], OutOfFuel)
      | Ok (sg, s, prng, m) =>
          match encode_sig_log (sg_c sg) (sg_h sg) (sg_z sg) sig with
          | UB => ([], UB)
          | OutOfFuel => ([], OutOfFuel)
          | Ok (is_encoded, sig, lg) =>
              if negb is_encoded then
                let '(lgs, r) := sign_loop_tr O wfuel fuel' P A t mu s prng m sig in (lg :: lgs, r)
              else
                match check_bounds (p_nuw P) (p_Binf P) (p_B22 P) sg with
                | UB => ([lg], UB)
                | OutOfFuel => ([lg], OutOfFuel)
                | Ok is_under_bounds =>
                    if negb is_under_bounds then
                      let '(lgs, r) := sign_loop_tr O wfuel fuel' P A t mu s prng m sig in (lg :: lgs, r)
                    else ([lg], Ok sig)
                end
          end
      end
  end.
(* secret_key.hpp:101-208 *)
Definition sk_sign_tr (O : oracles) (fuel : nat) (P : params) (sk : skey) (msg sig : list Z)
           (tp : nat -> byte) : list (list store) * res (list Z) :=
  let t := pv_ntt (pv_shl (p_nut P) (pk_t (sk_pkey sk))) in
  match bind_msg O P (sk_pkey sk) msg with
  | UB => ([], UB) | OutOfFuel => ([], OutOfFuel)
  | Ok mu =>
      match expandA O fuel (p_k P) (p_l P) (pk_seed (sk_pkey sk)) with
      | UB => ([], UB) | OutOfFuel => ([], OutOfFuel)
      | Ok A => sign_loop_tr O fuel fuel P A t mu (sk_s sk) (prng_new tp) (mrng_new O (p_d P)) sig
      end
  end.
