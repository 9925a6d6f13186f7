(* Leakage model, continued: a whole call of sign, and packing and unpacking of a whole secret key. *)
From Verif Require Import ModelBase ModelU128 ModelField ModelUtils ModelPoly ModelVec ModelSerial ModelScheme ModelLeak.
Open Scope Z_scope.

(* ------------------------------ signing ------------------------------ *)

(* secret_key.hpp:180-206: what follows the response in one attempt.  Result: was the candidate accepted, and
   the contents of the destination. *)
Definition finish_attempt (P : params) (A : pmat) (t w' : pvec) (c_hash : list Z) (c : poly) (z' : pvec) (sig : list Z)
  : res (bool * list Z) :=
  let y := pv_sub (mat_mul (p_k P) (p_l P) 1 A z') (pv_mul_poly t c) in
  let y := pv_rounding_shr (p_nuw P) (pv_intt y) in
  let h := pv_sub_mod (shr64 Q (p_nuw P)) w' y in
  let sg := sig_make (p_nuw P) c_hash h (pv_intt z') in
  '(is_encoded, sig) <- sig_to_bytes sg sig ;;
  if negb is_encoded then Ok (false, sig)
  else
    is_under_bounds <- check_bounds (p_nuw P) (p_Binf P) (p_B22 P) sg ;;
    Ok (is_under_bounds, sig).

(* What the observer sees of the steps of signing that work on public data and on the candidate signature: three
   arbitrary functions of what those steps are given.  (The parameters, the key, the message and the oracle are
   fixed in the theorems, so they need not be arguments.) *)
Record observer : Type := {
  see_start : list event;                                       (* secret_key.hpp:105-130: t, mu and A *)
  see_challenge : pvec -> list event;                           (* secret_key.hpp:157-162: given w' *)
  see_finish : pvec -> pvec -> list Z -> list event             (* secret_key.hpp:180-206: given w', z', sig *)
}.

Section Sign.
  Variable O : oracles.
  Variable V : observer.
  (* secret_key.hpp:135-207 *)
  Fixpoint sign_loop_l (wfuel fuel : nat) (P : params) (A : pmat) (t : pvec) (mu : list Z) (s : pvec)
           (p : prng) (g : mrng) (sig : list Z) : lk (list Z) :=
    match fuel with
    | 0%nat => (OutOfFuel, [])
    | S fuel' =>
        '(w', r, p, g) <<- commit_l (zm O) wfuel P A p g ;;
        let c_hash := chal_hash O (p_kappa P) (p_k P) w' mu in
        c <<- (chal_poly O wfuel (p_omega P) c_hash, see_challenge V w') ;;
        '(z', s, g) <<- respond_l (zm O) wfuel P (ntt c) s r g ;;
        '(accepted, sig) <<- (finish_attempt P A t w' c_hash (ntt c) z' sig, see_finish V w' z' sig) ;;
        if (accepted : bool) then lret sig else sign_loop_l wfuel fuel' P A t mu s p g sig
    end.
  (* secret_key.hpp:101-208 *)
  Definition sk_sign_l (fuel : nat) (P : params) (sk : skey) (msg sig : list Z) (tp : nat -> byte) : lk (list Z) :=
    let t := pv_ntt (pv_shl (p_nut P) (pk_t (sk_pkey sk))) in
    '(mu, A) <<- (mu <- bind_msg O P (sk_pkey sk) msg ;;
                  A <- expandA O fuel (p_k P) (p_l P) (pk_seed (sk_pkey sk)) ;; Ok (mu, A), see_start V) ;;
    sign_loop_l fuel fuel P A t mu (sk_s sk) (prng_new tp) (mrng_new O (p_d P)) sig.
End Sign.

(* The rounded commitment and the response of every attempt of a call of sign, in order: what the code itself
   unmasks (secret_key.hpp:151 and 177). *)
Fixpoint candidates (O : oracles) (wfuel fuel : nat) (P : params) (A : pmat) (t : pvec) (mu : list Z) (s : pvec)
         (p : prng) (g : mrng) (sig : list Z) : list pvec :=
  match fuel with
  | 0%nat => []
  | S fuel' =>
      match fst (commit_l (zm O) wfuel P A p g) with
      | Ok (w', r, p, g) =>
          w' :: let c_hash := chal_hash O (p_kappa P) (p_k P) w' mu in
                match chal_poly O wfuel (p_omega P) c_hash with
                | Ok c =>
                    match fst (respond_l (zm O) wfuel P (ntt c) s r g) with
                    | Ok (z', s, g) =>
                        z' :: match finish_attempt P A t w' c_hash (ntt c) z' sig with
                              | Ok (false, sig) => candidates O wfuel fuel' P A t mu s p g sig
                              | _ => []
                              end
                    | _ => []
                    end
                | _ => []
                end
      | _ => []
      end
  end.
Definition sign_candidates (O : oracles) (fuel : nat) (P : params) (sk : skey) (msg sig : list Z) (tp : nat -> byte) : list pvec :=
  let t := pv_ntt (pv_shl (p_nut P) (pk_t (sk_pkey sk))) in
  match bind_msg O P (sk_pkey sk) msg, expandA O fuel (p_k P) (p_l P) (pk_seed (sk_pkey sk)) with
  | Ok mu, Ok A => candidates O fuel fuel P A t mu (sk_s sk) (prng_new tp) (mrng_new O (p_d P)) sig
  | _, _ => []
  end.

(* ------------------------------ packing ------------------------------ *)

Section Pack.
  Context {W G P : Type}.
  Variable M : machine W G P.
  Notation lit := (m_lit M).
  Notation op := (m_op M).
  (* poly.hpp:394-434: rejection sampling from the hash of a seed; the comparison with Q decides a branch *)
  Fixpoint sampleQ_loop_l (fuel : nat) (inp : list W) (pos : nat) (buf : list W) (off : nat) (acc : list W) : lk (list W) :=
    if (PN <=? length acc)%nat then lret acc
    else match fuel with
    | 0%nat => (OutOfFuel, [])
    | S f =>
        '(buf, off, pos) <<- (if (length buf <? off + NEEDED_BYTES)%nat then
                               let rem := (length buf - off)%nat in
                               let kept := firstn rem (skipn off buf) in
                               fresh <<- m_squeeze M inp pos (length buf - rem) ;;
                               lret (kept ++ fresh, 0%nat, (pos + (length buf - rem))%nat)
                             else lret (buf, off, pos)) ;;
        w <<- from_le_bytes_l M 8 (firstn NEEDED_BYTES (skipn off buf)) ;;
        coeff <<- op And w (lit MASK49) ;;
        lt <<- op Less coeff (lit Q) ;;
        ok <<- m_branch M lt ;;
        if (ok : bool) then sampleQ_loop_l f inp pos buf (off + NEEDED_BYTES) (acc ++ [coeff])
        else sampleQ_loop_l f inp pos buf (off + NEEDED_BYTES) acc
    end.
  Definition sampleQ_l (fuel : nat) (hdr sigma : list W) : lk (list W) :=
    buf <<- m_squeeze M (hdr ++ sigma) 0 SHAKE256_RATE_BYTES ;;
    sampleQ_loop_l fuel (hdr ++ sigma) SHAKE256_RATE_BYTES buf 0 [].
  (* std::copy_n into the destination *)
  Definition copy_l (v : list W) (off : nat) (out : list W) : lk (list W) :=
    for_ (seq 0 (length v)) (fun i out => x <<- ld M v i ;; st out (off + i) x) out.
  (* serialization.hpp:113-132; the polynomial sampled is discarded, r is zero *)
  Definition mc_share_l (fuel : nat) (kappa : Z) (rows : nat) (s : list (list (list W))) (sidx : nat)
             (a : list (list W) * list W * P) : lk (list (list W) * list W * P) :=
    let '(x, out, p) := a in
    '(z, p) <<- m_read M p (kbytes kappa) ;;
    out <<- copy_l z ((sidx - 1) * kbytes kappa) out ;;
    x <<- for_ (seq 0 rows) (fun ridx x =>
            _ <<- sampleQ_l fuel (map lit (hdr_K sidx ridx)) z ;;
            y <<- poly_sub_l M (nth ridx x []) (repeat (lit 0) PN) ;;
            lret (upd ridx y x)) x ;;
    x <<- for_ (seq 0 rows) (fun ridx x =>
            y <<- poly_add_l M (nth ridx x []) (nth sidx (nth ridx s []) []) ;;
            lret (upd ridx y x)) x ;;
    lret (x, out, p).
  (* serialization.hpp:100-158 *)
  Definition mask_compress_l (fuel : nat) (kappa : Z) (rows d : nat) (s : list (list (list W))) (s_c : list W) (p : P)
    : lk (list W * P) :=
    let x := map (fun ridx => nth 0 (nth ridx s []) []) (seq 0 rows) in
    '(x, out, p) <<- for_ (seq 1 (d - 1)) (mc_share_l fuel kappa rows s) (x, s_c, p) ;;
    '(out, _) <<- for_ (seq 0 rows) (fun ridx a => mc_row_l M (nth ridx x []) a) (out, (Z.of_nat d - 1) * kappa / 8) ;;
    lret (out, p).

  (* serialization.hpp:175-190; offsets are not data *)
  Definition md_get_l (s_c : list W) (i : nat) (a : list W * Z * W * Z) : lk (list W * Z * W * Z) :=
    let '(acc, off, buffer, bbo) := a in
    let rbits := align8 (Q_BIT_WIDTH - bbo + 7) in
    let rbytes := rbits / 8 in
    w <<- from_le_bytes_l M 8 (firstn (Z.to_nat rbytes) (skipn (Z.to_nat off) s_c)) ;;
    w <<- m_shl M w bbo ;;
    buffer <<- op Or buffer w ;;
    c <<- op And buffer (lit MASK49) ;;
    buffer <<- m_shr M buffer Q_BIT_WIDTH ;;
    lret (acc ++ [c], off + rbytes, buffer, bbo + rbits - Q_BIT_WIDTH).
  (* serialization.hpp:160-203; the polynomials sampled are discarded *)
  Definition mask_decompress_l (fuel : nat) (kappa : Z) (l d : nat) (s_c : list W) : lk (list (list (list W))) :=
    '(s, _) <<- for_ (seq 0 l) (fun _ a =>
        let '(s, off) := a in
        '(row, off, _, _) <<- for_ (seq 0 PN) (md_get_l s_c) ([], off, lit 0, 0) ;;
        lret (s ++ [row :: repeat (repeat (lit 0) PN) (d - 1)], off)) ([], (Z.of_nat d - 1) * kappa / 8) ;;
    for_ (seq 1 (d - 1)) (fun sidx s =>
      for_ (seq 0 l) (fun ridx s =>
        _ <<- sampleQ_l fuel (map lit (hdr_K sidx ridx)) (firstn (kbytes kappa) (skipn ((sidx - 1) * kbytes kappa) s_c)) ;;
        lret s) s) s.
End Pack.
