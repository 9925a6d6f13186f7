(* Model of include/raccoon/internals/signature.hpp, public_key.hpp, secret_key.hpp and of the
   wrappers raccoon128.hpp, raccoon192.hpp, raccoon256.hpp (which only select template arguments,
   see raccoonNNN_params in ModelUtils.v, and forward). *)
From Verif Require Import ModelBase ModelU128 ModelField ModelUtils ModelPoly ModelVec ModelSerial.
Open Scope Z_scope.

(* ------------------------------ signature.hpp ------------------------------ *)

(* signature.hpp:17-19 *)
Record sig_t : Type := Sig { sg_c : list Z; sg_h : list Z; sg_z : list Z }.

(* signature.hpp:24-46 *)
Definition sig_make (nuw : Z) (c_hash : list Z) (h z : pvec) : sig_t :=
  Sig c_hash
      (concat (map (fun row => poly_center (shr64 Q nuw) (nth 0 row [])) h))
      (concat (map (fun row => poly_center Q (nth 0 row [])) z)).

(* signature.hpp:52-65, 67-78 *)
Definition sig_get_h (k : nat) (nuw : Z) (s : sig_t) : pvec :=
  map (fun r => [poly_from_centered (shr64 Q nuw) (firstn PN (skipn (r * PN) (sg_h s)))])
      (seq 0 k).
Definition sig_get_z (l : nat) (s : sig_t) : pvec :=
  map (fun r => [poly_from_centered Q (firstn PN (skipn (r * PN) (sg_z s)))]) (seq 0 l).

(* signature.hpp:95-103 *)
Definition h_norms (h : list Z) : res (Z * Z) :=
  foldM (fun '(inf, sqr) x =>
           abs_x <- abs_chk x ;;
           Ok (Z.max inf abs_x, add64 sqr (mul64 abs_x abs_x)))
        h (0, 0).
(* signature.hpp:111-117 *)
Definition from_centered_to_Zq (x : Z) : Z :=
  let mask := u64_of_s64 (Z.shiftr x 63) in
  let q_masked := s64_of_u64 (Z.land Q mask) in
  u64_of_s64 (x + q_masked).
(* signature.hpp:119-130 *)
Definition z_norms (z : list Z) : Z * Z :=
  fold_left (fun '(inf, sqr) zi =>
               let x := from_centered_to_Zq zi in
               let abs_x := if Q / 2 <? x then zq_neg x else x in
               let sh := zq_shr abs_x 32 in
               (Z.max inf abs_x, zq_add sqr (zq_mul sh sh)))
            z (0, 0).
(* signature.hpp:88-147 *)
Definition check_bounds (nuw Binf B22 : Z) (s : sig_t) : res bool :=
  '(h_inf, h_sqr) <- h_norms (sg_h s) ;;
  let '(z_inf, z_sqr) := z_norms (sg_z s) in
  if shr64 Binf nuw <? h_inf then Ok false
  else if Binf <? z_inf then Ok false
  else
    let scaled := mul64 h_sqr (shl64 1 (2 * nuw - 64)) in
    if B22 <? zq_add scaled z_sqr then Ok false else Ok true.

(* signature.hpp:150-153 *)
Definition sig_to_bytes (s : sig_t) (bytes : list Z) : res (bool * list Z) :=
  encode_sig (sg_c s) (sg_h s) (sg_z s) bytes.
(* signature.hpp:156-166 *)
Definition sig_from_bytes (kappa : Z) (k l : nat) (bytes : list Z) : res (option sig_t) :=
  o <- decode_sig (2 * kappa / 8) (k * PN) (l * PN) bytes ;;
  Ok (match o with Some (c, h, z) => Some (Sig c h z) | None => None end).

(* ------------------------------ public_key.hpp ------------------------------ *)

(* public_key.hpp:20-21 *)
Record pkey : Type := Pkey { pk_seed : list Z; pk_t : pvec }.

(* public_key.hpp:40 *)
Definition pk_byte_len (P : params) : Z :=
  get_pkey_byte_len (p_kappa P) (Z.of_nat (p_k P)) (Z.of_nat PN) (p_nut P).
(* public_key.hpp:135 *)
Definition pk_to_bytes (P : params) (pk : pkey) (bytes : list Z) : res (list Z) :=
  encode_public_key (p_nut P) (pk_seed pk) (pk_t pk) bytes.
(* public_key.hpp:138-143 *)
Definition pk_from_bytes (P : params) (bytes : list Z) : res pkey :=
  '(seed, t) <- decode_public_key (p_kappa P) (p_k P) (p_nut P) bytes ;;
  Ok (Pkey seed t).

(* public_key.hpp:78-94 and secret_key.hpp:111-127: mu = H(H(pk) || msg) *)
Definition bind_msg (O : oracles) (P : params) (pk : pkey) (msg : list Z) : res (list Z) :=
  let n := kbytes (2 * p_kappa P) in
  pk_bytes <- pk_to_bytes P pk (repeat 0 (Z.to_nat (pk_byte_len P))) ;;
  let '(mu, _) := xof_squeeze O (xof_absorb xof_new pk_bytes) n in
  let '(mu, _) := xof_squeeze O (xof_absorb (xof_absorb xof_new mu) msg) n in
  Ok mu.

(* public_key.hpp:58-132 *)
Definition verify (O : oracles) (fuel : nat) (P : params) (pk : pkey) (msg sig : list Z)
  : res bool :=
  o <- sig_from_bytes (p_kappa P) (p_k P) (p_l P) sig ;;
  match o with
  | None => Ok false
  | Some sg =>
      ok <- check_bounds (p_nuw P) (p_Binf P) (p_B22 P) sg ;;
      if negb ok then Ok false
      else
        mu <- bind_msg O P pk msg ;;
        A <- expandA O fuel (p_k P) (p_l P) (pk_seed pk) ;;
        let h := sig_get_h (p_k P) (p_nuw P) sg in
        let z := pv_ntt (sig_get_z (p_l P) sg) in
        c <- chal_poly O fuel (p_omega P) (sg_c sg) ;;
        let c := ntt c in
        let t := pv_ntt (pv_shl (p_nut P) (pk_t pk)) in
        let y := pv_sub (mat_mul (p_k P) (p_l P) 1 A z) (pv_mul_poly t c) in
        let y := pv_intt y in
        let y := pv_rounding_shr (p_nuw P) y in
        let w := pv_add_mod (shr64 Q (p_nuw P)) y h in
        let c' := chal_hash O (p_kappa P) (p_k P) w mu in
        let is_equal := ct_eq_byte_array (sg_c sg) c' in
        Ok (negb (Z.shiftr is_equal 31 =? 0))
  end.

(* ------------------------------ secret_key.hpp ------------------------------ *)

(* secret_key.hpp:19-20 *)
Record skey : Type := Skey { sk_pkey : pkey; sk_s : pvec }.

(* secret_key.hpp:39 *)
Definition sk_byte_len (P : params) : Z :=
  get_skey_byte_len (p_kappa P) (Z.of_nat (p_k P)) (Z.of_nat (p_l P)) (Z.of_nat (p_d P))
                    (Z.of_nat PN) (p_nut P).

(* secret_key.hpp:53-57 *)
Definition sk_refresh (O : oracles) (fuel : nat) (P : params) (sk : skey) : res skey :=
  '(s, _) <- pv_refresh O fuel (p_d P) (sk_s sk) (mrng_new O (p_d P)) ;;
  Ok (Skey (sk_pkey sk) s).

(* secret_key.hpp:62-96; [tp] is the output stream of the fresh prng_t *)
Definition sk_generate (O : oracles) (fuel : nat) (P : params) (seed : list Z)
           (tp : nat -> byte) : res skey :=
  let prng := prng_new tp in
  let m := mrng_new O (p_d P) in
  A <- expandA O fuel (p_k P) (p_l P) seed ;;
  '(s, m) <- pv_zero_encoding O fuel (p_l P) (p_d P) m ;;
  '(s, prng, m) <- pv_add_rep_noise O fuel (p_ut P) (p_rep P) (p_kappa P) (p_d P) s prng m ;;
  let s := pv_ntt s in
  let t := pv_intt (mat_mul (p_k P) (p_l P) (p_d P) A s) in
  '(t, prng, m) <- pv_add_rep_noise O fuel (p_ut P) (p_rep P) (p_kappa P) (p_d P) t prng m ;;
  let t' := pv_rounding_shr (p_nut P) (pv_decode t) in
  Ok (Skey (Pkey seed t') s).

(* secret_key.hpp:135-207: the signing loop.  [sig] is the current content of sig_bytes. *)
Fixpoint sign_loop (O : oracles) (wfuel fuel : nat) (P : params) (A : pmat) (t : pvec)
         (mu : list Z) (s : pvec) (prng : prng) (m : mrng) (sig : list Z)
  : res (list Z) :=
  match fuel with
  | O => OutOfFuel
  | S fuel' =>
      '(r, m) <- pv_zero_encoding O wfuel (p_l P) (p_d P) m ;;
      '(r, prng, m) <- pv_add_rep_noise O wfuel (p_uw P) (p_rep P) (p_kappa P) (p_d P) r prng m ;;
      let r := pv_ntt r in
      let w := pv_intt (mat_mul (p_k P) (p_l P) (p_d P) A r) in
      '(w, prng, m) <- pv_add_rep_noise O wfuel (p_uw P) (p_rep P) (p_kappa P) (p_d P) w prng m ;;
      let w' := pv_rounding_shr (p_nuw P) (pv_decode w) in
      let c_hash := chal_hash O (p_kappa P) (p_k P) w' mu in
      c <- chal_poly O wfuel (p_omega P) c_hash ;;
      let c := ntt c in
      '(s, m) <- pv_refresh O wfuel (p_d P) s m ;;
      '(r, m) <- pv_refresh O wfuel (p_d P) r m ;;
      let z := pv_add (pv_mul_poly s c) r in
      '(z, m) <- pv_refresh O wfuel (p_d P) z m ;;
      let z' := pv_decode z in
      let y := pv_sub (mat_mul (p_k P) (p_l P) 1 A z') (pv_mul_poly t c) in
      let y := pv_intt y in
      let z' := pv_intt z' in
      let y := pv_rounding_shr (p_nuw P) y in
      let h := pv_sub_mod (shr64 Q (p_nuw P)) w' y in
      let sg := sig_make (p_nuw P) c_hash h z' in
      '(is_encoded, sig) <- sig_to_bytes sg sig ;;
      if negb is_encoded then sign_loop O wfuel fuel' P A t mu s prng m sig
      else
        is_under_bounds <- check_bounds (p_nuw P) (p_Binf P) (p_B22 P) sg ;;
        if negb is_under_bounds then sign_loop O wfuel fuel' P A t mu s prng m sig
        else Ok sig
  end.
(* secret_key.hpp:101-208; [tp] is the output stream of the fresh prng_t, [sig] the previous
   content of the destination *)
Definition sk_sign (O : oracles) (fuel : nat) (P : params) (sk : skey) (msg sig : list Z)
           (tp : nat -> byte) : res (list Z) :=
  let t := pv_ntt (pv_shl (p_nut P) (pk_t (sk_pkey sk))) in
  mu <- bind_msg O P (sk_pkey sk) msg ;;
  A <- expandA O fuel (p_k P) (p_l P) (pk_seed (sk_pkey sk)) ;;
  sign_loop O fuel fuel P A t mu (sk_s sk) (prng_new tp) (mrng_new O (p_d P)) sig.

(* secret_key.hpp:211-220 *)
Definition sk_to_bytes (O : oracles) (fuel : nat) (P : params) (sk : skey) (bytes : list Z)
           (p : prng) : res (list Z * prng) :=
  let pklen := pk_byte_len P in
  pkb <- subspan bytes 0 pklen ;;
  skb <- subspan bytes pklen (zlen bytes - pklen) ;;
  pkb <- pk_to_bytes P (sk_pkey sk) pkb ;;
  '(skb, p) <- mask_compress O fuel (p_kappa P) (p_d P) (sk_s sk) skb p ;;
  Ok (pkb ++ skb, p).
(* secret_key.hpp:223-236 *)
Definition sk_from_bytes (O : oracles) (fuel : nat) (P : params) (bytes : list Z) : res skey :=
  let pklen := pk_byte_len P in
  pkb <- subspan bytes 0 pklen ;;
  skb <- subspan bytes pklen (zlen bytes - pklen) ;;
  pk <- pk_from_bytes P pkb ;;
  s <- mask_decompress O fuel (p_kappa P) (p_l P) (p_d P) skb ;;
  Ok (Skey pk s).
