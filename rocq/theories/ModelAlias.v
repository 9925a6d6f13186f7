(* Model of sign and verify when the message and the signature are spans into one memory, so that they may
   overlap: secret_key.hpp:101-208 and public_key.hpp:58-132.  A span is an offset and a length; the
   memory is the list of its bytes.  Each attempt stores into the memory, and every read of the message goes
   to the memory as it is at that point of the program.  Simplification: within one attempt the stores of
   to_bytes are done in one step, which loses nothing, since to_bytes reads only the members of its own
   object (signature.hpp:150-153), not the memory. *)
From Coq Require Import ZArith List Bool.
From Verif Require Import ModelBase ModelU128 ModelField ModelUtils ModelPoly ModelVec ModelSerial ModelScheme ModelTrace.
Import ListNotations.
Open Scope Z_scope.

(* secret_key.hpp:190 (sig.to_bytes(sig_bytes)), where sig_bytes is the span (soff, slen) *)
Definition to_bytes_at (sg : sig_t) (mem : list Z) (soff slen : Z) : res (bool * list Z) :=
  sig_bytes <- subspan mem soff slen ;;
  '(is_encoded, sig_bytes) <- sig_to_bytes sg sig_bytes ;;
  mem <- write_at mem soff sig_bytes ;;
  Ok (is_encoded, mem).
(* secret_key.hpp:135-207: the loop has the digest of the message, and does not read the message itself *)
Fixpoint sign_loop_at (O : oracles) (wfuel fuel : nat) (P : params) (A : pmat) (t : pvec)
         (mu : list Z) (s : pvec) (prng : prng) (m : mrng) (mem : list Z) (soff : Z) : res (list Z) :=
  match fuel with
  | O => OutOfFuel
  | S fuel' =>
      '(sg, s, prng, m) <- sign_try O wfuel P A t mu s prng m ;;
      '(is_encoded, mem) <- to_bytes_at sg mem soff (p_siglen P) ;;
      if negb is_encoded then sign_loop_at O wfuel fuel' P A t mu s prng m mem soff
      else
        is_under_bounds <- check_bounds (p_nuw P) (p_Binf P) (p_B22 P) sg ;;
        if negb is_under_bounds then sign_loop_at O wfuel fuel' P A t mu s prng m mem soff
        else Ok mem
  end.
(* secret_key.hpp:101-208: msg is read at lines 123-126, before the first store to sig_bytes *)
Definition sign_at (O : oracles) (fuel : nat) (P : params) (sk : skey) (mem : list Z) (moff mlen soff : Z)
           (tp : nat -> byte) : res (list Z) :=
  let t := pv_ntt (pv_shl (p_nut P) (pk_t (sk_pkey sk))) in
  msg <- subspan mem moff mlen ;;
  mu <- bind_msg O P (sk_pkey sk) msg ;;
  A <- expandA O fuel (p_k P) (p_l P) (pk_seed (sk_pkey sk)) ;;
  sign_loop_at O fuel fuel P A t mu (sk_s sk) (prng_new tp) (mrng_new O (p_d P)) mem soff.
(* public_key.hpp:58-132: both spans are only read *)
Definition verify_at (O : oracles) (fuel : nat) (P : params) (pk : pkey) (mem : list Z) (moff mlen soff : Z) : res bool :=
  msg <- subspan mem moff mlen ;;
  sig <- subspan mem soff (p_siglen P) ;;
  verify O fuel P pk msg sig.
