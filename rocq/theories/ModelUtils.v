(* Model of include/raccoon/internals/utility/utils.hpp, utility/params.hpp, rng/prng.hpp,
   rng/mrng.hpp and of the interfaces of the external submodules sha3, ascon, subtle. *)
From Verif Require Import ModelBase ModelU128 ModelField.
Open Scope Z_scope.

(* ------------------------------------------------------------------------- *)
(* External code (git submodules that are not part of /repo): oracles.        *)

(* ascon_perm::ascon_perm_t : five 64-bit words *)
Record ascon_state : Type := Ascon { a0 : Z; a1 : Z; a2 : Z; a3 : Z; a4 : Z }.
Definition ascon_zero : ascon_state := Ascon 0 0 0 0 0. (* value-initialised, `{}` *)

Record oracles : Type := {
  (* SHAKE256: absorbed message bytes -> infinite output stream *)
  shake256 : list Z -> nat -> byte;
  (* permute<rounds>() *)
  ascon_permute : nat -> ascon_state -> ascon_state;
  (* ascon80pq_aead::IV *)
  ascon80pq_iv : Z
}.

(* shake256_t object: absorb(), finalize(), squeeze(), reset().  Simplification: the sponge is
   represented by everything absorbed so far and the number of bytes squeezed so far, i.e. the
   incremental interface is assumed to be concatenative; finalize() has no separate state
   because /repo always calls absorb* finalize squeeze*. *)
Record xof : Type := Xof { xof_in : list Z; xof_out : nat }.
Definition xof_new : xof := Xof [] 0.
Definition xof_absorb (x : xof) (m : list Z) : xof := Xof (xof_in x ++ m) (xof_out x).
Definition xof_squeeze (O : oracles) (x : xof) (n : nat) : list Z * xof :=
  (map (fun i => byteZ (shake256 O (xof_in x) i)) (seq (xof_out x) n),
   Xof (xof_in x) (xof_out x + n)).
(* shake256::RATE / 8 *)
Definition SHAKE256_RATE_BYTES : nat := 136.

(* subtle::ct_eq<uint8_t, uint32_t>, subtle::ct_ge<uint64_t, uint64_t>: documented contract,
   all bits set when the relation holds and 0 otherwise. *)
Definition ct_eq32 (a b : Z) : Z := if a =? b then 4294967295 else 0.
Definition ct_ge64 (a b : Z) : Z := if b <=? a then two64 - 1 else 0.

(* ------------------------------------------------------------------------- *)
(* utils.hpp:17-30.  [sz] = sizeof(T); at most sz bytes are read. *)
Definition from_le_bytes (sz : nat) (bytes : list Z) : Z :=
  fold_left (fun r i => Z.lor r (Z.shiftl (nth i bytes 0) (8 * Z.of_nat i)))
            (seq 0 (Nat.min sz (length bytes))) 0.

(* utils.hpp:34-42, for a 64-bit v; returns the new contents of the destination span *)
Definition to_le_bytes (v : Z) (bytes : list Z) : list Z :=
  let copyable := Nat.min 8 (length bytes) in
  map (fun i => shr64 v (8 * Z.of_nat i) mod 256) (seq 0 copyable) ++ skipn copyable bytes.

(* utils.hpp:45-51 *)
Definition is_power_of_2 (v : Z) : bool := Z.land v (sub64 v 1) =? 0.

(* utils.hpp:53-60 *)
Definition log2_pow2 (v : Z) : Z := ctz64 v.

(* utils.hpp:63-68, 71-77 *)
Definition get_pkey_byte_len (kappa k n nu_t : Z) : Z :=
  (kappa + k * n * (Q_BIT_WIDTH - nu_t)) / 8.
Definition get_skey_byte_len (kappa k l d n nu_t : Z) : Z :=
  get_pkey_byte_len kappa k n nu_t + ((d - 1) * kappa + l * n * Q_BIT_WIDTH) / 8.

(* utils.hpp:82-91 *)
Definition ct_eq_byte_array (a b : list Z) : Z :=
  fold_left (fun r i => Z.land r (ct_eq32 (nth i a 0) (nth i b 0))) (seq 0 (length a)) 4294967295.

(* ------------------------------------------------------------------------- *)
(* rng/prng.hpp: prng_t.  The SHAKE128 state seeded from std::random_device is an arbitrary
   infinite byte tape together with the read position (prng.hpp:27-59). *)
Record prng : Type := Prng { tape : nat -> byte; ppos : nat }.
Definition prng_new (t : nat -> byte) : prng := Prng t 0.
Definition prng_read (p : prng) (n : nat) : list Z * prng :=
  (map (fun i => byteZ (tape p i)) (seq (ppos p) n), Prng (tape p) (ppos p + n)).

(* field.hpp:195-201 *)
Definition zq_random (p : prng) : Z * prng :=
  let '(b, p) := prng_read p 8 in (zq_random_of_word (from_le_bytes 8 b), p).

(* ------------------------------------------------------------------------- *)
(* rng/mrng.hpp: mrng_t<d>: d-1 Ascon states *)
Definition mrng : Type := list ascon_state.

(* mrng.hpp:29-43: key = 0,1,..,19, nonce = 0,1,..,15, read big-endian *)
Definition mrng_key0 : Z := 0x0001020304050607.
Definition mrng_key1 : Z := 0x08090a0b0c0d0e0f.
Definition mrng_key2 : Z := 0x10111213.
Definition mrng_nonce0 : Z := 0x0001020304050607.
Definition mrng_nonce1 : Z := 0x08090a0b0c0d0e0f.

(* mrng.hpp:46-60: the value the loop body computes in its local variable `i_share` *)
Definition mrng_i_share (O : oracles) (i : nat) (i_share : ascon_state) : ascon_state :=
  let s0 := Z.lor (shl64 (ascon80pq_iv O) 32) (shr64 mrng_key0 32) in
  let s1 := Z.lor (shl64 mrng_key0 32) (shr64 mrng_key1 32) in
  let s2 := Z.lor (shl64 mrng_key1 32) mrng_key2 in
  let s3 := add64 mrng_nonce0 (Z.of_nat i) in
  let s4 := mrng_nonce1 in
  let p := ascon_permute O 12 (Ascon s0 s1 s2 s3 s4) in
  Ascon (a0 p) (a1 p)
        (Z.lxor (a2 p) (shr64 mrng_key0 32))
        (Z.lxor (a3 p) (Z.lor (shl64 mrng_key0 32) (shr64 mrng_key1 32)))
        (Z.lxor (Z.lxor (a4 p) (Z.lor (shl64 mrng_key1 32) mrng_key2)) 1).

(* mrng.hpp:26-62 (and 65-68 for d = 1).  `auto i_share = this->state[i];` (line 46) declares a
   *copy* of state[i]; everything computed in the body is stored in that copy and discarded at
   the end of the iteration, so this->state keeps its value-initialised contents. *)
Definition mrng_new (O : oracles) (d : nat) : mrng :=
  let state := repeat ascon_zero (d - 1) in
  fold_left (fun state i => let _i_share := mrng_i_share O i (nth i state ascon_zero) in state)
            (seq 0 (d - 1)) state.

(* mrng.hpp:72-82 *)
Definition mrng_get (O : oracles) (d : nat) (idx : nat) (m : mrng) : Z * mrng :=
  if (d - 1 <=? idx)%nat then (0, m)
  else
    let st := nth idx m ascon_zero in
    (a0 st, upd idx (ascon_permute O 6 st) m).

(* ------------------------------------------------------------------------- *)
(* params.hpp *)

Definition is_d_valid (d : Z) : bool := (0 <? d) && is_power_of_2 d && (d <=? 32).

(* params.hpp:13-95: the two nested switch statements *)
Definition is_ut_valid (kappa d ut : Z) : bool :=
  let sel (a b : Z) :=
    if kappa =? 128 then ut =? a else if kappa =? 256 then ut =? a
    else if kappa =? 192 then ut =? b else true in
  if d =? 1 then sel 6 7 else if d =? 2 then sel 6 7 else if d =? 4 then sel 6 7
  else if d =? 8 then sel 5 6 else if d =? 16 then sel 5 6 else if d =? 32 then sel 4 5
  else true.
Definition is_rep_valid (d rep : Z) : bool :=
  if d =? 1 then rep =? 8 else if d =? 2 then rep =? 4 else if d =? 4 then rep =? 2
  else if d =? 8 then rep =? 4 else if d =? 16 then rep =? 2 else if d =? 32 then rep =? 4
  else true.

(* params.hpp:8-105 *)
Definition validate_keygen_args (kappa k l d ut nut rep : Z) : bool :=
  let dv := is_d_valid d in
  let uv := is_ut_valid kappa d ut in
  let rv := is_rep_valid d rep in
  let r128 := (kappa =? 128) && (k =? 5) && (l =? 4) && dv && uv && (nut =? 42) && rv in
  let r192 := (kappa =? 192) && (k =? 7) && (l =? 5) && dv && uv && (nut =? 42) && rv in
  let r256 := (kappa =? 256) && (k =? 9) && (l =? 7) && dv && uv && (nut =? 42) && rv in
  r128 || r192 || r256.

(* params.hpp:128-159 *)
Definition is_uw_valid (d uw : Z) : bool :=
  if d =? 1 then uw =? 41 else if d =? 2 then uw =? 41 else if d =? 4 then uw =? 41
  else if d =? 8 then uw =? 40 else if d =? 16 then uw =? 40 else if d =? 32 then uw =? 39
  else true.

(* params.hpp:109-172 *)
Definition validate_sign_args
  (kappa k l d uw nuw nut rep omega sig_byte_len Binf B22 : Z) : bool :=
  let dv := is_d_valid d in
  let uv := is_uw_valid d uw in
  let rv := is_rep_valid d rep in
  let r128 := (kappa =? 128) && (k =? 5) && (l =? 4) && dv && uv && (nuw =? 44) && (nut =? 42)
              && rv && (omega =? 19) && (sig_byte_len =? 11524) && (Binf =? 41954689765971)
              && (B22 =? 14656575897) in
  let r192 := (kappa =? 192) && (k =? 7) && (l =? 5) && dv && uv && (nuw =? 44) && (nut =? 42)
              && rv && (omega =? 31) && (sig_byte_len =? 14544) && (Binf =? 47419426657048)
              && (B22 =? 24964497408) in
  let r256 := (kappa =? 256) && (k =? 9) && (l =? 7) && dv && uv && (nuw =? 44) && (nut =? 42)
              && rv && (omega =? 44) && (sig_byte_len =? 20330) && (Binf =? 50958538642039)
              && (B22 =? 38439957299) in
  r128 || r192 || r256.

(* params.hpp:176-195 *)
Definition validate_verify_args (kappa k l nuw nut omega sig_byte_len Binf B22 : Z) : bool :=
  let r128 := (kappa =? 128) && (k =? 5) && (l =? 4) && (nuw =? 44) && (nut =? 42)
              && (omega =? 19) && (sig_byte_len =? 11524) && (Binf =? 41954689765971)
              && (B22 =? 14656575897) in
  let r192 := (kappa =? 192) && (k =? 7) && (l =? 5) && (nuw =? 44) && (nut =? 42)
              && (omega =? 31) && (sig_byte_len =? 14544) && (Binf =? 47419426657048)
              && (B22 =? 24964497408) in
  let r256 := (kappa =? 256) && (k =? 9) && (l =? 7) && (nuw =? 44) && (nut =? 42)
              && (omega =? 44) && (sig_byte_len =? 20330) && (Binf =? 50958538642039)
              && (B22 =? 38439957299) in
  r128 || r192 || r256.

(* All template arguments of key generation, signing and verification in one record. *)
Record params : Type := Params {
  p_kappa : Z; p_k : nat; p_l : nat; p_d : nat;
  p_ut : Z; p_nut : Z; p_uw : Z; p_nuw : Z; p_rep : nat; p_omega : nat;
  p_siglen : Z; p_Binf : Z; p_B22 : Z }.

(* the `requires` clauses of skey_t::generate (secret_key.hpp:64) and skey_t::sign
   (secret_key.hpp:103) *)
Definition params_ok (P : params) : bool :=
  validate_keygen_args (p_kappa P) (Z.of_nat (p_k P)) (Z.of_nat (p_l P)) (Z.of_nat (p_d P))
                       (p_ut P) (p_nut P) (Z.of_nat (p_rep P))
  && validate_sign_args (p_kappa P) (Z.of_nat (p_k P)) (Z.of_nat (p_l P)) (Z.of_nat (p_d P))
                        (p_uw P) (p_nuw P) (p_nut P) (Z.of_nat (p_rep P))
                        (Z.of_nat (p_omega P)) (p_siglen P) (p_Binf P) (p_B22 P).

(* raccoon128.hpp:9-20, 86, 95: template arguments selected for masking parameter d *)
Definition table6 (t : list Z) (d : nat) : Z := nth (Z.to_nat (log2_pow2 (Z.of_nat d))) t 0.
Definition raccoon128_params (d : nat) : params :=
  Params 128 5 4 d (table6 [6;6;6;5;5;4] d) 42 (table6 [41;41;41;40;40;39] d) 44
         (Z.to_nat (table6 [8;4;2;4;2;4] d)) 19 11524 41954689765971 14656575897.
(* raccoon192.hpp:9-20, 86, 95 *)
Definition raccoon192_params (d : nat) : params :=
  Params 192 7 5 d (table6 [7;7;7;6;6;5] d) 42 (table6 [41;41;41;40;40;39] d) 44
         (Z.to_nat (table6 [8;4;2;4;2;4] d)) 31 14544 47419426657048 24964497408.
(* raccoon256.hpp:9-20, 86, 95 *)
Definition raccoon256_params (d : nat) : params :=
  Params 256 9 7 d (table6 [6;6;6;5;5;4] d) 42 (table6 [41;41;41;40;40;39] d) 44
         (Z.to_nat (table6 [8;4;2;4;2;4] d)) 44 20330 50958538642039 38439957299.

(* ------------------------------------------------------------------------- *)
(* Not part of the code: the oracle streams as functions to numbers, the form in which the
   specification (Spec.v) takes them. *)
Definition hash_of (O : oracles) (m : list Z) (i : nat) : Z := byteZ (shake256 O m i).
Definition tape_of (tp : nat -> byte) (i : nat) : Z := byteZ (tp i).
