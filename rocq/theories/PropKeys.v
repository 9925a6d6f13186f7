(* Property theorems about key serialization: serialization.hpp, public_key.hpp, secret_key.hpp. *)
From Coq Require Import ZArith List Bool Lia.
From Verif Require Import ModelBase ModelField ModelUtils ModelPoly ModelVec ModelSerial ModelScheme.
From Verif Require Import Spec SpecScheme SpecHash.
From Verif Require Import PolyLemmas MaskedLemmas KeyLemmas KeyLayout FinProofs ExOracle ExGood KeyExamples.
Import ListNotations.
Open Scope Z_scope.

(* C09: for every parameter set, from_bytes accepts every byte string of the public key length,
   yields a well-formed key whose encoding is that string, and to_bytes returns the string again
   whatever the destination held; conversely every well-formed key survives to_bytes/from_bytes. *)
Theorem C09_public_key_bijection :
  (forall P bytes, params_ok P = true -> Forall is_byte bytes -> zlen bytes = pk_byte_len P ->
     exists pk, pk_from_bytes P bytes = Ok pk /\
       valid_public (Z.to_nat (p_kappa P / 8)) (p_k P) (pk_seed pk) (pk_t pk) /\
       public_key_code (pk_seed pk) (pk_t pk) bytes /\
       forall buf, zlen buf = pk_byte_len P -> pk_to_bytes P pk buf = Ok bytes) /\
  (forall P pk buf, params_ok P = true ->
     valid_public (Z.to_nat (p_kappa P / 8)) (p_k P) (pk_seed pk) (pk_t pk) -> zlen buf = pk_byte_len P ->
     exists bytes, pk_to_bytes P pk buf = Ok bytes /\ zlen bytes = pk_byte_len P /\ Forall is_byte bytes /\
       public_key_code (pk_seed pk) (pk_t pk) bytes /\ pk_from_bytes P bytes = Ok pk).
Proof. exact (conj pk_bytes_roundtrip pk_key_roundtrip). Qed.
Print Assumptions C09_public_key_bijection.
Example C09_nonvacuous :
  params_ok (raccoon192_params 4) = true /\ pk_byte_len (raccoon192_params 4) = 3160 /\
  zlen (repeat 173 3160) = 3160 /\ Forall is_byte (repeat 173 3160) /\
  valid_public 24 7 (repeat 200 24) (repeat [repeat 127 512] 7).
Proof. exact c09_example. Qed.

(* C10: serializing a secret key is free of undefined behaviour; whatever the random tape and the
   previous contents of the destination, the bytes deserialize to a key with the same public key and
   the same sum of shares. *)
Theorem C10_secret_key_roundtrip : forall O fuel P sk buf tp pos, params_ok P = true ->
  valid_public (Z.to_nat (p_kappa P / 8)) (p_k P) (pk_seed (sk_pkey sk)) (pk_t (sk_pkey sk)) ->
  secret_vec (p_l P) (p_d P) (sk_s sk) -> zlen buf = sk_byte_len P ->
  sk_to_bytes O fuel P sk buf (Prng tp pos) <> UB /\
  forall bytes p, sk_to_bytes O fuel P sk buf (Prng tp pos) = Ok (bytes, p) ->
    zlen bytes = sk_byte_len P /\ Forall is_byte bytes /\
    exists sk', sk_from_bytes O fuel P bytes = Ok sk' /\
      sk_pkey sk' = sk_pkey sk /\ map unmask (sk_s sk') = map unmask (sk_s sk) /\
      secret_vec (p_l P) (p_d P) (sk_s sk').
Proof. exact sk_roundtrip. Qed.
Print Assumptions C10_secret_key_roundtrip.
(* a two-share key of Raccoon-128: serialization returns *)
Example C10_nonvacuous :
  params_ok (raccoon128_params 2) = true /\
  valid_public 16 5 (pk_seed (sk_pkey ex_key2)) (pk_t (sk_pkey ex_key2)) /\
  secret_vec 4 2 (sk_s ex_key2) /\ masked_vec 4 2 (sk_s ex_key2) /\
  exists bytes p, sk_to_bytes ex_G 512 (raccoon128_params 2) ex_key2
                    (repeat 9 (Z.to_nat (sk_byte_len (raccoon128_params 2)))) (Prng ex_tape 3) = Ok (bytes, p).
Proof. exact c10_example. Qed.

(* C11 is false: whatever SHAKE256, the tape and the masking order, the part of the serialized key
   behind the seeds is the plain 49-bit packing of the unmasked secret (no mask is subtracted), and
   deserialization puts the unmasked secret into share 0 and zero into all other shares. *)
Theorem C11_masked_serialization_refuted : forall O fuel P sk buf tp pos bytes p, params_ok P = true ->
  valid_public (Z.to_nat (p_kappa P / 8)) (p_k P) (pk_seed (sk_pkey sk)) (pk_t (sk_pkey sk)) ->
  masked_vec (p_l P) (p_d P) (sk_s sk) -> zlen buf = sk_byte_len P ->
  sk_to_bytes O fuel P sk buf (Prng tp pos) = Ok (bytes, p) ->
  packed49 (map unmask (sk_s sk))
    (skipn (Z.to_nat (pk_byte_len P + (Z.of_nat (p_d P) - 1) * (p_kappa P / 8))) bytes) /\
  exists sk', sk_from_bytes O fuel P bytes = Ok sk' /\
    sk_s sk' = map (fun row => unmask row :: repeat ring_zero (p_d P - 1)) (sk_s sk).
Proof. exact sk_leak. Qed.
Print Assumptions C11_masked_serialization_refuted.
(* C11, what holds: the serialized key is the public key, then d - 1 seeds, which are the next bytes of the
   generator and all that it is asked for, then 49 bits per coefficient of l polynomials; the masks of the
   specification (share number and row number under 'K', expanded from these seeds) exist.  Missing: the
   polynomials stored are the secret itself, not the secret minus the masks. *)
Theorem C11_masked_serialization_partial : forall O fuel P sk buf tp pos bytes p, params_ok P = true ->
  valid_public (Z.to_nat (p_kappa P / 8)) (p_k P) (pk_seed (sk_pkey sk)) (pk_t (sk_pkey sk)) ->
  secret_vec (p_l P) (p_d P) (sk_s sk) -> zlen buf = sk_byte_len P ->
  sk_to_bytes O fuel P sk buf (Prng tp pos) = Ok (bytes, p) ->
  let m := Z.to_nat (p_kappa P / 8) in let seed i := stream_bytes (tape_of tp) (pos + (i - 1) * m) m in
  exists pk_bytes xs packed,
    bytes = pk_bytes ++ stream_bytes (tape_of tp) pos ((p_d P - 1) * m) ++ packed /\ p = Prng tp (pos + (p_d P - 1) * m) /\
    public_key_code (pk_seed (sk_pkey sk)) (pk_t (sk_pkey sk)) pk_bytes /\ length xs = p_l P /\ packed49 xs packed /\
    (forall i, (1 <= i < p_d P)%nat -> firstn m (skipn ((i - 1) * m) (stream_bytes (tape_of tp) pos ((p_d P - 1) * m))) = seed i) /\
    (forall i r, (1 <= i < p_d P)%nat -> (r < p_l P)%nat ->
       exists mask, is_poly mask /\ uniform_poly (hash_of O (query_input (hq_share i r (seed i)))) mask).
Proof. exact sk_layout. Qed.
Print Assumptions C11_masked_serialization_partial.
(* for the two-share key above: the leaked coefficients are the sums of the shares *)
Example C11_nonvacuous :
  map unmask (sk_s ex_key2) = repeat (repeat 2 512) 4 /\ ~ In (repeat 2 512) (concat (sk_s ex_key2)).
Proof. exact c11_example. Qed.

(* C38 is false: a byte string of the right length deserializes to a key with coefficient 2^49 - 1,
   which is not below q. *)
Theorem C38_canonical_secret_refuted : exists O fuel P bytes sk,
  params_ok P = true /\ Forall is_byte bytes /\ zlen bytes = sk_byte_len P /\
  sk_from_bytes O fuel P bytes = Ok sk /\
  coef (nth 0 (nth 0 (sk_s sk) []) []) 0 = 2 ^ 49 - 1 /\ q <= 2 ^ 49 - 1.
Proof. exact sk_not_canonical. Qed.
Print Assumptions C38_canonical_secret_refuted.

(* C38, what holds: deserialization of any byte string has no undefined behaviour; the public key is
   well-formed, share 0 consists of 49-bit numbers taken verbatim from the string and every other
   share is zero.  Missing: share 0 need not be below q. *)
Theorem C38_canonical_secret_partial : forall O fuel P bytes,
  params_ok P = true -> Forall is_byte bytes -> zlen bytes = sk_byte_len P ->
  sk_from_bytes O fuel P bytes <> UB /\
  (p_d P = 1%nat -> exists sk, sk_from_bytes O fuel P bytes = Ok sk) /\
  forall sk, sk_from_bytes O fuel P bytes = Ok sk ->
    valid_public (Z.to_nat (p_kappa P / 8)) (p_k P) (pk_seed (sk_pkey sk)) (pk_t (sk_pkey sk)) /\
    secret_vec (p_l P) (p_d P) (sk_s sk) /\
    Forall (fun row => forall i, (1 <= i < p_d P)%nat -> nth i row [] = ring_zero) (sk_s sk) /\
    exists pk_bytes seeds packed, bytes = pk_bytes ++ seeds ++ packed /\
      public_key_code (pk_seed (sk_pkey sk)) (pk_t (sk_pkey sk)) pk_bytes /\
      Z.of_nat (length seeds) = (Z.of_nat (p_d P) - 1) * (p_kappa P / 8) /\
      packed49 (map (fun row => nth 0 row []) (sk_s sk)) packed.
Proof. exact sk_decode_shape. Qed.
Print Assumptions C38_canonical_secret_partial.
