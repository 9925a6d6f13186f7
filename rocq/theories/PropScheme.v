(* Property theorems about the signature scheme: public_key.hpp, secret_key.hpp, signature.hpp and the
   API types. *)
From Coq Require Import ZArith List Bool Lia.
From Verif Require Import ModelBase ModelField ModelUtils ModelPoly ModelVec ModelSerial ModelScheme ModelApi.
From Verif Require Import Spec SpecScheme SpecSig SpecVerify SpecApi.
From Verif Require Import MaskedProofs PolyLemmas MaskedLemmas ParamProofs KeyLemmas ExOracle ExGood KeyExamples VerifyProofs SignProofs SignVerify KeygenProofs HistoryProofs HashLemmas FuelProofs TermProofs BoundProofs ExSign ExOver.
Import ListNotations.
Open Scope Z_scope.

(* C01: whatever the hash function, the key object (also one with 49-bit coefficients read from
   bytes), the message, the random tape and the number of retries, bytes returned by sign have the
   signature length and verify under the public key held in the secret key, with the same waiting
   bound as with every larger one. *)
Theorem C01_signatures_verify : forall O fuel P sk msg buf tp sig, params_ok P = true ->
  valid_public (Z.to_nat (p_kappa P / 8)) (p_k P) (pk_seed (sk_pkey sk)) (pk_t (sk_pkey sk)) ->
  masked_vec49 (p_l P) (p_d P) (sk_s sk) -> zlen buf = p_siglen P ->
  sk_sign O fuel P sk msg buf tp = Ok sig ->
  zlen sig = p_siglen P /\ Forall is_byte sig /\
  forall fuel', (fuel <= fuel')%nat -> verify O fuel' P (sk_pkey sk) msg sig = Ok true.
Proof.
  intros O fuel P sk msg buf tp sig HP V Hs Lb E. destruct (sign_verifies O fuel P sk msg buf tp sig HP V Hs Lb E) as (H1 & H2 & _ & H3).
  split; [exact H1|]. split; [exact H2|]. intros f' Hf. destruct (fuel_irrelevant O fuel f' Hf) as (_ & _ & _ & _ & _ & FV & _).
  apply FV; [exact H3|discriminate].
Qed.
Print Assumptions C01_signatures_verify.
(* a key of Raccoon-128 with two shares and a secret different from zero signs every message *)
Example C01_nonvacuous :
  params_ok (raccoon128_params 2) = true /\ valid_public 16 5 (pk_seed (sk_pkey ex_sk)) (pk_t (sk_pkey ex_sk)) /\
  masked_vec49 4 2 (sk_s ex_sk) /\ map unmask (sk_s ex_sk) = map transform ((1 :: repeat 0 511) :: repeat ring_zero 3) /\
  forall msg tp, exists sig, sk_sign ex_G 512 (raccoon128_params 2) ex_sk msg (repeat 171 (Z.to_nat 11524)) tp = Ok sig.
Proof.
  split; [vm_compute; reflexivity|]. split; [exact ex_sk_public|]. split; [exact (masked_49 _ _ _ ex_sk_masked)|].
  split; [symmetry; exact ex_sk_secret|]. intros msg tp. apply ex_sk_signs. unfold zlen. rewrite repeat_length. apply Z2Nat.id. lia.
Qed.

(* C02: from a generated or deserialized key pair, after any sequence of calls that return, both
   objects hold the original public key, the unmasked secret is unchanged, the messages signed are
   those asked for, in order, every signature ever produced and every signature produced now
   verifies under the final (= original) public key, and every call of verify reported exactly the
   validity under the original key.  Sequences of refresh and (de)serialization have no undefined
   behaviour. *)
Theorem C02_key_histories : forall O fuel P st0 ops, params_ok P = true -> api_start O fuel P st0 -> Forall (op_ok P) ops ->
  (forall st, api_run O fuel P st0 ops = Ok st ->
     a_pk st = a_pk st0 /\ sk_pkey (a_sk st) = a_pk st0 /\ map unmask (sk_s (a_sk st)) = map unmask (sk_s (a_sk st0)) /\
     map fst (a_signed st) = concat (map signs ops) /\
     Forall (fun ms => verify O fuel P (a_pk st) (fst ms) (snd ms) = Ok true) (a_signed st) /\
     Forall2 (fun ms b => b = true <-> valid_signature (hash_of O) (row_of P) (pk_seed (a_pk st0)) (pk_t (a_pk st0)) (fst ms) (snd ms))
       (concat (map verifies ops)) (a_verified st) /\
     forall msg buf tp sig, zlen buf = p_siglen P -> sk_sign O fuel P (a_sk st) msg buf tp = Ok sig ->
       verify O fuel P (a_pk st) msg sig = Ok true) /\
  (concat (map signs ops) = [] -> (forall m s, ~ In (op_verify m s) ops) -> api_run O fuel P st0 ops <> UB).
Proof. exact api_history. Qed.
Print Assumptions C02_key_histories.
(* Raccoon-192 with four shares: a history with every kind of call but verify returns *)
Example C02_nonvacuous : forall tp1 tp2 tp3 tp4 (tp5 : nat -> byte), let P := raccoon192_params 4 in
  let buf n := repeat 9 (Z.to_nat n) in
  let ops := [op_sign [1; 2; 3] (buf 14544) tp1; op_refresh; op_sk_reload (buf (sk_byte_len P)) tp2; op_pk_reload (buf (pk_byte_len P));
              op_get_pkey; op_refresh; op_sk_reload (buf (sk_byte_len P)) tp3; op_sign [] (buf 14544) tp4] in
  Forall (op_ok P) ops /\
  exists st0 st, api_start ex_G 512 P st0 /\ api_run ex_G 512 P st0 ops = Ok st /\ length (a_signed st) = 2%nat.
Proof.
  intros tp1 tp2 tp3 tp4 tp5 P buf ops.
  assert (L : forall n, 0 <= n -> zlen (buf n) = n) by (intros n Hn; unfold buf, zlen; rewrite repeat_length; apply Z2Nat.id; exact Hn).
  assert (HP : params_ok P = true) by (vm_compute; reflexivity).
  assert (LS : 0 <= sk_byte_len P) by (vm_compute; discriminate). assert (LP : 0 <= pk_byte_len P) by (vm_compute; discriminate).
  assert (Hops : Forall (op_ok P) ops).
  { unfold ops. constructor; [apply L; discriminate|]. constructor; [exact Logic.I|]. constructor; [apply L, LS|]. constructor; [apply L, LP|].
    constructor; [exact Logic.I|]. constructor; [exact Logic.I|]. constructor; [apply L, LS|]. constructor; [apply L; discriminate|]. constructor. }
  split; [exact Hops|].
  assert (B : Forall is_byte (repeat 77 24)) by (apply Forall_repeat; split; [discriminate|reflexivity]).
  destruct (exG_history P (repeat 77 24) tp5 ops HP ltac:(vm_compute; discriminate) B eq_refl Hops eq_refl) as (st0 & st & E0 & E).
  exists st0, st. assert (ST : api_start ex_G 512 P st0) by (left; exists (repeat 77 24), tp5; split; [exact B|split; [reflexivity|exact E0]]).
  split; [exact ST|]. split; [exact E|].
  destruct (api_history ex_G 512 P st0 ops HP ST Hops) as [H _]. destruct (H st E) as (_ & _ & _ & H4 & _).
  apply (f_equal (@length (list Z))) in H4. rewrite map_length in H4. exact H4.
Qed.

(* C03: verify returns true exactly on the valid signatures (valid_signature of SpecVerify.v): a result
   true or false tells validity, a valid signature is accepted whenever one waits long enough, and an
   invalid one is never accepted; if the hash streams contain enough acceptable values within the
   waiting bound and the signature does not overrun the decoder's window (C04, C53), there is a result. *)
Theorem C03_verify_exact : forall O P pk msg sig, params_ok P = true ->
  valid_public (Z.to_nat (p_kappa P / 8)) (p_k P) (pk_seed pk) (pk_t pk) -> Forall is_byte sig -> zlen sig = p_siglen P ->
  let valid := valid_signature (hash_of O) (row_of P) (pk_seed pk) (pk_t pk) msg sig in
  (forall fuel, verify O fuel P pk msg sig = Ok true -> valid) /\
  (forall fuel, verify O fuel P pk msg sig = Ok false -> ~ valid) /\
  (valid -> exists fuel0, forall fuel, (fuel0 <= fuel)%nat -> verify O fuel P pk msg sig = Ok true) /\
  (forall fuel,
     (forall r c, (r < p_k P)%nat -> (c < p_l P)%nat -> (512 <= length (accepted49 (matrix_stream (hash_of O) (pk_seed pk) r c) fuel))%nat) ->
     (p_omega P <= length (distinct (map (chal_pos (challenge_stream (hash_of O) (p_omega P) (firstn (Z.to_nat (2 * p_kappa P / 8)) sig))) (seq 0 fuel))))%nat ->
     ~ overrun_signature (p_k P * 512) (p_l P * 512) (bits_of_bytes (skipn (Z.to_nat (2 * p_kappa P / 8)) sig)) ->
     exists b, verify O fuel P pk msg sig = Ok b).
Proof.
  intros O P pk msg sig HP V B L valid.
  split; [|split; [|split]].
  - intros fuel E. pose proof (verify_spec O fuel P pk msg sig HP V B L) as S. rewrite E in S. apply S. reflexivity.
  - intros fuel E W. pose proof (verify_spec O fuel P pk msg sig HP V B L) as S. rewrite E in S. apply S in W. discriminate W.
  - apply verify_complete; assumption.
  - intros fuel H1 H2 H3. pose proof (verify_finishes O fuel P pk msg sig HP V B L H1 H2) as N1. pose proof (verify_no_ub O fuel P pk msg sig HP V B L H3) as N2.
    destruct (verify O fuel P pk msg sig) as [b| |]; [exists b; reflexivity|congruence|congruence].
Qed.
Print Assumptions C03_verify_exact.
(* signatures of the key of C01 are valid, so the right-hand side is inhabited *)
Example C03_nonvacuous : exists sig, Forall is_byte sig /\ zlen sig = 11524 /\
  valid_signature (hash_of ex_G) (row_of (raccoon128_params 2)) (pk_seed (sk_pkey ex_sk)) (pk_t (sk_pkey ex_sk)) [1; 2; 3] sig /\
  ~ valid_signature (hash_of ex_G) (row_of (raccoon128_params 2)) (pk_seed (sk_pkey ex_sk)) (pk_t (sk_pkey ex_sk)) [1; 2; 3] (repeat 255 (Z.to_nat 11524)).
Proof.
  assert (LB : zlen (repeat 171 (Z.to_nat 11524)) = 11524) by (unfold zlen; rewrite repeat_length; apply Z2Nat.id; lia).
  destruct (ex_sk_signs [1; 2; 3] (repeat 171 (Z.to_nat 11524)) ex_tape LB) as (sig & E).
  destruct (sign_verifies ex_G 512 (raccoon128_params 2) ex_sk [1; 2; 3] _ ex_tape sig ltac:(vm_compute; reflexivity) ex_sk_public (masked_49 _ _ _ ex_sk_masked) LB E) as (H1 & H2 & H3 & _).
  exists sig. split; [exact H2|]. split; [exact H1|]. split; [exact H3|]. apply ones_not_valid. vm_compute. reflexivity.
Qed.

(* C04 is false: for every hash function, key and message, verifying the following 11524 bytes shifts by
   64 (serialization.hpp:459-466): the sign bit of a hint lies behind the eight-byte window. *)
Theorem C04_verify_defined_refuted :
  Forall is_byte cut_sig128 /\ zlen cut_sig128 = p_siglen (raccoon128_params 1) /\
  forall O fuel pk msg, verify O fuel (raccoon128_params 1) pk msg cut_sig128 = UB.
Proof. destruct cut_sig128_ok as [H1 H2]. split; [exact H1|]. split; [exact H2|]. exact verify_ub_128. Qed.
Print Assumptions C04_verify_defined_refuted.
(* C04, what holds: verification of bytes in which no code word overruns the decoder's window
   (overrun_signature of SpecSig.v) has no undefined behaviour. *)
Theorem C04_verify_defined_partial : forall O fuel P pk msg sig, params_ok P = true ->
  valid_public (Z.to_nat (p_kappa P / 8)) (p_k P) (pk_seed pk) (pk_t pk) -> Forall is_byte sig -> zlen sig = p_siglen P ->
  ~ overrun_signature (p_k P * 512) (p_l P * 512) (bits_of_bytes (skipn (Z.to_nat (2 * p_kappa P / 8)) sig)) ->
  verify O fuel P pk msg sig <> UB.
Proof. exact verify_no_ub. Qed.
Print Assumptions C04_verify_defined_partial.
(* C53: whether verification is undefined is decided by the signature bytes alone, not by the hash
   function, the waiting bound, the key or the message; and it is undefined exactly when, reading the
   words of the code in order, the decoder meets one that overruns its window before it meets one that
   does not parse (overrun_signature of SpecSig.v, stated on the bits of the signature). *)
Theorem C53_verify_undefined_exactly : forall O fuel P pk msg sig, params_ok P = true ->
  valid_public (Z.to_nat (p_kappa P / 8)) (p_k P) (pk_seed pk) (pk_t pk) -> Forall is_byte sig -> zlen sig = p_siglen P ->
  (verify O fuel P pk msg sig = UB <->
   overrun_signature (p_k P * 512) (p_l P * 512) (bits_of_bytes (skipn (Z.to_nat (2 * p_kappa P / 8)) sig))).
Proof. exact verify_ub_exact. Qed.
Print Assumptions C53_verify_undefined_exactly.
(* one signature that overruns, one that does not; and the corner case of the definition: 62 ones and a
   stop bit at the very end of the bytes are reported as an error after a zero hint, and are undefined
   after a nonzero hint *)
Example C53_nonvacuous :
  overrun_signature (5 * 512) (4 * 512) (bits_of_bytes (skipn 32 cut_sig128)) /\
  (exists sig, Forall is_byte sig /\ zlen sig = 11524 /\ ~ overrun_signature (5 * 512) (4 * 512) (bits_of_bytes (skipn 32 sig))) /\
  decode_sig 0 3 2 [254; 255; 255; 255; 255; 255; 255; 127] = Ok None /\
  decode_sig 0 3 2 [127; 254; 255; 255; 255; 255; 255; 255; 127] = UB /\
  decode_sig 0 3 2 [255; 255; 255; 255; 255; 255; 255; 127; 1] = UB.
Proof.
  destruct cut_sig128_ok as [B1 L1]. split; [|split; [|split; [|split]]].
  - apply (verify_ub_exact ex_G 512 (raccoon128_params 1) (sk_pkey ex_sk) [] cut_sig128 ltac:(vm_compute; reflexivity) ex_sk_public B1 L1). apply verify_ub_128.
  - destruct C03_nonvacuous as (sig & B & L & V & _). exists sig. split; [exact B|]. split; [exact L|]. intros U.
    destruct (C03_verify_exact ex_G (raccoon128_params 2) (sk_pkey ex_sk) [1; 2; 3] sig ltac:(vm_compute; reflexivity) ex_sk_public B L) as (_ & _ & H & _).
    destruct (H V) as (f0 & H0). specialize (H0 f0 (le_n f0)).
    rewrite (proj2 (verify_ub_exact ex_G f0 (raccoon128_params 2) (sk_pkey ex_sk) [1; 2; 3] sig ltac:(vm_compute; reflexivity) ex_sk_public B L) U) in H0. discriminate H0.
  - vm_compute. reflexivity.
  - vm_compute. reflexivity.
  - vm_compute. reflexivity.
Qed.

(* C27: key generation has no undefined behaviour; the public key holds the given seed and
   t = round(A s + e) >> nu_t, where A is the public matrix of the seed, s is the sum of the shares
   stored in the secret key (which stores its transform) and s, e are noise read from the tape, with
   coefficients of absolute value at most rep * d * 2^(u_t - 1). *)
Theorem C27_generated_keys : forall O fuel P seed tp, params_ok P = true ->
  Forall is_byte seed -> length seed = Z.to_nat (p_kappa P / 8) ->
  sk_generate O fuel P seed tp <> UB /\
  forall sk, sk_generate O fuel P seed tp = Ok sk ->
    pk_seed (sk_pkey sk) = seed /\
    valid_public (Z.to_nat (p_kappa P / 8)) (p_k P) seed (pk_t (sk_pkey sk)) /\
    masked_vec (p_l P) (p_d P) (sk_s sk) /\
    exists A s e, public_matrix (hash_of O) seed (p_k P) (p_l P) A /\
      s = noise (hash_of O) (tape_of tp) (row_of P) (p_ut P) (p_l P) 0 /\
      e = noise (hash_of O) (tape_of tp) (row_of P) (p_ut P) (p_k P) (p_l P * row_bytes (row_of P)) /\
      map unmask (sk_s sk) = map transform s /\
      rows1 (pk_t (sk_pkey sk)) = map (round_poly (p_nut P)) (zipw ring_add (ring_matvec A s) e) /\
      Forall (bounded_by (Z.of_nat (p_rep P) * Z.of_nat (p_d P) * 2 ^ (p_ut P - 1))) s /\
      Forall (bounded_by (Z.of_nat (p_rep P) * Z.of_nat (p_d P) * 2 ^ (p_ut P - 1))) e.
Proof.
  intros O fuel P seed tp HP HB HL. pose proof (generate_spec O fuel P seed tp HP HB HL) as G.
  destruct (sk_generate O fuel P seed tp) as [sk| |]; cbn [wp] in G; [|destruct G|split; [discriminate|intros sk E; discriminate E]].
  split; [discriminate|]. intros sk' E. injection E as <-. destruct G as (G1 & G2 & G3 & A & G4 & G5 & G6 & G7 & G8).
  split; [exact G1|]. rewrite G1 in G2. split; [exact G2|]. split; [exact G3|]. exists A. eexists. eexists. split; [exact G4|]. split; [reflexivity|]. split; [reflexivity|].
  split; [exact G5|]. split; [exact G6|]. split; [exact G7|exact G8].
Qed.
Print Assumptions C27_generated_keys.
Example C27_nonvacuous : exists sk, sk_generate ex_G 512 (raccoon256_params 8) (repeat 77 32) ex_tape = Ok sk.
Proof.
  destruct (exG_generate (raccoon256_params 8) (repeat 77 32) ex_tape 512) as (sk & E & _); [vm_compute; reflexivity|apply Forall_repeat; split; [discriminate|reflexivity]|reflexivity|apply le_n|].
  exists sk. exact E.
Qed.

(* C28: bytes returned by sign are the encoding of (c, h, z) of the first acceptable attempt
   (sign_attempt and acceptable of SpecVerify.v: c is the hash of round(A r + e), z = s c + r,
   h = w - round(A z - 2^nu_t t c), and the norm bounds hold), where s is the sum of the shares of
   the secret key; the noise r, e of every attempt is bounded by rep * d * 2^(u_w - 1). *)
Theorem C28_signing_equations : forall O fuel P sk msg buf tp sig, params_ok P = true ->
  valid_public (Z.to_nat (p_kappa P / 8)) (p_k P) (pk_seed (sk_pkey sk)) (pk_t (sk_pkey sk)) ->
  masked_vec49 (p_l P) (p_d P) (sk_s sk) -> zlen buf = p_siglen P -> sk_sign O fuel P sk msg buf tp = Ok sig ->
  (exists A pkb s,
     public_matrix (hash_of O) (pk_seed (sk_pkey sk)) (p_k P) (p_l P) A /\
     public_key_code (pk_seed (sk_pkey sk)) (pk_t (sk_pkey sk)) pkb /\
     Forall is_poly s /\ map transform s = map unmask (sk_s sk) /\
     let att := sign_attempt (hash_of O) (tape_of tp) (row_of P) A (rows1 (pk_t (sk_pkey sk))) s
                  (bound_message (hash_of O) (Z.to_nat (2 * p_kappa P / 8)) pkb msg) in
     exists n c cp h z, att n c cp h z /\ acceptable (row_of P) c h z /\ signature_code c h z sig /\
       length c = Z.to_nat (2 * p_kappa P / 8) /\ length h = (p_k P * 512)%nat /\ length z = (p_l P * 512)%nat /\
       forall i, (i < n)%nat -> exists c cp h z, att i c cp h z /\ ~ acceptable (row_of P) c h z) /\
  forall rows pos, Forall (bounded_by (Z.of_nat (p_rep P) * Z.of_nat (p_d P) * 2 ^ (p_uw P - 1)))
    (noise (hash_of O) (tape_of tp) (row_of P) (p_uw P) rows pos).
Proof.
  intros O fuel P sk msg buf tp sig HP V Hs Lb E. split; [exact (sign_equations O fuel P sk msg buf tp sig HP V Hs Lb E)|].
  intros rows pos. apply noise_bounded. destruct (params_facts P HP) as (kb & e & F). pose proof (pf_uw _ _ _ F). lia.
Qed.
Print Assumptions C28_signing_equations.
(* hypotheses: C01_nonvacuous *)

(* C32: the challenge hash of a commitment of k rows of bytes and a digest is the hash of header,
   coefficients and digest, whatever the internal buffering; this hash input determines both. *)
Theorem C32_challenge_binding :
  (forall O kappa k w mu, (k < 256)%nat -> length w = k -> Forall (fun p => length p = 512%nat /\ Forall is_byte p) w ->
     chal_hash O kappa k (map (fun p => [p]) w) mu = digest (hash_of O) (Z.to_nat (2 * kappa / 8)) (challenge_input w mu)) /\
  (forall w w' mu mu', Forall (fun p => length p = 512%nat) w -> Forall (fun p => length p = 512%nat) w' ->
     challenge_input w mu = challenge_input w' mu' -> w = w' /\ mu = mu').
Proof. exact (conj chal_hash_input challenge_input_inj). Qed.
Print Assumptions C32_challenge_binding.
Example C32_nonvacuous : let w := repeat (repeat 30 512) 5 in
  length w = 5%nat /\ Forall (fun p => length p = 512%nat /\ Forall is_byte p) w /\
  challenge_input w [1] <> challenge_input w [2].
Proof.
  intros w. assert (F : Forall (fun p => length p = 512%nat /\ Forall is_byte p) w).
  { apply Forall_repeat. split; [apply repeat_length|]. apply Forall_repeat. split; [discriminate|reflexivity]. }
  split; [reflexivity|]. split; [exact F|]. intros E. apply challenge_input_inj in E; [destruct E as [_ E]; discriminate E|..];
    refine (Forall_impl _ _ F); intros p H; apply H.
Qed.

(* C33: if one signature verifies for two different pairs of public key and message, then the hash
   collides on one of three explicit pairs of different inputs: the encoded keys, the bound messages or
   the challenge inputs. *)
Theorem C33_no_reuse : forall O fuel fuel' P pk pk' msg msg' sig, params_ok P = true ->
  valid_public (Z.to_nat (p_kappa P / 8)) (p_k P) (pk_seed pk) (pk_t pk) -> valid_public (Z.to_nat (p_kappa P / 8)) (p_k P) (pk_seed pk') (pk_t pk') ->
  Forall is_byte sig -> zlen sig = p_siglen P ->
  verify O fuel P pk msg sig = Ok true -> verify O fuel' P pk' msg' sig = Ok true -> (pk, msg) <> (pk', msg') ->
  let n := Z.to_nat (2 * p_kappa P / 8) in
  exists b b', public_key_code (pk_seed pk) (pk_t pk) b /\ public_key_code (pk_seed pk') (pk_t pk') b' /\
    let m := digest (hash_of O) n b ++ msg in let m' := digest (hash_of O) n b' ++ msg' in
    (b <> b' /\ digest (hash_of O) n b = digest (hash_of O) n b') \/
    (m <> m' /\ digest (hash_of O) n m = digest (hash_of O) n m') \/
    (exists w w', claimed_commitment (hash_of O) (row_of P) (pk_seed pk) (pk_t pk) sig w /\
       claimed_commitment (hash_of O) (row_of P) (pk_seed pk') (pk_t pk') sig w' /\
       let i := challenge_input w (digest (hash_of O) n m) in let i' := challenge_input w' (digest (hash_of O) n m') in
       i <> i' /\ digest (hash_of O) n i = digest (hash_of O) n i').
Proof. exact two_uses. Qed.
Print Assumptions C33_no_reuse.
(* the commitments w, w' of the last case are determined by key and signature *)
Theorem C33_commitment_unique : forall H r seed t sig w w',
  claimed_commitment H r seed t sig w -> claimed_commitment H r seed t sig w' -> w = w'.
Proof. exact claimed_commitment_fun. Qed.
Print Assumptions C33_commitment_unique.
(* with the (bad) example hash one signature verifies for two messages *)
Example C33_nonvacuous : exists sig fuel', Forall is_byte sig /\ zlen sig = 11524 /\
  verify ex_G 512 (raccoon128_params 2) (sk_pkey ex_sk) [1; 2; 3] sig = Ok true /\
  verify ex_G fuel' (raccoon128_params 2) (sk_pkey ex_sk) [4; 5; 6] sig = Ok true /\
  (sk_pkey ex_sk, [1; 2; 3]) <> (sk_pkey ex_sk, [4; 5; 6]).
Proof.
  assert (LB : zlen (repeat 171 (Z.to_nat 11524)) = 11524) by (unfold zlen; rewrite repeat_length; apply Z2Nat.id; lia).
  destruct (ex_sk_signs [1; 2; 3] (repeat 171 (Z.to_nat 11524)) ex_tape LB) as (sig & E).
  assert (HP : params_ok (raccoon128_params 2) = true) by (vm_compute; reflexivity).
  destruct (sign_verifies ex_G 512 (raccoon128_params 2) ex_sk [1; 2; 3] _ ex_tape sig HP ex_sk_public (masked_49 _ _ _ ex_sk_masked) LB E) as (H1 & H2 & H3 & H4).
  assert (V : valid_signature (hash_of ex_G) (row_of (raccoon128_params 2)) (pk_seed (sk_pkey ex_sk)) (pk_t (sk_pkey ex_sk)) [4; 5; 6] sig).
  { destruct H3 as (c & h & z & A & cp & b & D1 & D2 & D3 & D4 & D5 & D6 & D7 & D8 & D9 & D10).
    exists c, h, z, A, cp, b. repeat (split; [assumption|]). rewrite <- exG_digest_same. exact D10. }
  destruct (verify_complete ex_G (raccoon128_params 2) (sk_pkey ex_sk) [4; 5; 6] sig HP ex_sk_public H2 H1 V) as (f & F).
  exists sig, f. split; [exact H2|]. split; [exact H1|]. split; [exact H4|]. split; [apply F, le_n|]. intros X. apply (f_equal snd) in X. discriminate X.
Qed.

(* C40: (1) results do not depend on how long one waits; (2) each rejection sampler stops exactly when
   its stream has delivered enough acceptable values; (3) verification and key generation finish if
   their streams contain enough acceptable values; (4) signing then stops at the first acceptable
   attempt. *)
Theorem C40_termination :
  (forall O f f', (f <= f')%nat ->
    (forall hdr sigma r, sampleQ O f hdr sigma = Ok r -> sampleQ O f' hdr sigma = Ok r) /\
    (forall omega c r, chal_poly O f omega c = Ok r -> chal_poly O f' omega c = Ok r) /\
    (forall d idx m r, sample_polynomial O f d idx m = Ok r -> sample_polynomial O f' d idx m = Ok r) /\
    (forall P seed tp r, sk_generate O f P seed tp = r -> r <> OutOfFuel -> sk_generate O f' P seed tp = r) /\
    (forall P sk msg buf tp r, sk_sign O f P sk msg buf tp = r -> r <> OutOfFuel -> sk_sign O f' P sk msg buf tp = r) /\
    (forall P pk msg sig r, verify O f P pk msg sig = r -> r <> OutOfFuel -> verify O f' P pk msg sig = r) /\
    (forall P st ops r, api_run O f P st ops = r -> r <> OutOfFuel -> api_run O f' P st ops = r)) /\
  (forall O fuel,
    (forall hdr seed, sampleQ O fuel hdr seed = OutOfFuel <-> (length (accepted49 (hash_of O (hdr ++ seed)) fuel) < 512)%nat) /\
    (forall omega c, (omega < 256)%nat -> (chal_poly O fuel omega c = OutOfFuel <->
       (length (distinct (map (chal_pos (challenge_stream (hash_of O) omega c)) (seq 0 fuel))) < omega)%nat)) /\
    (forall d idx m, (idx < d - 1)%nat -> length m = (d - 1)%nat -> (sample_polynomial O fuel d idx m = OutOfFuel <->
       (length (filter (fun x => (x <? q)%Z) (map (fun t => (a0 (Nat.iter t (ascon_permute O 6) (nth idx m ascon_zero)) mod 2 ^ 49)%Z) (seq 0 fuel))) < 512)%nat))) /\
  (forall O fuel P pk msg sig, params_ok P = true ->
    valid_public (Z.to_nat (p_kappa P / 8)) (p_k P) (pk_seed pk) (pk_t pk) -> Forall is_byte sig -> zlen sig = p_siglen P ->
    (forall r c, (r < p_k P)%nat -> (c < p_l P)%nat -> (512 <= length (accepted49 (matrix_stream (hash_of O) (pk_seed pk) r c) fuel))%nat) ->
    (p_omega P <= length (distinct (map (chal_pos (challenge_stream (hash_of O) (p_omega P) (firstn (Z.to_nat (2 * p_kappa P / 8)) sig))) (seq 0 fuel))))%nat ->
    verify O fuel P pk msg sig <> OutOfFuel) /\
  (forall O fuel P seed tp, params_ok P = true ->
    (forall r c, (r < p_k P)%nat -> (c < p_l P)%nat -> (512 <= length (accepted49 (matrix_stream (hash_of O) seed r c) fuel))%nat) ->
    ((2 <= p_d P)%nat -> window_accepts (fun t => a0 (Nat.iter t (ascon_permute O 6) ascon_zero) mod 2 ^ 49) fuel) ->
    sk_generate O fuel P seed tp <> OutOfFuel) /\
  (forall O fuel P sk msg buf tp A pkb s n, params_ok P = true ->
    valid_public (Z.to_nat (p_kappa P / 8)) (p_k P) (pk_seed (sk_pkey sk)) (pk_t (sk_pkey sk)) ->
    masked_vec49 (p_l P) (p_d P) (sk_s sk) -> zlen buf = p_siglen P ->
    (forall r c, (r < p_k P)%nat -> (c < p_l P)%nat -> (512 <= length (accepted49 (matrix_stream (hash_of O) (pk_seed (sk_pkey sk)) r c) fuel))%nat) ->
    ((2 <= p_d P)%nat -> window_accepts (fun t => a0 (Nat.iter t (ascon_permute O 6) ascon_zero) mod 2 ^ 49) fuel) ->
    public_matrix (hash_of O) (pk_seed (sk_pkey sk)) (p_k P) (p_l P) A ->
    public_key_code (pk_seed (sk_pkey sk)) (pk_t (sk_pkey sk)) pkb ->
    Forall is_poly s -> map transform s = map unmask (sk_s sk) ->
    let att := sign_attempt (hash_of O) (tape_of tp) (row_of P) A (rows1 (pk_t (sk_pkey sk))) s
                 (bound_message (hash_of O) (Z.to_nat (2 * p_kappa P / 8)) pkb msg) in
    (forall i, (i <= n)%nat -> exists c cp h z, att i c cp h z /\ (p_omega P <= length (distinct (map (chal_pos (challenge_stream (hash_of O) (p_omega P) c)) (seq 0 fuel))))%nat) ->
    (exists c cp h z, att n c cp h z /\ acceptable (row_of P) c h z) ->
    (forall i c cp h z, (i < n)%nat -> att i c cp h z -> buffer_fits h z) -> (n < fuel)%nat ->
    exists sig i c cp h z, sk_sign O fuel P sk msg buf tp = Ok sig /\ (i <= n)%nat /\ att i c cp h z /\ acceptable (row_of P) c h z /\
      signature_code c h z sig /\
      forall j c cp h z, (j < i)%nat -> att j c cp h z -> ~ acceptable (row_of P) c h z).
Proof. exact (conj fuel_irrelevant (conj samplers_stop (conj verify_finishes (conj generate_finishes sign_finishes)))). Qed.
Print Assumptions C40_termination.
(* the streams of the example contain enough acceptable values, and attempt 0 of the key of C01 is acceptable *)
Example C40_nonvacuous :
  (forall m, (512 <= length (accepted49 (hash_of ex_G m) 512))%nat) /\
  window_accepts (fun t => a0 (Nat.iter t (ascon_permute ex_G 6) ascon_zero) mod 2 ^ 49) 512 /\
  (forall c, (19 <= length (distinct (map (chal_pos (challenge_stream (hash_of ex_G) 19 c)) (seq 0 512))))%nat) /\
  (forall mu, exists c cp h z, sign_attempt (hash_of ex_G) (tape_of ex_tape) (row_of (raccoon128_params 2)) (repeat (repeat ring_zero 4) 5) (repeat ring_zero 5) ex_secret mu 0 c cp h z /\
    acceptable (row_of (raccoon128_params 2)) c h z).
Proof.
  split; [exact (exG_good_hash 512 (le_n _))|]. split; [exact (exG_good_mask 512 2 (le_n _) (le_n _))|]. split; [apply (exG_good_chal 512 19); lia|].
  intros mu. apply (exG_attempt (raccoon128_params 2) ex_secret ex_tape mu); [vm_compute; reflexivity|reflexivity|exact ex_secret_small|vm_compute; discriminate].
Qed.

(* C45: signing has undefined behaviour only if some attempt, all earlier ones being rejected, has a
   response coefficient of absolute value at least 15 * 2^40, or a last response coefficient of at least
   2^43 (then the 64-bit buffer of the encoder overflows).  If the secret is bounded by Bs (generated
   keys: C27), responses are bounded by omega * Bs + rep * d * 2^(u_w - 1). *)
Theorem C45_signing_undefined_only_if_large : forall O fuel P sk msg buf tp, params_ok P = true ->
  valid_public (Z.to_nat (p_kappa P / 8)) (p_k P) (pk_seed (sk_pkey sk)) (pk_t (sk_pkey sk)) ->
  masked_vec49 (p_l P) (p_d P) (sk_s sk) -> zlen buf = p_siglen P -> sk_sign O fuel P sk msg buf tp = UB ->
  exists A pkb s,
    public_matrix (hash_of O) (pk_seed (sk_pkey sk)) (p_k P) (p_l P) A /\
    public_key_code (pk_seed (sk_pkey sk)) (pk_t (sk_pkey sk)) pkb /\
    Forall is_poly s /\ map transform s = map unmask (sk_s sk) /\
    let att := sign_attempt (hash_of O) (tape_of tp) (row_of P) A (rows1 (pk_t (sk_pkey sk))) s
                 (bound_message (hash_of O) (Z.to_nat (2 * p_kappa P / 8)) pkb msg) in
    exists n c cp h z, att n c cp h z /\ length z = (p_l P * 512)%nat /\
      (Exists (fun x => 15 * 2 ^ 40 <= Z.abs x) z \/ 2 ^ 43 <= Z.abs (last z 0)) /\
      (forall Bs, 0 <= Bs -> Forall (bounded_by Bs) s ->
         Forall (fun x => Z.abs x <= Z.of_nat (p_omega P) * Bs + Z.of_nat (p_rep P) * Z.of_nat (p_d P) * 2 ^ (p_uw P - 1)) z) /\
      forall i, (i < n)%nat -> exists c cp h z, att i c cp h z /\ ~ acceptable (row_of P) c h z.
Proof. exact sign_undefined. Qed.
Print Assumptions C45_signing_undefined_only_if_large.
(* a generated key and a call that meet the hypotheses, undefined in the first attempt *)
Example C45_nonvacuous : exists sk, sk_generate ex_U 512 (raccoon128_params 2) (repeat 77 16) ex_tape = Ok sk /\
  valid_public 16 5 (pk_seed (sk_pkey sk)) (pk_t (sk_pkey sk)) /\ masked_vec49 4 2 (sk_s sk) /\
  sk_sign ex_U 512 (raccoon128_params 2) sk [1; 2; 3] (repeat 171 (Z.to_nat 11524)) ex_tape = UB.
Proof.
  assert (L : zlen (repeat 171 (Z.to_nat 11524)) = 11524) by (unfold zlen; rewrite repeat_length; lia).
  assert (B : Forall is_byte (repeat 77 16)) by (apply Forall_repeat; split; [discriminate|reflexivity]).
  destruct (exU_generate (raccoon128_params 2) (repeat 77 16) ex_tape 512) as (sk & E & E1 & E2 & E3 & _); [vm_compute; reflexivity|exact B|reflexivity|apply le_n|].
  exists sk. split; [exact E|]. split; [|split].
  - rewrite E1, E2. cbn [raccoon128_params p_k]. apply const_public; [lia|split; [discriminate|reflexivity]|reflexivity].
  - apply masked_49. exact E3.
  - apply (exU_overruns (raccoon128_params 2) sk (repeat 77 16) [1; 2; 3] _ ex_tape ex_tape 512); try reflexivity; try assumption; vm_compute; reflexivity.
Qed.
