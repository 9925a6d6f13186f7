(* Property theorems: what a client sees does not depend on the masking. *)
From Coq Require Import ZArith List Bool Lia.
From Verif Require Import ModelBase ModelField ModelUtils ModelPoly ModelVec ModelSerial ModelScheme ModelApi.
From Verif Require Import Spec SpecScheme SpecSig SpecVerify SpecApi SpecHash.
From Verif Require Import PolyLemmas MaskedLemmas ParamProofs KeyLemmas SchemeCore VerifyProofs FinProofs TermProofs SignExact ExOracle ExGood KeyExamples ExSign MaskIndep FuelProofs HashQueries HashExact.
Import ListNotations.
Open Scope Z_scope.

(* C57: two clients use libraries with the same SHAKE256 (but possibly another Ascon permutation and
   another waiting bound).  Their keys have the same public key and share the same secret, possibly with
   different shares.  They make the same calls of sign (message, random tape) and verify (message,
   signature), with different destination buffers and with any refreshes, serializations, reloads (with
   their own random tapes) and calls of get_pkey in between.  If both histories finish, then either both
   run into undefined behaviour, or they produced the same signatures and the same verdicts, and still
   hold the same public key and the same secret. *)
Theorem C57_masking_irrelevant : forall O O' fuel fuel' P st0 st0' ops ops', params_ok P = true -> shake256 O = shake256 O' ->
  api_start O fuel P st0 -> api_start O' fuel' P st0' ->
  a_pk st0 = a_pk st0' -> map unmask (sk_s (a_sk st0)) = map unmask (sk_s (a_sk st0')) ->
  Forall (op_ok P) ops -> Forall (op_ok P) ops' -> concat (map visible ops) = concat (map visible ops') ->
  api_run O fuel P st0 ops <> OutOfFuel -> api_run O' fuel' P st0' ops' <> OutOfFuel ->
  (api_run O fuel P st0 ops = UB /\ api_run O' fuel' P st0' ops' = UB) \/
  (exists st st', api_run O fuel P st0 ops = Ok st /\ api_run O' fuel' P st0' ops' = Ok st' /\
     a_signed st = a_signed st' /\ a_verified st = a_verified st' /\
     a_pk st = a_pk st' /\ sk_pkey (a_sk st) = sk_pkey (a_sk st') /\ map unmask (sk_s (a_sk st)) = map unmask (sk_s (a_sk st'))).
Proof.
  intros O O' fuel fuel' P st0 st0' ops ops' HP EH S S' Ep Eu F F' Ev N N'.
  destruct (histories_indep O O' fuel fuel' P st0 st0' ops ops' HP EH S S' Ep Eu F F' Ev N N') as [X|(st & st' & E & E' & X1 & X2 & X3 & X4 & X5)]; [left; exact X|].
  right. exists st, st'. split; [exact E|]. split; [exact E'|]. split; [exact X4|]. split; [exact X5|]. split; [exact X1|]. split; [exact X2|exact X3].
Qed.
Print Assumptions C57_masking_irrelevant.
(* one signing call: any two sharings of the same secret *)
Theorem C57_signing_masks_irrelevant : forall O O' fuel fuel' P sk sk' msg buf buf' tp, params_ok P = true -> shake256 O = shake256 O' ->
  valid_public (Z.to_nat (p_kappa P / 8)) (p_k P) (pk_seed (sk_pkey sk)) (pk_t (sk_pkey sk)) ->
  masked_vec49 (p_l P) (p_d P) (sk_s sk) -> masked_vec49 (p_l P) (p_d P) (sk_s sk') ->
  sk_pkey sk = sk_pkey sk' -> map unmask (sk_s sk) = map unmask (sk_s sk') ->
  zlen buf = p_siglen P -> zlen buf' = p_siglen P ->
  sk_sign O fuel P sk msg buf tp <> OutOfFuel -> sk_sign O' fuel' P sk' msg buf' tp <> OutOfFuel ->
  sk_sign O fuel P sk msg buf tp = sk_sign O' fuel' P sk' msg buf' tp.
Proof. exact sign_masks_irrelevant. Qed.
Print Assumptions C57_signing_masks_irrelevant.
(* the same seed and random tape give the same public key and the same secret *)
Theorem C57_generation_masks_irrelevant : forall O O' fuel fuel' P seed tp sk sk', params_ok P = true -> shake256 O = shake256 O' ->
  Forall is_byte seed -> length seed = Z.to_nat (p_kappa P / 8) ->
  sk_generate O fuel P seed tp = Ok sk -> sk_generate O' fuel' P seed tp = Ok sk' ->
  sk_pkey sk = sk_pkey sk' /\ map unmask (sk_s sk) = map unmask (sk_s sk').
Proof. exact generate_masks_irrelevant. Qed.
Print Assumptions C57_generation_masks_irrelevant.
(* Raccoon-192 with four shares: two histories with different maintenance calls, different destination
   buffers and different serialization tapes, which sign the same two messages *)
Example C57_nonvacuous : forall tp1 tp2 tp3 tp4 tp5 : nat -> Byte.byte, let P := raccoon192_params 4 in
  let buf b n := repeat b (Z.to_nat n) in
  let ops := [op_sign [1; 2; 3] (buf 9 14544) tp1; op_refresh; op_sk_reload (buf 9 (sk_byte_len P)) tp2; op_refresh; op_sign [] (buf 9 14544) tp4] in
  let ops' := [op_sk_reload (buf 7 (sk_byte_len P)) tp3; op_sign [1; 2; 3] (buf 7 14544) tp1; op_get_pkey; op_sign [] (buf 8 14544) tp4; op_refresh] in
  Forall (op_ok P) ops /\ Forall (op_ok P) ops' /\ concat (map visible ops) = concat (map visible ops') /\
  exists st0 st st', api_start ex_G 512 P st0 /\ api_run ex_G 512 P st0 ops = Ok st /\ api_run ex_G 512 P st0 ops' = Ok st' /\ length (a_signed st) = 2%nat.
Proof.
  intros tp1 tp2 tp3 tp4 tp5 P buf ops ops'.
  assert (L : forall b n, 0 <= n -> zlen (buf b n) = n) by (intros b n Hn; unfold buf, zlen; rewrite repeat_length; apply Z2Nat.id; exact Hn).
  assert (HP : params_ok P = true) by (vm_compute; reflexivity).
  assert (LS : 0 <= sk_byte_len P) by (vm_compute; discriminate).
  assert (Hops : Forall (op_ok P) ops).
  { unfold ops. constructor; [apply L; discriminate|]. constructor; [exact Logic.I|]. constructor; [apply L, LS|]. constructor; [exact Logic.I|].
    constructor; [apply L; discriminate|]. constructor. }
  assert (Hops' : Forall (op_ok P) ops').
  { unfold ops'. constructor; [apply L, LS|]. constructor; [apply L; discriminate|]. constructor; [exact Logic.I|]. 
    constructor; [apply L; discriminate|]. constructor; [exact Logic.I|]. constructor. }
  split; [exact Hops|]. split; [exact Hops'|]. split; [reflexivity|].
  assert (B : Forall is_byte (repeat 77 24)) by (apply Forall_repeat; split; [discriminate|reflexivity]).
  destruct (exG_history P (repeat 77 24) tp5 ops HP ltac:(vm_compute; discriminate) B eq_refl Hops eq_refl) as (st0 & st & E0 & E).
  destruct (exG_history P (repeat 77 24) tp5 ops' HP ltac:(vm_compute; discriminate) B eq_refl Hops' eq_refl) as (st0' & st' & E0' & E').
  rewrite E0 in E0'. injection E0' as <-.
  assert (ST : api_start ex_G 512 P st0) by (left; exists (repeat 77 24), tp5; split; [exact B|split; [reflexivity|exact E0]]).
  exists st0, st, st'. split; [exact ST|]. split; [exact E|]. split; [exact E'|].
  destruct (HistoryProofs.api_history ex_G 512 P st0 ops HP ST Hops) as [H _]. destruct (H st E) as (_ & _ & _ & X & _).
  apply (f_equal (@length _)) in X. rewrite map_length in X. exact X.
Qed.

(* C58: the hash inputs used for matrix entries, noise polynomials, challenge polynomials, commitments
   and serialized shares are distinct for distinct purposes and distinct indices, rows, seeds or data. *)
Theorem C58_distinct_inputs : forall a b, query_input a = query_input b -> a = b.
Proof. exact query_inj. Qed.
Print Assumptions C58_distinct_inputs.
(* C58: verification depends on the hash function only through the public key bytes, the digest of the
   public key followed by the message, the matrix entries of the seed, the challenge polynomial of the
   signature's first bytes and commitments with the row number of the parameter set: hash functions that
   agree there give the same outcome for every byte string, and the same waiting. *)
Theorem C58_verify_inputs : forall O O' P pk pkb msg sig, params_ok P = true ->
  valid_public (Z.to_nat (p_kappa P / 8)) (p_k P) (pk_seed pk) (pk_t pk) ->
  public_key_code (pk_seed pk) (pk_t pk) pkb ->
  (forall m, verify_input (hash_of O) (row_of P) (pk_seed pk) pkb msg sig m -> forall i, shake256 O m i = shake256 O' m i) ->
  (forall fuel, verify O fuel P pk msg sig = verify O' fuel P pk msg sig) /\
  (forall fuel fuel', verify O fuel P pk msg sig <> OutOfFuel -> verify O' fuel' P pk msg sig <> OutOfFuel ->
     verify O fuel P pk msg sig = verify O' fuel' P pk msg sig).
Proof.
  intros O O' P pk pkb msg sig HP V CP AG. pose proof (fun f => verify_same O O' f P pk pkb msg sig HP V CP AG) as S. split; [exact S|].
  intros f f' N N'. destruct (fuel_irrelevant O f (Nat.max f f') (Nat.le_max_l _ _)) as (_ & _ & _ & _ & _ & M & _).
  destruct (fuel_irrelevant O' f' (Nat.max f f') (Nat.le_max_r _ _)) as (_ & _ & _ & _ & _ & M' & _).
  rewrite <- (M _ _ _ _ _ eq_refl N), <- (M' _ _ _ _ _ eq_refl N'). apply S.
Qed.
Print Assumptions C58_verify_inputs.
(* C58 for signing and C59: a returned signature is that of some attempt n, and every run with a hash
   function that agrees on the inputs named by sign_input, a random stream that agrees on the first
   (n + 1) (l + k) rep d kappa / 8 bytes, any other mask generator, waiting bound, destination and sharing
   of the same secret returns the same signature. *)
Theorem C58_C59_sign_inputs : forall O fuel P sk msg buf tp sig pkb, params_ok P = true ->
  valid_public (Z.to_nat (p_kappa P / 8)) (p_k P) (pk_seed (sk_pkey sk)) (pk_t (sk_pkey sk)) ->
  masked_vec49 (p_l P) (p_d P) (sk_s sk) -> zlen buf = p_siglen P ->
  public_key_code (pk_seed (sk_pkey sk)) (pk_t (sk_pkey sk)) pkb ->
  sk_sign O fuel P sk msg buf tp = Ok sig ->
  exists n A s c cp h z,
    public_matrix (hash_of O) (pk_seed (sk_pkey sk)) (p_k P) (p_l P) A /\ Forall is_poly s /\ map transform s = map unmask (sk_s sk) /\
    sign_attempt (hash_of O) (tape_of tp) (row_of P) A (rows1 (pk_t (sk_pkey sk))) s (bound_message (hash_of O) (Z.to_nat (2 * p_kappa P / 8)) pkb msg) n c cp h z /\
    signature_code c h z sig /\
    forall O' fuel' sk' buf' tp',
      (forall m, sign_input (hash_of O) (row_of P) (pk_seed (sk_pkey sk)) pkb msg m -> forall i, shake256 O m i = shake256 O' m i) ->
      (forall x, (x < (n + 1) * ((p_l P + p_k P) * row_bytes (row_of P)))%nat -> tp x = tp' x) ->
      masked_vec49 (p_l P) (p_d P) (sk_s sk') -> sk_pkey sk' = sk_pkey sk -> map unmask (sk_s sk') = map unmask (sk_s sk) ->
      zlen buf' = p_siglen P -> sk_sign O' fuel' P sk' msg buf' tp' <> OutOfFuel -> sk_sign O' fuel' P sk' msg buf' tp' = Ok sig.
Proof. exact sign_confined. Qed.
Print Assumptions C58_C59_sign_inputs.
(* C58 for key generation and C59: the public key and the secret depend only on the hash inputs named by
   generate_input and on the first (l + k) rep d kappa / 8 random bytes. *)
Theorem C58_C59_generate_inputs : forall O O' fuel fuel' P seed tp tp' sk sk', params_ok P = true ->
  Forall is_byte seed -> length seed = Z.to_nat (p_kappa P / 8) ->
  (forall m, generate_input (row_of P) seed m -> forall i, shake256 O m i = shake256 O' m i) ->
  (forall x, (x < (p_l P + p_k P) * row_bytes (row_of P))%nat -> tp x = tp' x) ->
  sk_generate O fuel P seed tp = Ok sk -> sk_generate O' fuel' P seed tp' = Ok sk' ->
  sk_pkey sk = sk_pkey sk' /\ map unmask (sk_s sk) = map unmask (sk_s sk').
Proof. exact generate_confined. Qed.
Print Assumptions C58_C59_generate_inputs.
(* C59: the seeds of the noise polynomials of all attempts, both vectors, all rows, repetitions and shares
   are taken from pairwise disjoint windows of the random stream (and the vectors r, e of an attempt of
   C28, and s, e of C27 as attempt 0, are computed from exactly these seeds). *)
Theorem C59_fresh_seeds : forall p n n' v v' r r' i i' j j' x,
  let rows (v : bool) := Z.to_nat (if v then r_k p else r_l p) in
  (r < rows v)%nat -> (r' < rows v')%nat -> (i < Z.to_nat (r_rep p))%nat -> (i' < Z.to_nat (r_rep p))%nat ->
  (j < Z.to_nat (r_d p))%nat -> (j' < Z.to_nat (r_d p))%nat ->
  (n, v, r, i, j) <> (n', v', r', i', j') ->
  (seed_at p n v r i j <= x < seed_at p n v r i j + Z.to_nat (r_kappa p / 8))%nat ->
  ~ (seed_at p n' v' r' i' j' <= x < seed_at p n' v' r' i' j' + Z.to_nat (r_kappa p / 8))%nat.
Proof. exact seeds_disjoint. Qed.
Print Assumptions C59_fresh_seeds.
Theorem C59_noise_from_seeds : forall H T p u n (second : bool) r x,
  let pos := (n * ((Z.to_nat (r_l p) + Z.to_nat (r_k p)) * row_bytes p))%nat in
  (r < Z.to_nat (if second then r_k p else r_l p))%nat -> (x < 512)%nat ->
  coef (nth r (noise H T p u (Z.to_nat (if second then r_k p else r_l p)) (if second then pos + Z.to_nat (r_l p) * row_bytes p else pos)) []) x =
  Zsum (Z.to_nat (r_rep p)) (fun i => Zsum (Z.to_nat (r_d p)) (fun j =>
    noise_sample (H (query_input (hq_noise i r j (stream_bytes T (seed_at p n second r i j) (Z.to_nat (r_kappa p / 8)))))) u x)) mod q.
Proof. exact noise_seeds. Qed.
Print Assumptions C59_noise_from_seeds.
(* a hash function that differs on all one-byte inputs, and a random stream that differs after the bytes
   of the first attempt: signing finishes with both *)
Definition ex_G1 : oracles := {|
  shake256 := fun m i => match m with [_] => Byte.xff | _ => shake256 ex_G m i end;
  ascon_permute := ascon_permute ex_G; ascon80pq_iv := 3 |}.
Example C58_C59_nonvacuous : let P := raccoon128_params 2 in forall msg tp', exists sig pkb,
  sk_sign ex_G 512 P ex_sk msg (repeat 171 (Z.to_nat 11524)) ex_tape = Ok sig /\
  public_key_code (pk_seed (sk_pkey ex_sk)) (pk_t (sk_pkey ex_sk)) pkb /\
  (forall m, sign_input (hash_of ex_G) (row_of P) (pk_seed (sk_pkey ex_sk)) pkb msg m -> forall i, shake256 ex_G m i = shake256 ex_G1 m i) /\
  shake256 ex_G [5] 0%nat <> shake256 ex_G1 [5] 0%nat /\
  sk_sign ex_G1 512 P ex_sk msg (repeat 5 (Z.to_nat 11524)) tp' <> OutOfFuel.
Proof.
  intros P msg tp'. assert (HP : params_ok P = true) by (vm_compute; reflexivity).
  assert (L : forall b : Z, zlen (repeat b (Z.to_nat 11524)) = 11524) by (intros b; unfold zlen; rewrite repeat_length; lia).
  destruct (ex_sk_signs msg _ ex_tape (L 171)) as (sig & E). destruct (bind_msg_ok ex_G P (sk_pkey ex_sk) msg HP ex_sk_public) as (pkb & Cpk & _ & Lpk & _).
  assert (DL : forall m : list Z, length m <> 1%nat -> forall i, shake256 ex_G m i = shake256 ex_G1 m i).
  { intros [|a [|b m]] Hm i; [reflexivity|destruct (Hm eq_refl)|reflexivity]. }
  exists sig, pkb. split; [exact E|]. split; [exact Cpk|]. split; [|split].
  - clear E. intros m Hm. apply DL. intros X. destruct Hm as [Hm|[Hm|[[(r & c & _ & _ & Hm)|(i & r & j & s & _ & _ & _ & _ & Hm)]|[(c & _ & Hm)|(data & Hm)]]]]; rewrite Hm in X;
      try (cbn [query_input app length] in X; discriminate X).
    unfold zlen in Lpk. rewrite X in Lpk. vm_compute in Lpk. discriminate Lpk.
  - vm_compute. discriminate.
  - refine (proj2 (sign_exact ex_G1 512 P ex_sk msg _ tp' (repeat (repeat ring_zero (p_l P)) (p_k P)) pkb ex_secret HP ex_sk_public (masked_49 _ _ _ ex_sk_masked) (L 5) _ Cpk ex_secret_poly ex_sk_secret) _ _ _).
    + refine (matrix_ext (hash_of ex_G) (hash_of ex_G1) _ _ _ _ _ (exG_matrix (pk_seed (sk_pkey ex_sk)) (p_k P) (p_l P))). intros; reflexivity.
    + intros r c _ _. rewrite (accepted_ext (matrix_stream (hash_of ex_G1) (pk_seed (sk_pkey ex_sk)) r c) (matrix_stream (hash_of ex_G) (pk_seed (sk_pkey ex_sk)) r c) 512 (fun i => eq_refl)). exact (exG_good_hash 512 (le_n _) ([65; Z.of_nat r; Z.of_nat c; 0; 0; 0; 0; 0] ++ pk_seed (sk_pkey ex_sk))).
    + exact (exG_good_mask 512 _ (le_n _)).
    + destruct (exG_attempt P ex_secret tp' (bound_message (hash_of ex_G1) (Z.to_nat (2 * p_kappa P / 8)) pkb msg) HP eq_refl ex_secret_small ltac:(vm_compute; discriminate)) as (c & cp & h & z & T & AC).
      exists 0%nat, c, cp, h, z. split; [apply Nat.ltb_lt; reflexivity|].
      assert (T' : sign_attempt (hash_of ex_G1) (tape_of tp') (row_of P) (repeat (repeat ring_zero (p_l P)) (p_k P)) (rows1 (pk_t (sk_pkey ex_sk))) ex_secret (bound_message (hash_of ex_G1) (Z.to_nat (2 * p_kappa P / 8)) pkb msg) 0 c cp h z).
      { revert T. apply attempt_ext; try (intros; reflexivity). }
      split; [exact T'|]. split; [left; exact AC|]. intros i Hi. rewrite (proj1 (Nat.le_0_r i) Hi). exists c, cp, h, z. split; [exact T'|]. clear.
      rewrite (chal_pos_map_ext (challenge_stream (hash_of ex_G1) (p_omega P) c) (challenge_stream (hash_of ex_G) (p_omega P) c) _ (fun i => eq_refl)). exact (exG_good_chal 512 (p_omega P) ltac:(clear; lia) ltac:(vm_compute; lia) c).
Qed.
