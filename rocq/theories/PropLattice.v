(* Property theorems about the lattice relations behind signatures. *)
From Coq Require Import ZArith List Bool Lia.
From Verif Require Import ModelBase ModelField ModelUtils ModelPoly ModelVec ModelSerial ModelScheme.
From Verif Require Import Spec SpecScheme SpecSig SpecVerify SpecLattice.
From Verif Require Import PolyLemmas MaskedLemmas ParamProofs KeyLemmas ExOracle ExGood KeyExamples VerifyProofs SigEnc SigLemmas SignProofs SignVerify KeygenProofs ExSign LatticeProofs LatticeScheme ExLattice.
Import ListNotations.
Open Scope Z_scope.

(* C61: a signature that verify accepts opens the commitment it claims: it encodes c, h, z with short
   vectors z and e such that A z + e = 2^nu_t t cp + 2^nu_w w, where w is the commitment recomputed
   from the signature, c is the hash of w and of the message, and cp is the challenge polynomial of c. *)
Theorem C61_accepted_opens : forall O fuel P pk msg sig, params_ok P = true ->
  valid_public (Z.to_nat (p_kappa P / 8)) (p_k P) (pk_seed pk) (pk_t pk) -> Forall is_byte sig -> zlen sig = p_siglen P ->
  verify O fuel P pk msg sig = Ok true ->
  let n := Z.to_nat (2 * p_kappa P / 8) in
  exists c h z A cp pkb w e,
    length c = n /\ length h = (p_k P * 512)%nat /\ length z = (p_l P * 512)%nat /\ signature_code c h z sig /\
    public_matrix (hash_of O) (pk_seed pk) (p_k P) (p_l P) A /\
    challenge_poly (challenge_stream (hash_of O) (p_omega P) c) (p_omega P) cp /\
    public_key_code (pk_seed pk) (pk_t pk) pkb /\
    claimed_commitment (hash_of O) (row_of P) (pk_seed pk) (pk_t pk) sig w /\
    c = challenge_value (hash_of O) n w (bound_message (hash_of O) n pkb msg) /\
    opens (row_of P) A (rows1 (pk_t pk)) cp w (map to_ring (rows_of_flat (p_l P) z)) e.
Proof. exact accepted_opens. Qed.
Print Assumptions C61_accepted_opens.
(* the key of C01_nonvacuous: a signature of every message is accepted, and its response is not zero because the
   secret (1, 0, 0, 0) times the challenge polynomial is not zero *)
Example C61_opens_nonvacuous : forall msg tp, let P := raccoon128_params 2 in
  params_ok P = true /\ valid_public 16 5 (pk_seed (sk_pkey ex_sk)) (pk_t (sk_pkey ex_sk)) /\
  exists sig, sk_sign ex_G 512 P ex_sk msg (repeat 171 (Z.to_nat 11524)) tp = Ok sig /\
    Forall is_byte sig /\ zlen sig = 11524 /\ verify ex_G 512 P (sk_pkey ex_sk) msg sig = Ok true.
Proof.
  intros msg tp P. assert (HP : params_ok P = true) by (vm_compute; reflexivity).
  assert (LB : zlen (repeat 171 (Z.to_nat 11524)) = 11524) by (unfold zlen; rewrite repeat_length; apply Z2Nat.id; discriminate).
  destruct (ex_sk_signs msg _ tp LB) as (sig & E).
  destruct (sign_verifies ex_G 512 P ex_sk msg _ tp sig HP ex_sk_public (masked_49 _ _ _ ex_sk_masked) LB E) as (H1 & H2 & _ & H3).
  split; [exact HP|]. split; [exact ex_sk_public|]. exists sig. split; [exact E|]. split; [exact H2|]. split; [exact H1|exact H3].
Qed.

(* C61: two accepted signatures that claim the same commitment, under hash functions that agree on the public
   matrix (the forger is rewound and gets a new challenge), give short vectors u, v with
   A u + v = 2^nu_t t (cp - cp'), and cp - cp' is short and not zero if the challenge polynomials differ. *)
Theorem C61_two_answers : forall O O' fuel fuel' P pk msg msg' sig sig' A w, params_ok P = true ->
  valid_public (Z.to_nat (p_kappa P / 8)) (p_k P) (pk_seed pk) (pk_t pk) ->
  Forall is_byte sig -> zlen sig = p_siglen P -> Forall is_byte sig' -> zlen sig' = p_siglen P ->
  verify O fuel P pk msg sig = Ok true -> verify O' fuel' P pk msg' sig' = Ok true ->
  public_matrix (hash_of O) (pk_seed pk) (p_k P) (p_l P) A -> public_matrix (hash_of O') (pk_seed pk) (p_k P) (p_l P) A ->
  claimed_commitment (hash_of O) (row_of P) (pk_seed pk) (pk_t pk) sig w ->
  claimed_commitment (hash_of O') (row_of P) (pk_seed pk) (pk_t pk) sig' w ->
  let n := Z.to_nat (2 * p_kappa P / 8) in
  exists c h z cp c' h' z' cp' u v,
    length c = n /\ signature_code c h z sig /\ challenge_poly (challenge_stream (hash_of O) (p_omega P) c) (p_omega P) cp /\
    length c' = n /\ signature_code c' h' z' sig' /\ challenge_poly (challenge_stream (hash_of O') (p_omega P) c') (p_omega P) cp' /\
    length u = p_l P /\ length v = p_k P /\
    Forall (bounded_by (2 * p_Binf P)) u /\ Forall (bounded_by (2 * opening_error (row_of P))) v /\
    bounded_by 2 (ring_sub cp cp') /\ (cp <> cp' -> ring_sub cp cp' <> ring_zero) /\
    zipw ring_add (ring_matvec A u) v = key_times (row_of P) (rows1 (pk_t pk)) (ring_sub cp cp').
Proof. exact two_answers. Qed.
Print Assumptions C61_two_answers.
(* two hash functions that differ in the challenge streams only: signatures with the same commitment are
   accepted and the challenge polynomials differ *)
Example C61_two_nonvacuous : forall msg msg', let P := raccoon128_params 8 in let A := repeat (repeat ring_zero 4) 5 in
  params_ok P = true /\ valid_public 16 5 (pk_seed ex_pk) (pk_t ex_pk) /\
  exists f sig sig', Forall is_byte sig /\ zlen sig = 11524 /\ Forall is_byte sig' /\ zlen sig' = 11524 /\
    verify (ex_K 0) f P ex_pk msg sig = Ok true /\ verify (ex_K 1) f P ex_pk msg' sig' = Ok true /\
    public_matrix (hash_of (ex_K 0)) (pk_seed ex_pk) 5 4 A /\ public_matrix (hash_of (ex_K 1)) (pk_seed ex_pk) 5 4 A /\
    claimed_commitment (hash_of (ex_K 0)) (row_of P) (pk_seed ex_pk) (pk_t ex_pk) sig (repeat ring_zero 5) /\
    claimed_commitment (hash_of (ex_K 1)) (row_of P) (pk_seed ex_pk) (pk_t ex_pk) sig' (repeat ring_zero 5) /\
    forall c c', exists cp cp', challenge_poly (challenge_stream (hash_of (ex_K 0)) 19 c) 19 cp /\
      challenge_poly (challenge_stream (hash_of (ex_K 1)) 19 c') 19 cp' /\ cp <> cp'.
Proof.
  intros msg msg' P A. assert (HP : params_ok P = true) by (vm_compute; reflexivity).
  assert (V : valid_public 16 5 (pk_seed ex_pk) (pk_t ex_pk)) by exact ex_sk_public.
  destruct (bind_msg_ok (ex_K 0) P ex_pk msg HP V) as (pkb & Cpk & _).
  destruct (exK_zero_sig 0 8 pkb msg HP (or_introl eq_refl) Cpk) as (B0 & L0 & S0 & W0 & _).
  destruct (exK_zero_sig 1 8 pkb msg' HP (or_intror eq_refl) Cpk) as (B1 & L1 & S1 & W1 & _).
  destruct (verify_complete (ex_K 0) P ex_pk msg _ HP V B0 L0 S0) as (f0 & F0).
  destruct (verify_complete (ex_K 1) P ex_pk msg' _ HP V B1 L1 S1) as (f1 & F1).
  split; [exact HP|]. split; [exact V|].
  exists (Nat.max f0 f1), (zero_sig (ex_K 0) (raccoon128_params 8) pkb msg), (zero_sig (ex_K 1) (raccoon128_params 8) pkb msg').
  do 4 (split; [assumption|]). split; [apply F0, Nat.le_max_l|]. split; [apply F1, Nat.le_max_r|].
  split; [exact (exK_matrix 0 _ 5 4)|]. split; [exact (exK_matrix 1 _ 5 4)|]. split; [exact W0|]. split; [exact W1|].
  intros c c'. exists (ex_cp 0), (ex_cp 1). split; [exact (exK_chal 0 c (or_introl eq_refl))|]. split; [exact (exK_chal 1 c' (or_intror eq_refl))|exact ex_cp_differ].
Qed.

(* C62: with a generated key, every signing attempt, accepted or not, on every message and tape has hints of at most
   honest_hint; this bound is 5, 7 or 8 for the three security levels, so the hint code words, at any bit position, use
   at most 17 bits of the 64-bit windows of encoder and decoder. *)
Theorem C62_hints_small : forall O fuel P seed tp sk A s T mu n c cp h z, params_ok P = true -> Forall is_byte seed ->
  length seed = Z.to_nat (p_kappa P / 8) -> sk_generate O fuel P seed tp = Ok sk ->
  public_matrix (hash_of O) (pk_seed (sk_pkey sk)) (p_k P) (p_l P) A ->
  Forall is_poly s -> map transform s = map unmask (sk_s sk) ->
  sign_attempt (hash_of O) T (row_of P) A (rows1 (pk_t (sk_pkey sk))) s mu n c cp h z ->
  Forall (fun x => Z.abs x <= honest_hint (row_of P)) h /\
  honest_hint (row_of P) <= (if p_kappa P =? 128 then 5 else if p_kappa P =? 192 then 7 else 8) /\
  (forall pos, all_in_window code_h 17 pos h).
Proof.
  intros O fuel P seed tp sk A s T mu n c cp h z HP B L EG HA Ps Es HS.
  pose proof (attempt_hint_bound O fuel P seed tp sk A s T mu n c cp h z HP B L EG HA Ps Es HS) as H1.
  pose proof (proj2 (proj2 (hint_bound_num P HP))) as H2.
  split; [exact H1|]. split; [exact H2|]. apply window_bound. refine (Forall_impl _ _ H1). intros x Hx. rewrite clen_h.
  assert (X : Z.abs x <= 8) by (eapply Z.le_trans; [exact Hx|]; eapply Z.le_trans; [exact H2|]; destruct (p_kappa P =? 128); [|destruct (p_kappa P =? 192)]; discriminate).
  clear - X. destruct (x =? 0); lia.
Qed.
Print Assumptions C62_hints_small.
(* every level and share count: generated keys exist, and so does the first attempt *)
Example C62_nonvacuous : forall seed tp T mu, let P := raccoon192_params 4 in Forall is_byte seed -> length seed = 24%nat ->
  exists sk A s c cp h z, sk_generate ex_G 512 P seed tp = Ok sk /\
    public_matrix (hash_of ex_G) (pk_seed (sk_pkey sk)) 7 5 A /\ Forall is_poly s /\ map transform s = map unmask (sk_s sk) /\
    sign_attempt (hash_of ex_G) (tape_of T) (row_of P) A (rows1 (pk_t (sk_pkey sk))) s mu 0 c cp h z.
Proof.
  intros seed tp T mu P B L. assert (HP : params_ok P = true) by (vm_compute; reflexivity).
  destruct (exG_generate P seed tp 512 HP B L (le_n _)) as (sk & E & E1 & E2 & E3 & E4).
  destruct (exG_attempt P (repeat ring_zero 5) T mu HP (repeat_length _ _)) as (c & cp & h & z & H & _).
  - apply Forall_repeat. exists ring_zero. split; [apply repeat_length|]. split; [unfold to_ring, ring_zero; rewrite map_rep, mod0; reflexivity|]. apply Forall_repeat. discriminate.
  - vm_compute. discriminate.
  - exists sk, (repeat (repeat ring_zero 5) 7), (repeat ring_zero 5), c, cp, h, z. split; [exact E|].
    split; [exact (exG_matrix _ 7 5)|]. split; [apply Forall_repeat; exact zero_poly|]. split; [symmetry; exact E4|].
    unfold rows1. rewrite E2, map_rep. exact H.
Qed.
