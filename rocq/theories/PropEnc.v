(* Property theorems: exact outcomes of the signature encoder (serialization.hpp:205-340) and of the
   signing loop (secret_key.hpp:101-208). *)
From Coq Require Import ZArith List Bool Lia.
From Verif Require Import ModelBase ModelField ModelUtils ModelPoly ModelVec ModelSerial ModelScheme ModelApi.
From Verif Require Import Spec SpecScheme SpecSig SpecVerify SpecApi SpecEnc.
From Verif Require Import MaskedProofs PolyLemmas MaskedLemmas ParamProofs KeyLemmas ExOracle ExGood KeyExamples SigEnc EncExact SigLemmas VerifyProofs SignProofs SignVerify KeygenProofs HistoryProofs HashLemmas FuelProofs TermProofs SignExact BoundProofs ExSign ExOver.
Import ListNotations.
Open Scope Z_scope.

(* C54: the encoder returns true exactly if every code word fits its bit buffer and the signature is
   long enough; it is undefined exactly if the words overrun it (overrun_encoding of SpecEnc.v); in all
   other cases it returns false.  The contents of the destination before the call do not matter. *)
Theorem C54_encoder_outcomes : forall c h z buf, Forall is_byte c -> (length c <= length buf)%nat -> z <> [] ->
  ((exists bytes, encode_sig c h z buf = Ok (true, bytes)) <->
     buffer_fits h z /\ 8 * Z.of_nat (length c) + Z.of_nat (length (sig_code h z)) <= 8 * Z.of_nat (length buf)) /\
  (encode_sig c h z buf = UB <-> overrun_encoding (Z.of_nat (length buf)) (Z.of_nat (length c)) h z) /\
  encode_sig c h z buf <> OutOfFuel.
Proof.
  intros c h z buf Bc L Nz. assert (Hc : zlen c <= zlen buf) by (unfold zlen; lia). split; [|split].
  - split.
    + intros (bytes & E). exact (encode_needs_buffer c h z buf bytes Bc Hc Nz E).
    + intros (BF & FIT). destruct (proj1 (encode_exact c h z buf Bc Hc Nz BF) FIT) as (b & E & _). exists b. exact E.
  - destruct (encode_ub_exact c h z buf Bc Hc) as [[E U]|(v & E & N)]; rewrite E; (split; [intros X|intros X]); [exact U|reflexivity|discriminate X|destruct (N X)].
  - destruct (encode_ub_exact c h z buf Bc Hc) as [[E _]|(v & E & _)]; rewrite E; discriminate.
Qed.
Print Assumptions C54_encoder_outcomes.
(* a hint of 64 is undefined although its bytes do not fit; a hint of 62 is undefined if the eight bytes
   of the following output fit, and reported otherwise; a last response of -2^44 at an odd position *)
Example C54_nonvacuous :
  encode_sig [] [64] [0] (repeat 0 1) = UB /\ encode_sig [] [62] [0] (repeat 0 8) = UB /\
  encode_sig [] [62] [0] (repeat 0 7) = Ok (false, repeat 0 7) /\
  encode_sig [7] [3; -1] [2 ^ 41] (repeat 9 9) = Ok (true, [7; 167; 0; 0; 0; 0; 0; 3; 0]) /\
  encode_sig [] [0] [-2^43-2^42; -2^44] (repeat 9 19) = UB.
Proof. repeat split; vm_compute; reflexivity. Qed.

(* C55: the outcome of signing, for every hash function, key object, message, random tape and waiting
   bound with which it finishes: it returns sig exactly if sig has the signature length and encodes an
   acceptable attempt and every earlier attempt is neither acceptable nor overruns the encoder; it is
   undefined exactly if an attempt overruns the encoder and every earlier one is neither acceptable nor
   overruns.  It finishes if some attempt is acceptable or overruns and the sampled streams contain
   enough acceptable values. *)
Theorem C55_signing_outcomes : forall O fuel P sk msg buf tp A pkb s, params_ok P = true ->
  valid_public (Z.to_nat (p_kappa P / 8)) (p_k P) (pk_seed (sk_pkey sk)) (pk_t (sk_pkey sk)) ->
  masked_vec49 (p_l P) (p_d P) (sk_s sk) -> zlen buf = p_siglen P ->
  public_matrix (hash_of O) (pk_seed (sk_pkey sk)) (p_k P) (p_l P) A ->
  public_key_code (pk_seed (sk_pkey sk)) (pk_t (sk_pkey sk)) pkb ->
  Forall is_poly s -> map transform s = map unmask (sk_s sk) ->
  let att := sign_attempt (hash_of O) (tape_of tp) (row_of P) A (rows1 (pk_t (sk_pkey sk))) s
               (bound_message (hash_of O) (Z.to_nat (2 * p_kappa P / 8)) pkb msg) in
  let rejected i := exists c cp h z, att i c cp h z /\ ~ acceptable (row_of P) c h z /\ ~ attempt_overruns (row_of P) c h z in
  (sk_sign O fuel P sk msg buf tp <> OutOfFuel ->
    (forall sig, sk_sign O fuel P sk msg buf tp = Ok sig <->
       Forall is_byte sig /\ zlen sig = p_siglen P /\
       exists n c cp h z, att n c cp h z /\ acceptable (row_of P) c h z /\ signature_code c h z sig /\ forall i, (i < n)%nat -> rejected i) /\
    (sk_sign O fuel P sk msg buf tp = UB <->
       exists n c cp h z, att n c cp h z /\ attempt_overruns (row_of P) c h z /\ forall i, (i < n)%nat -> rejected i)) /\
  ((forall r c, (r < p_k P)%nat -> (c < p_l P)%nat -> (512 <= length (accepted49 (matrix_stream (hash_of O) (pk_seed (sk_pkey sk)) r c) fuel))%nat) ->
   ((2 <= p_d P)%nat -> window_accepts (fun t => a0 (Nat.iter t (ascon_permute O 6) ascon_zero) mod 2 ^ 49) fuel) ->
   (exists n c cp h z, (n < fuel)%nat /\ att n c cp h z /\ (acceptable (row_of P) c h z \/ attempt_overruns (row_of P) c h z) /\
     forall i, (i <= n)%nat -> exists c cp h z, att i c cp h z /\ (p_omega P <= length (distinct (map (chal_pos (challenge_stream (hash_of O) (p_omega P) c)) (seq 0 fuel))))%nat) ->
   sk_sign O fuel P sk msg buf tp <> OutOfFuel).
Proof. exact sign_exact. Qed.
Print Assumptions C55_signing_outcomes.
(* both outcomes occur: one key signs every message, another one is undefined for every message *)
Example C55_nonvacuous :
  (forall msg tp, exists sig, sk_sign ex_G 512 (raccoon128_params 2) ex_sk msg (repeat 171 (Z.to_nat 11524)) tp = Ok sig) /\
  (exists sk, sk_generate ex_U 512 (raccoon128_params 1) (repeat 77 16) ex_tape = Ok sk /\
     forall msg tp, sk_sign ex_U 512 (raccoon128_params 1) sk msg (repeat 171 (Z.to_nat 11524)) tp = UB).
Proof.
  assert (L : zlen (repeat 171 (Z.to_nat 11524)) = 11524) by (unfold zlen; rewrite repeat_length; lia).
  assert (B : Forall is_byte (repeat 77 16)) by (apply Forall_repeat; split; [discriminate|reflexivity]).
  split; [intros msg tp; apply ex_sk_signs; exact L|].
  destruct (exU_generate (raccoon128_params 1) (repeat 77 16) ex_tape 512) as (sk & E & _); [vm_compute; reflexivity|exact B|reflexivity|apply le_n|].
  exists sk. split; [exact E|]. intros msg tp.
  apply (exU_overruns (raccoon128_params 1) sk (repeat 77 16) msg _ ex_tape tp 512); try reflexivity; try assumption; vm_compute; reflexivity.
Qed.

(* C56 is false: there is a hash function (a deterministic function from messages to byte streams) for
   which, with one, two or four shares, every key that Raccoon-128 generates is undefined to sign with,
   for every message and every random tape: the first attempt has the last response coefficient -2^43,
   which meets the norm bounds, and leaves 57 bits in the encoder for its last output. *)
Theorem C56_generated_keys_sign_defined_refuted : exists O, forall d, d = 1%nat \/ d = 2%nat \/ d = 4%nat ->
  forall fuel seed tp, (512 <= fuel)%nat -> Forall is_byte seed -> length seed = 16%nat ->
  exists sk, sk_generate O fuel (raccoon128_params d) seed tp = Ok sk /\
    forall msg buf tp', zlen buf = 11524 -> sk_sign O fuel (raccoon128_params d) sk msg buf tp' = UB.
Proof.
  exists ex_U. intros d Hd fuel seed tp Hf B L.
  assert (HP : params_ok (raccoon128_params d) = true) by (destruct Hd as [->|[->| ->]]; vm_compute; reflexivity).
  assert (F : p_k (raccoon128_params d) = 5%nat /\ p_l (raccoon128_params d) = 4%nat /\ p_kappa (raccoon128_params d) = 128 /\ p_uw (raccoon128_params d) = 41 /\
              (p_rep (raccoon128_params d) * p_d (raccoon128_params d) = 8)%nat /\ p_siglen (raccoon128_params d) = 11524)
    by (destruct Hd as [->|[->| ->]]; vm_compute; repeat split).
  destruct F as (F1 & F2 & F3 & F4 & F5 & F6).
  destruct (exU_generate (raccoon128_params d) seed tp fuel HP B) as (sk & E & _); [rewrite F3; exact L|exact Hf|].
  exists sk. split; [exact E|]. intros msg buf tp' Lb. exact (exU_overruns (raccoon128_params d) sk seed msg buf tp tp' fuel HP F1 F2 F3 F4 F5 F6 B L E Lb Hf).
Qed.
Print Assumptions C56_generated_keys_sign_defined_refuted.

(* C56, what holds: with a generated key and at most four shares, signing is undefined only if the last
   coefficient of the response of some attempt has absolute value at least 2^43, the maximum of the noise
   alone; all responses are below 2^43 + 2^15. *)
Theorem C56_generated_keys_sign_defined_partial : forall O fuel P seed tp sk msg buf tp', params_ok P = true -> (p_d P <= 4)%nat ->
  Forall is_byte seed -> length seed = Z.to_nat (p_kappa P / 8) -> sk_generate O fuel P seed tp = Ok sk -> zlen buf = p_siglen P ->
  sk_sign O fuel P sk msg buf tp' = UB ->
  exists A pkb s,
    public_matrix (hash_of O) (pk_seed (sk_pkey sk)) (p_k P) (p_l P) A /\
    public_key_code (pk_seed (sk_pkey sk)) (pk_t (sk_pkey sk)) pkb /\
    Forall is_poly s /\ map transform s = map unmask (sk_s sk) /\
    exists n c cp h z,
      sign_attempt (hash_of O) (tape_of tp') (row_of P) A (rows1 (pk_t (sk_pkey sk))) s
        (bound_message (hash_of O) (Z.to_nat (2 * p_kappa P / 8)) pkb msg) n c cp h z /\
      length z = (p_l P * 512)%nat /\ 2 ^ 43 <= Z.abs (last z 0) /\ Forall (fun x => Z.abs x < 2 ^ 43 + 2 ^ 15) z.
Proof.
  intros O fuel P seed tp sk msg buf tp' HP Hd B L EG Lb EU.
  pose proof (generate_spec O fuel P seed tp HP B L) as G. rewrite EG in G. cbn [wp] in G. destruct G as (G1 & G2 & G3 & A' & G4 & G5 & G6 & G7 & G8).
  destruct (sign_undefined O fuel P sk msg buf tp' HP G2 (masked_49 _ _ _ G3) Lb EU) as (A & pkb & s & S1 & S2 & S3 & S4 & n & c & cp & h & z & T1 & T2 & T3 & T4 & _).
  assert (NUM : 0 <= noise_bound_of P (p_ut P) /\ Z.of_nat (p_omega P) * noise_bound_of P (p_ut P) + noise_bound_of P (p_uw P) < 2 ^ 43 + 2 ^ 15).
  { destruct (params_ok_cases P HP) as (d & Id & C). cbn [dvals In] in Id.
    assert (D : d = 1%nat \/ d = 2%nat \/ d = 4%nat).
    { destruct C as [->|[->| ->]]; cbn [raccoon128_params raccoon192_params raccoon256_params p_d] in Hd; repeat (destruct Id as [<-|Id]; [lia|]); contradiction. }
    clear - C D. destruct C as [->|[->| ->]]; destruct D as [->|[->| ->]]; split; vm_compute; congruence || reflexivity. }
  destruct NUM as [N0 N1].
  assert (Es : s = noise (hash_of O) (tape_of tp) (row_of P) (p_ut P) (p_l P) 0).
  { apply transform_inj_list; [exact S3| |].
    - refine (Forall_impl _ _ G7). intros p (xs & Lx & -> & _). split; [unfold to_ring; rewrite map_length; exact Lx|]. apply Forall_map. apply Forall_forall. intros x _. apply Z.mod_pos_bound. reflexivity.
    - rewrite S4. exact G5. }
  exists A, pkb, s. do 4 (split; [assumption|]). exists n, c, cp, h, z. split; [exact T1|]. split; [exact T2|].
  specialize (T4 (noise_bound_of P (p_ut P)) N0 ltac:(rewrite Es; exact G7)).
  split; [|refine (Forall_impl _ _ T4); intros x Hx; cbv beta in Hx; lia].
  destruct T3 as [T3|T3]; [exfalso|exact T3]. apply Exists_exists in T3. destruct T3 as (x & Ix & Hx). rewrite Forall_forall in T4. specialize (T4 x Ix).
  cbv beta in T4. change (2 ^ 43 + 2 ^ 15) with 8796093054976 in N1. change (15 * 2 ^ 40) with 16492674416640 in Hx. lia.
Qed.
Print Assumptions C56_generated_keys_sign_defined_partial.
(* the hypotheses are met by the keys and calls of the refutation *)
Example C56_nonvacuous : exists sk, sk_generate ex_U 512 (raccoon128_params 1) (repeat 77 16) ex_tape = Ok sk /\
  sk_sign ex_U 512 (raccoon128_params 1) sk [1; 2] (repeat 171 (Z.to_nat 11524)) ex_tape = UB.
Proof.
  destruct C55_nonvacuous as (_ & sk & E & H). exists sk. split; [exact E|]. exact (H [1; 2] ex_tape).
Qed.
