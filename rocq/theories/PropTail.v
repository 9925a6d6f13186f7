(* Property theorem about the time that the samplers need. *)
From Coq Require Import ZArith List Bool Lia.
From Verif Require Import ModelBase ModelField ModelUtils ModelPoly ModelVec ModelSerial ModelScheme.
From Verif Require Import Spec SpecScheme SpecSig SpecVerify SpecTail.
From Verif Require Import FieldProofs ArithLemmas ParamProofs KeyLemmas KeyExamples SampleProofs SampleLemmas CountProofs TailProofs ExOracle.
Import ListNotations.
Open Scope Z_scope.

(* C72: for every b there is a set of windows of 512 b candidates, at most the fraction 512 (1 - q / 2^49)^b of all windows,
   such that the uniform sampler has read at most 512 b candidates (7 bytes each) unless the window is in the set;
   likewise the challenge sampler has read at most omega b candidates (2 bytes each) unless the window is in a set of at
   most the fraction omega ((omega - 1) / 512)^b.  Verification waits longer only if one of these windows is in its set.
   For b = 24 and b = 36 the fractions are below 2^-120. *)
Theorem C72_samplers_finish :
  (forall b, exists ws, rare ws (512 * b * 7) (512 * (2 ^ 49 - q) ^ Z.of_nat b) ((2 ^ 49) ^ Z.of_nat b) /\
     (forall O fuel hdr seed, (512 * b <= fuel)%nat -> sampleQ O fuel hdr seed = OutOfFuel ->
        In (stream_bytes (hash_of O (hdr ++ seed)) 0 (512 * b * 7)) ws) /\
     forall omega b', (0 < omega < 256)%nat ->
     exists ws', rare ws' (omega * b' * 2) (Z.of_nat omega * (Z.of_nat omega - 1) ^ Z.of_nat b') (512 ^ Z.of_nat b') /\
       (forall O fuel c, (omega * b' <= fuel)%nat -> chal_poly O fuel omega c = OutOfFuel ->
          In (stream_bytes (challenge_stream (hash_of O) omega c) 0 (omega * b' * 2)) ws') /\
       forall O fuel P pk msg sig, params_ok P = true -> p_omega P = omega ->
         valid_public (Z.to_nat (p_kappa P / 8)) (p_k P) (pk_seed pk) (pk_t pk) -> Forall is_byte sig -> zlen sig = p_siglen P ->
         (512 * b <= fuel)%nat -> (omega * b' <= fuel)%nat -> verify O fuel P pk msg sig = OutOfFuel ->
         (exists r c, (r < p_k P)%nat /\ (c < p_l P)%nat /\
            In (stream_bytes (matrix_stream (hash_of O) (pk_seed pk) r c) 0 (512 * b * 7)) ws) \/
         In (stream_bytes (challenge_stream (hash_of O) omega (firstn (Z.to_nat (2 * p_kappa P / 8)) sig)) 0 (omega * b' * 2)) ws') /\
  (512 * (2 ^ 49 - q) ^ 24 * 2 ^ 120 <= (2 ^ 49) ^ 24 /\
   forall P, params_ok P = true -> Z.of_nat (p_omega P) * (Z.of_nat (p_omega P) - 1) ^ 36 * 2 ^ 120 <= 512 ^ 36).
Proof.
  split.
  - intros b. destruct (uniform_tail b) as (ws & H1 & H2 & H3 & H4). exists ws. split; [split; [exact H1|split; [exact H2|split; [apply Z.pow_pos_nonneg; lia|exact H3]]]|].
    split; [exact H4|]. intros omega b' Ho. destruct (challenge_tail omega b' Ho) as (ws' & C1 & C2 & C3 & C4). exists ws'.
    split; [split; [exact C1|split; [exact C2|split; [apply Z.pow_pos_nonneg; lia|exact C3]]]|]. split; [exact C4|].
    intros O fuel P pk msg sig HP Eo V Hb Ls Hf Hf' E. destruct (params_facts P HP) as (kb & e & F).
    pose proof (pf_k _ _ _ F) as Hk. pose proof (pf_l _ _ _ F) as Hl.
    destruct (verify_out O fuel P pk msg sig HP V Hb Ls E) as [(r & c & Hr & Hc & X)|X].
    + left. exists r, c. split; [exact Hr|]. split; [exact Hc|]. rewrite matrix_stream_hdr by lia. exact (H4 O fuel _ _ Hf X).
    + right. rewrite Eo in X. exact (C4 O fuel _ Hf' X).
  - split.
    + rewrite q_Q, Q_val. vm_compute. discriminate.
    + intros P HP. destruct (params_ok_cases P HP) as (d & _ & [->|[->| ->]]); cbn [raccoon128_params raccoon192_params raccoon256_params p_omega]; vm_compute; discriminate.
Qed.
Print Assumptions C72_samplers_finish.
(* a hash function that always gives the byte 255: neither sampler ever finishes *)
Definition ones_O : oracles := {| shake256 := fun _ _ => ex_byte 255; ascon_permute := fun _ st => st; ascon80pq_iv := 0 |}.
Lemma ones_hash m i : hash_of ones_O m i = 255.
Proof. unfold hash_of, ones_O, shake256. rewrite ex_byte_val. reflexivity. Qed.
Example C72_nonvacuous : forall fuel,
  (forall hdr seed, sampleQ ones_O fuel hdr seed = OutOfFuel) /\ (forall c, chal_poly ones_O fuel 19 c = OutOfFuel).
Proof.
  intros fuel. split.
  - intros hdr seed. rewrite sampleQ_eq. unfold take512. replace (accepted49 (hash_of ones_O (hdr ++ seed)) fuel) with (@nil Z); [reflexivity|].
    unfold accepted49. symmetry. induction (seq 0 fuel) as [|t l IH]; [reflexivity|]. cbn [map filter]. unfold candidate49 at 1, stream_bytes. cbn [seq map]. rewrite !ones_hash.
    replace (_ <? q) with false; [exact IH|]. rewrite q_Q, Q_val. reflexivity.
  - intros c. destruct (challenge_facts ones_O fuel 19 c ltac:(lia)) as (_ & _ & H & _). apply H. clear H.
    assert (E : map (chal_pos (challenge_stream (hash_of ones_O) 19 c)) (seq 0 fuel) = repeat 511%nat fuel).
    { transitivity (repeat 511%nat (length (seq 0 fuel))); [|rewrite seq_length; reflexivity]. induction (seq 0 fuel) as [|t l IH]; [reflexivity|]. cbn [map length repeat]. rewrite IH.
      replace (chal_pos _ t) with 511%nat; [reflexivity|]. symmetry. unfold chal_pos, chal_word, stream_bytes, challenge_stream. cbn [seq map]. rewrite !ones_hash. reflexivity. }
    rewrite E. assert (G : forall n, fold_left (fun s p => if existsb (Nat.eqb p) s then s else s ++ [p]) (repeat 511%nat n) [511%nat] = [511%nat]).
    { induction n as [|n IH]; [reflexivity|]. cbn [repeat fold_left existsb]. rewrite Nat.eqb_refl. exact IH. }
    unfold distinct. destruct fuel as [|n]; [cbn; lia|]. cbn [repeat fold_left existsb app]. rewrite G. cbn [length]. lia.
Qed.
