(* Property theorems: the samplers have no bias (SpecUniform.v).  If SHAKE256 is an ideal random
   stream, a bijection of streams that permutes the prefixes of every length turns the event "the
   sampler returns a" into the event "the sampler returns b": both have the same probability, within
   any number of candidates. *)
From Coq Require Import ZArith Lia List Bool.
From Coq.Strings Require Import Byte.
From Verif Require Import ModelBase ModelField ModelUtils ModelPoly ModelVec UniformProofs ChalUniform NoiseUniform PolyLemmas ExOracle.
From Verif Require Import Spec SpecUniform.
Import ListNotations.
Open Scope Z_scope.

(* C50: uniform sampling (poly.hpp:394-434) returns any two reduced polynomials with the same
   probability, and so does the expansion of the public matrix (poly_mat.hpp:45-58) for any two
   matrices of reduced polynomials *)
Theorem C50_uniform_sampling_unbiased :
  (forall p p', is_poly p -> is_poly p' ->
   exists F G, stream_bijection 7 F G /\
     forall O O' fuel hdr seed,
       (forall i, hash_of O' (hdr ++ seed) i = F (hash_of O (hdr ++ seed)) i) ->
       (sampleQ O fuel hdr seed = Ok p <-> sampleQ O' fuel hdr seed = Ok p')) /\
  (forall k l A A', (k <= 256)%nat -> (l <= 256)%nat ->
   length A = (k * l)%nat -> length A' = (k * l)%nat -> Forall is_poly A -> Forall is_poly A' ->
   exists F G : nat -> nat -> (nat -> Z) -> nat -> Z,
     (forall r c, stream_bijection 7 (F r c) (G r c)) /\
     forall O O' fuel seed,
       (forall r c i, (r < k)%nat -> (c < l)%nat ->
          matrix_stream (hash_of O') seed r c i = F r c (matrix_stream (hash_of O) seed r c) i) ->
       (expandA O fuel k l seed = Ok A <-> expandA O' fuel k l seed = Ok A')).
Proof.
  split.
  - intros p p' Hp Hp'. exists (shiftF (fun j => nth j p' 0 - nth j p 0)), (shiftF (fun j => nth j p 0 - nth j p' 0)).
    split; [apply shift_bijection; intros j; lia|]. intros O O' fuel hdr seed H. apply sampleQ_shift; assumption.
  - exact matrix_uniform.
Qed.
Print Assumptions C50_uniform_sampling_unbiased.
(* the hypothesis on the oracles can be met: the zero polynomial is a possible result *)
Example C50_nonvacuous : exists O', sampleQ O' 512 [65; 0; 0; 0; 0; 0; 0; 0] [1; 2] = Ok (repeat 0 512).
Proof.
  set (p := map (candidate49 (hash_of ex_O [65; 0; 0; 0; 0; 0; 0; 0; 1; 2])) (seq 0 512)).
  assert (E : sampleQ ex_O 512 [65; 0; 0; 0; 0; 0; 0; 0] [1; 2] = Ok p) by (apply (ex_sampleQ 512 [65; 0; 0; 0; 0; 0; 0; 0] [1; 2]); apply le_n).
  assert (Hp : is_poly p) by (apply (sampleQ_is_poly _ _ _ _ _ E)).
  destruct (proj1 C50_uniform_sampling_unbiased p (repeat 0 512) Hp zero_is_poly) as (F & G & B & H).
  destruct (oracle_with ex_O [65; 0; 0; 0; 0; 0; 0; 0; 1; 2] (F (hash_of ex_O [65; 0; 0; 0; 0; 0; 0; 0; 1; 2]))) as (O' & HO & _).
  { apply B. apply hash_byte_stream. }
  exists O'. apply (H ex_O O' 512%nat [65; 0; 0; 0; 0; 0; 0; 0] [1; 2]); [exact HO|exact E].
Qed.

Lemma ok_of_match {A} (r : res A) : match r with Ok _ => true | _ => false end = true -> exists c, r = Ok c.
Proof. destruct r as [c| |]; intros H; [exists c; reflexivity|discriminate|discriminate]. Qed.
(* C51: the challenge sampler (poly.hpp:466-497) returns any two ternary polynomials of weight omega
   with the same probability *)
Theorem C51_challenge_unbiased : forall omega c c', (omega < 256)%nat -> ternary omega c -> ternary omega c' ->
  exists F G, stream_bijection 2 F G /\
    forall O O' fuel c_hash,
      (forall i, challenge_stream (hash_of O') omega c_hash i = F (challenge_stream (hash_of O) omega c_hash) i) ->
      (chal_poly O fuel omega c_hash = Ok c <-> chal_poly O' fuel omega c_hash = Ok c').
Proof. exact chal_uniform. Qed.
Print Assumptions C51_challenge_unbiased.
(* the result consisting of 18 times 1 and once q - 1 at the lowest positions is possible *)
Example C51_nonvacuous : exists O', chal_poly O' 19 19 (repeat 7 32) = Ok (repeat 1 18 ++ [q - 1] ++ repeat 0 493).
Proof.
  assert (X : match chal_poly ex_O 19 19 (repeat 7 32) with Ok _ => true | _ => false end = true) by (vm_compute; reflexivity).
  destruct (ok_of_match (chal_poly ex_O 19 19 (repeat 7 32)) X) as [c E].
  assert (T : ternary 19 c) by (apply (chal_poly_ternary _ _ _ _ _ E); lia).
  assert (T' : ternary 19 (repeat 1 18 ++ [q - 1] ++ repeat 0 493)).
  { split; [reflexivity|]. split; [|reflexivity]. apply Forall_app. split; [apply Forall_forall; intros x Hx; apply repeat_spec in Hx; auto|].
    constructor; [auto|]. apply Forall_forall; intros x Hx; apply repeat_spec in Hx; auto. }
  destruct (C51_challenge_unbiased 19 c _ ltac:(lia) T T') as (F & G & B & H).
  destruct (oracle_with ex_O ([99; 19; 0; 0; 0; 0; 0; 0] ++ repeat 7 32) (F (hash_of ex_O ([99; 19; 0; 0; 0; 0; 0; 0] ++ repeat 7 32)))) as (O' & HO & _).
  { apply B. apply hash_byte_stream. }
  exists O'. apply (H ex_O O' 19%nat (repeat 7 32)); [exact HO|exact E].
Qed.

(* C52: the noise sampler (masked_poly.hpp:17-57) returns any two vectors of samples in
   [-2^(u-1), 2^(u-1)) with the same probability: the 512 samples are independent and uniform *)
Theorem C52_noise_unbiased : forall u e e', 1 <= u <= 63 -> length e = 512%nat -> length e' = 512%nat ->
  Forall (fun x => - 2 ^ (u - 1) <= x < 2 ^ (u - 1)) e -> Forall (fun x => - 2 ^ (u - 1) <= x < 2 ^ (u - 1)) e' ->
  exists F G, stream_bijection (Z.to_nat ((u + 7) / 8)) F G /\
    forall O O' hdr seed, (forall i, hash_of O' (hdr ++ seed) i = F (hash_of O (hdr ++ seed)) i) ->
      (sampleU O u hdr seed = e <-> sampleU O' u hdr seed = e').
Proof. intros u e e' H. exact (noise_uniform u H e e'). Qed.
Print Assumptions C52_noise_unbiased.
(* all samples equal to the smallest value -32 of 6-bit noise is possible *)
Example C52_nonvacuous : exists O', sampleU O' 6 [117; 0; 0; 0; 0; 0; 0; 0] (repeat 3 16) = repeat (-32) 512.
Proof.
  destruct (sampleU_range ex_O 6 [117; 0; 0; 0; 0; 0; 0; 0] (repeat 3 16)) as [L R]; [lia|].
  destruct (C52_noise_unbiased 6 _ (repeat (-32) 512) ltac:(lia) L (repeat_length _ _) R) as (F & G & B & H).
  { apply Forall_forall. intros x Hx. apply repeat_spec in Hx. subst x. cbn. lia. }
  destruct (oracle_with ex_O ([117; 0; 0; 0; 0; 0; 0; 0] ++ repeat 3 16) (F (hash_of ex_O ([117; 0; 0; 0; 0; 0; 0; 0] ++ repeat 3 16)))) as (O' & HO & _).
  { apply B. apply hash_byte_stream. }
  exists O'. exact (proj1 (H ex_O O' [117; 0; 0; 0; 0; 0; 0; 0] (repeat 3 16) HO) eq_refl).
Qed.
