(* Statements assembled for PropSample.v. *)
From Coq Require Import ZArith Lia Bool List Arith.
From Coq Require Import ZifyBool ZifyNat.
From Verif Require Import ModelBase ModelU128 ModelField ModelUtils ModelPoly ModelVec.
From Verif Require Import Spec.
From Verif Require Import Words FieldProofs ArithLemmas BytesProofs PolyProofs NttLayers Cong NttEval NttBounds MaskedProofs LinProofs SampleProofs NoiseProofs MaskedLemmas.
Import ListNotations.
Open Scope Z_scope.
Ltac Zify.zify_post_hook ::= idtac.

Lemma challenge_facts O fuel omega c_hash : (omega < 256)%nat ->
  let S := challenge_stream (hash_of O) omega c_hash in
  (forall c, chal_poly O fuel omega c_hash = Ok c ->
     challenge_poly S omega c /\ length c = 512%nat /\
     length (filter (fun x => negb (x =? 0)) c) = omega /\
     Forall (fun x => x = 0 \/ x = 1 \/ x = q - 1) c) /\
  chal_poly O fuel omega c_hash <> UB /\
  (chal_poly O fuel omega c_hash = OutOfFuel <->
     (length (distinct (map (chal_pos S) (seq 0 fuel))) < omega)%nat) /\
  (forall c c', challenge_poly S omega c -> challenge_poly S omega c' -> c = c').
Proof.
  intros Ho S. pose proof (chal_poly_eq O fuel omega c_hash Ho) as H. cbv zeta in H. fold S in H.
  split; [|split; [|split]].
  - intros c E. rewrite E in H. destruct H as (m & _ & H1 & H2).
    assert (CP : challenge_poly S omega c) by (exists m; split; assumption).
    destruct (challenge_poly_facts S omega c CP) as ([L _] & N & F). exact (conj CP (conj L (conj N F))).
  - destruct (chal_poly O fuel omega c_hash); [discriminate|contradiction|discriminate].
  - destruct (chal_poly O fuel omega c_hash) as [c| |].
    + destruct H as (m & Hm & H1 & _). split; [discriminate|]. intros H3. exfalso.
      fold (distinct_count S fuel) in H3. pose proof (distinct_count_mono S m fuel Hm). lia.
    + contradiction.
    + split; [intros _; exact H|reflexivity].
  - apply challenge_poly_fun.
Qed.

Lemma uniform_facts O fuel :
  (forall hdr seed, let S := hash_of O (hdr ++ seed) in
     sampleQ O fuel hdr seed
     = if (512 <=? length (accepted49 S fuel))%nat then Ok (firstn 512 (accepted49 S fuel)) else OutOfFuel) /\
  (forall k l seed, (k <= 256)%nat -> (l <= 256)%nat ->
     expandA O fuel k l seed <> UB /\
     forall A, expandA O fuel k l seed = Ok A ->
       length A = (k * l)%nat /\
       forall r c, (r < k)%nat -> (c < l)%nat ->
         uniform_poly (matrix_stream (hash_of O) seed r c) (nth (r * l + c) A []) /\
         is_poly (nth (r * l + c) A [])) /\
  (forall S p p', uniform_poly S p -> uniform_poly S p' -> p = p').
Proof.
  repeat apply conj.
  - intros hdr seed S. apply sampleQ_eq.
  - intros k l seed Hk Hl. destruct (wp_split _ _ (expandA_ok O fuel k l seed Hk Hl)) as [H1 H2].
    split; [exact H1|]. intros A E. destruct (H2 A E) as [L F]. split; [exact L|]. intros r c Hr Hc.
    pose proof (F r c Hr Hc) as U. split; [exact U|]. apply (uniform_poly_poly _ _ U).
  - apply uniform_poly_fun.
Qed.

Lemma noise_facts O fuel u rep kappa e rows v tp pos m :
  1 <= u <= 48 -> (rep <= 256)%nat -> (2 ^ e <= 256)%nat -> (rows <= 256)%nat ->
  masked_vec rows (2 ^ e) v ->
  let kb := Z.to_nat (kappa / 8) in
  (forall S i, - 2 ^ (u - 1) <= noise_sample S u i < 2 ^ (u - 1)) /\
  pv_add_rep_noise O fuel u rep kappa (2 ^ e) v (Prng tp pos) m <> UB /\
  (forall v' p' m', pv_add_rep_noise O fuel u rep kappa (2 ^ e) v (Prng tp pos) m = Ok (v', p', m') ->
     masked_vec rows (2 ^ e) v' /\
     p' = Prng tp (pos + rows * (rep * 2 ^ e * kb)) /\
     map unmask v' = map2 ring_add (map unmask v)
                          (noise_vec (hash_of O) (tape_of tp) u kb rep (2 ^ e) rows pos)) /\
  (forall row k, Z.abs (noise_coef (hash_of O) (tape_of tp) u kb rep (2 ^ e) row pos k)
                 <= Z.of_nat rep * Z.of_nat (2 ^ e) * 2 ^ (u - 1)).
Proof.
  intros Hu Hrep Hd Hrows Hv kb.
  destruct (wp_split _ _ (pv_add_rep_noise_ok O fuel u kappa (2 ^ e) Hu Hd rep rows v tp pos m Hrows Hrep (pow2_e e) Hv)) as [H1 H2].
  repeat apply conj.
  - intros S i. apply noise_sample_range. lia.
  - exact H1.
  - intros v' p' m' E. destruct (H2 _ E) as (A & B & C). cbn [fst snd] in *. exact (conj A (conj B C)).
  - intros row k. apply Z.abs_le. apply noise_coef_bound. lia.
Qed.
