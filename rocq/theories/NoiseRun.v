(* The model of add_rep_noise goes through the states of SpecNoiseProbe.v. *)
From Coq Require Import ZArith Lia Bool List Arith.
From Coq Require Import ZifyBool ZifyNat.
From Verif Require Import ModelBase ModelU128 ModelField ModelUtils ModelPoly ModelVec ModelSerial ModelScheme.
From Verif Require Import Spec SpecScheme SpecMask SpecProbe SpecNoiseProbe.
From Verif Require Import Words FieldProofs ArithLemmas BytesProofs PolyProofs NttLayers Cong MaskedProofs PolyLemmas SigEnc SampleProofs NoiseProofs MaskUniform MaskProg ProbeCore ProbeProofs ProbeProg NoiseProbe.
Import ListNotations.
Open Scope Z_scope.
Ltac Zify.zify_post_hook ::= idtac.

Lemma noise_family_masked H T u kb d row pos i : masked d (noise_family H T u kb d row pos i).
Proof.
  split; [unfold noise_family; rewrite map_length; apply seq_length|]. apply Forall_forall. intros y Hy. apply in_map_iff in Hy. destruct Hy as (j & <- & _). apply mod_poly.
Qed.
Lemma noise_shares_exact O u kappa d row i a tp pos : 1 <= u <= 48 -> (d <= 256)%nat -> (row < 256)%nat -> (i < 256)%nat -> masked d a ->
  fold_left (noise_share O u kappa row i) (seq 0 d) (a, Prng tp (pos + i * d * kbytes kappa))
  = (tuple_add a (noise_family (hash_of O) (tape_of tp) u (kbytes kappa) d row pos i), Prng tp (pos + (S i) * d * kbytes kappa)).
Proof.
  intros Hu Hd Hrow Hi Ha. set (kb := kbytes kappa). set (F := noise_family (hash_of O) (tape_of tp) u kb d row pos i).
  assert (MF : masked d F) by apply noise_family_masked.
  assert (G : forall n, (n <= d)%nat -> let r := fold_left (noise_share O u kappa row i) (seq 0 n) (a, Prng tp (pos + i * d * kb)) in
    mp_ok d (fst r) /\ snd r = Prng tp (pos + (i * d + n) * kb) /\
    forall j, (j < d)%nat -> nth j (fst r) [] = if (j <? n)%nat then nth j (tuple_add a F) [] else nth j a []).
  { induction n as [|n IH]; intros Hn.
    - cbn [seq fold_left fst snd]. split; [exact Ha|]. split; [f_equal; lia|]. reflexivity.
    - rewrite seq_S, fold_left_app. cbn [fold_left]. rewrite Nat.add_0_l.
      destruct (IH ltac:(lia)) as (H1 & H2 & H3). destruct (fold_left _ (seq 0 n) _) as [mp p]. cbn [fst snd] in *. subst p.
      unfold noise_share. rewrite prng_read_eq. cbn [tape ppos]. rewrite !Z.mod_small by lia.
      rewrite sampleU_eq by lia. fold kb.
      set (S := noise_stream (hash_of O) (tape_of tp) kb d row pos i n).
      change (hash_of O _) with S. cbn [fst snd]. unfold mpoly, poly in *.
      destruct (noise_add_share u S (nth n mp []) Hu ltac:(apply (mp_ok_nth d); [exact H1|lia])) as [N1 N2].
      split; [apply mp_ok_upd; assumption|]. split; [f_equal; lia|].
      intros j Hj. destruct (Nat.eq_dec j n) as [->|N].
      + rewrite upd_nth_eq by (rewrite (proj1 H1); exact Hj). replace (n <? Datatypes.S n)%nat with true by (symmetry; apply Nat.ltb_lt; lia).
        assert (LF : length F = d) by apply MF. assert (La : length a = d) by apply Ha. rewrite nth_tuple_add by lia.
        assert (En : nth n mp [] = nth n a []) by (rewrite (H3 n Hj), Nat.ltb_irrefl; reflexivity). rewrite En in N1, N2 |- *.
        apply poly_ext; [apply N1|apply is_poly_length, ring_add_poly|]. intros c Hc. rewrite <- (mod_q_reduced (coef (map2 _ _ _) c)) by (apply is_poly_coef'; exact N1).
        unfold ring_add. rewrite coef_map_seq by exact Hc. assert (EF : coef (nth n F []) c = noise_sample S u c mod q) by (unfold F, noise_family; rewrite nth_map_seq by exact Hj; rewrite coef_map_seq by exact Hc; reflexivity).
        rewrite EF, Zplus_mod_idemp_r. exact (N2 c Hc).
      + rewrite upd_nth_neq by lia. rewrite (H3 j Hj). destruct (j <? n)%nat eqn:E1, (j <? Datatypes.S n)%nat eqn:E2; try reflexivity.
        * apply Nat.ltb_lt in E1. apply Nat.ltb_ge in E2. lia.
        * apply Nat.ltb_ge in E1. apply Nat.ltb_lt in E2. lia. }
  destruct (G d (le_n d)) as (H1 & H2 & H3). destruct (fold_left _ (seq 0 d) _) as [mp p]. cbn [fst snd] in *. subst p. f_equal; [|f_equal; lia].
  assert (MT : masked d (tuple_add a F)) by (apply tuple_add_masked; assumption).
  apply (nth_ext _ _ [] []); [unfold mpoly, poly in *; rewrite (proj1 H1), (proj1 MT); reflexivity|]. intros j Hj. unfold mpoly, poly in *. rewrite (proj1 H1) in Hj. rewrite (H3 j Hj).
  replace (j <? d)%nat with true by (symmetry; apply Nat.ltb_lt; exact Hj). reflexivity.
Qed.
Lemma noise_run O fuel u kappa e row a tp pos m : 1 <= u <= 48 -> (2 ^ e <= 256)%nat -> (row < 256)%nat -> masked (2 ^ e) a ->
  let kb := kbytes kappa in let us := noise_family (hash_of O) (tape_of tp) u kb (2 ^ e) row pos in
  forall rep a' p' m', (rep <= 256)%nat -> mp_add_rep_noise O fuel u rep kappa (2 ^ e) row a (Prng tp pos) m = Ok (a', p', m') ->
  exists (rss : nat -> list (list Z)) (ms : nat -> mrng), ms 0%nat = m /\
  (forall i, (i < rep)%nat -> mask_tuple e (rss i) /\ drawn O fuel (2 ^ e) (mask_pairs e) (ms i) (rss i) (ms (S i))) /\
  forall n, (n <= rep)%nat -> mp_add_rep_noise O fuel u n kappa (2 ^ e) row a (Prng tp pos) m = Ok (noise_state e a us rss n, Prng tp (pos + n * 2 ^ e * kb), ms n).
Proof.
  intros Hu Hd Hrow Ha kb us. induction rep as [|rep IH]; intros a' p' m' Hrep E.
  - exists (fun _ => []), (fun _ => m). split; [reflexivity|]. split; [intros i Hi; lia|]. intros n Hn. assert (n = 0%nat) by lia. subst n.
    cbn [noise_state mp_add_rep_noise seq foldM Nat.mul]. rewrite Nat.add_0_r. reflexivity.
  - pose proof E as E0. unfold mp_add_rep_noise in E. rewrite seq_S, foldM_app in E. apply bind_ok_inv in E. destruct E as ([[a1 p1] m1] & E1 & E2).
    change (mp_add_rep_noise O fuel u rep kappa (2 ^ e) row a (Prng tp pos) m = Ok (a1, p1, m1)) in E1.
    destruct (IH a1 p1 m1 ltac:(lia) E1) as (rss & ms & M0 & HM & HN).
    pose proof (HN rep (le_n rep)) as X. rewrite E1 in X. apply ok_inj in X. apply pair_equal_spec in X. destruct X as [X Em]. apply pair_equal_spec in X. destruct X as [Ea Ep]. subst a1 p1 m1.
    cbn [foldM] in E2. rewrite Nat.add_0_l in E2. pose proof (noise_shares_exact O u kappa (2 ^ e) row rep _ tp pos Hu Hd Hrow ltac:(lia) (noise_state_masked e a us rss rep Ha)) as NE. fold kb in NE. unfold mpoly, poly in *. rewrite NE in E2. clear NE.
    apply bind_ok_inv in E2. destruct E2 as ([[a2 p2] m2] & E2 & E3). apply ok_inj in E3. apply pair_equal_spec in E3. destruct E3 as [E3 ->]. apply pair_equal_spec in E3. destruct E3 as [-> ->].
    apply bind_ok_inv in E2. destruct E2 as ([z g1] & ER & E2). apply ok_inj in E2. apply pair_equal_spec in E2. destruct E2 as [E2 ->]. apply pair_equal_spec in E2. destruct E2 as [-> <-].
    fold kb in ER, E0. change (noise_family _ _ _ _ _ _ _ rep) with (us rep) in ER.
    destruct (refresh_masks O fuel e _ _ _ _ (tuple_add_masked (2 ^ e) _ _ (noise_state_masked e a us rss rep Ha) (noise_family_masked _ _ _ _ _ _ _ rep)) ER) as (rs & Mrs & Dr & Ez).
    exists (fun i => if (i =? rep)%nat then rs else rss i), (fun i => if (i <=? rep)%nat then ms i else m').
    assert (EX : forall n, (n <= rep)%nat -> noise_state e a us (fun i => if (i =? rep)%nat then rs else rss i) n = noise_state e a us rss n).
    { intros n Hn. apply noise_state_ext. intros i Hi. split; [reflexivity|]. replace (i =? rep)%nat with false by (symmetry; apply Nat.eqb_neq; lia). reflexivity. }
    split; [exact M0|]. split.
    + intros i Hi. destruct (Nat.eqb_spec i rep) as [->|N].
      * replace (S rep <=? rep)%nat with false by (symmetry; apply Nat.leb_gt; lia). rewrite Nat.leb_refl. split; assumption.
      * replace (S i <=? rep)%nat with true by (symmetry; apply Nat.leb_le; lia). replace (i <=? rep)%nat with true by (symmetry; apply Nat.leb_le; lia). apply HM. lia.
    + intros n Hn. destruct (n <=? rep)%nat eqn:L.
      * apply Nat.leb_le in L. rewrite (EX n L). apply HN. exact L.
      * apply Nat.leb_gt in L. assert (n = S rep) by lia. subst n. rewrite E0. cbn [noise_state]. rewrite (EX rep (le_n rep)), Nat.eqb_refl. change (us rep) with (noise_family (hash_of O) (tape_of tp) u kb (2 ^ e) row pos rep). rewrite <- Ez. reflexivity.
Qed.
