(* Noise sampling: range, exact value of the noise added by add_rep_noise. *)
From Coq Require Import ZArith Lia Bool List Arith.
From Coq Require Import ZifyBool ZifyNat.
From Verif Require Import ModelBase ModelU128 ModelField ModelUtils ModelPoly ModelVec.
From Verif Require Import Spec.
From Verif Require Import Words FieldProofs ArithLemmas BytesProofs PolyProofs NttLayers Cong NttEval NttBounds MaskedProofs LinProofs SampleProofs.
Import ListNotations.
Open Scope Z_scope.
Ltac Zify.zify_post_hook ::= idtac.

Lemma land_pow2 w k : 0 <= k -> Z.land w (2 ^ k) = ((w / 2 ^ k) mod 2) * 2 ^ k.
Proof.
  intros Hk. rewrite <- Z.shiftl_mul_pow2 by exact Hk. rewrite <- Z.shiftr_div_pow2 by exact Hk.
  replace (Z.shiftr w k mod 2) with (Z.land (Z.shiftr w k) 1) by (apply (land_mask _ 1); [lia|reflexivity]).
  apply Z.bits_inj'. intros n Hn. rewrite Z.land_spec, Z.pow2_bits_eqb, Z.shiftl_spec by lia.
  destruct (Z.eqb_spec k n) as [<-|Ne].
  - rewrite Z.sub_diag, Z.land_spec, Z.shiftr_spec by lia. rewrite Z.add_0_l. reflexivity.
  - rewrite andb_false_r. destruct (Z.ltb_spec n k) as [Lt|Ge].
    + symmetry. apply Z.testbit_neg_r. lia.
    + rewrite Z.land_spec. change 1 with (2 ^ 0). rewrite Z.pow2_bits_eqb by lia.
      replace (0 =? n - k) with false by lia. symmetry. apply andb_false_r.
Qed.
Lemma signed_bits_split u x : 1 <= u -> signed_bits u x = x mod 2 ^ (u - 1) - ((x / 2 ^ (u - 1)) mod 2) * 2 ^ (u - 1).
Proof.
  intros Hu. unfold signed_bits. cbv zeta.
  assert (HP : 2 ^ u = 2 ^ (u - 1) * 2) by (rewrite Z.mul_comm, <- Z.pow_succ_r by lia; f_equal; lia).
  rewrite HP. assert (P : 0 < 2 ^ (u - 1)) by (apply Z.pow_pos_nonneg; lia).
  set (h := 2 ^ (u - 1)) in *. clearbody h. rewrite Z.rem_mul_r by lia.
  pose proof (Z.mod_pos_bound x h P) as B1. pose proof (Z.mod_pos_bound (x / h) 2 eq_refl) as B2.
  set (a := x mod h) in *. set (b := (x / h) mod 2) in *. clearbody a b.
  assert (C : b = 0 \/ b = 1) by lia. destruct C as [->| ->].
  - replace (a + h * 0 <? h) with true by lia. lia.
  - replace (a + h * 1 <? h) with false by lia. lia.
Qed.
Lemma signed_bits_range u x : 1 <= u -> - 2 ^ (u - 1) <= signed_bits u x < 2 ^ (u - 1).
Proof.
  intros Hu. rewrite signed_bits_split by exact Hu.
  assert (P : 0 < 2 ^ (u - 1)) by (apply Z.pow_pos_nonneg; lia).
  set (h := 2 ^ (u - 1)) in *. clearbody h.
  pose proof (Z.mod_pos_bound x h P) as B1. pose proof (Z.mod_pos_bound (x / h) 2 eq_refl) as B2.
  assert (C : (x / h) mod 2 = 0 \/ (x / h) mod 2 = 1) by lia. destruct C as [->| ->]; lia.
Qed.
Lemma sampleU_coeff_eq u b : 1 <= u <= 63 -> Forall is_byte b -> (length b <= 8)%nat ->
  sampleU_coeff u b = signed_bits u (le_value b).
Proof.
  intros Hu Fb Lb. unfold sampleU_coeff. rewrite from_le_bytes_spec by exact Fb. rewrite firstn_all2 by exact Lb.
  set (w := le_value b). clearbody w.
  assert (P : 0 < 2 ^ (u - 1)) by (apply Z.pow_pos_nonneg; lia).
  assert (P2 : 2 ^ (u - 1) <= 2 ^ 62) by (apply Z.pow_le_mono_r; lia).
  assert (E : shl64 1 (u - 1) = 2 ^ (u - 1)).
  { rewrite shl64_spec by lia. rewrite Z.mul_1_l. apply Z.mod_small. split; [lia|].
    apply (Z.le_lt_trans _ _ _ P2). reflexivity. }
  rewrite E. rewrite land_pow2 by lia. rewrite (land_mask w (u - 1)) by (try reflexivity; lia).
  rewrite signed_bits_split by lia.
  set (h := 2 ^ (u - 1)) in *. clearbody h.
  pose proof (Z.mod_pos_bound w h P) as B1. pose proof (Z.mod_pos_bound (w / h) 2 eq_refl) as B2.
  change (2 ^ 62) with 4611686018427387904 in P2.
  rewrite !s64_small; [reflexivity| |].
  - assert (C : (w / h) mod 2 = 0 \/ (w / h) mod 2 = 1) by lia. unfold two63. destruct C as [->| ->]; lia.
  - unfold two63. lia.
Qed.
Lemma per_bounds u : 1 <= u <= 63 -> 1 <= (u + 7) / 8 <= 8.
Proof. intros H. split; [apply Z.div_le_lower_bound; lia|]. apply Z.lt_succ_r, Z.div_lt_upper_bound; lia. Qed.
Lemma sampleU_eq O u hdr sigma : 1 <= u <= 63 ->
  sampleU O u hdr sigma = map (noise_sample (hash_of O (hdr ++ sigma)) u) (seq 0 512).
Proof.
  intros Hu. unfold sampleU. rewrite squeeze_eq. cbn [xof_absorb xof_new xof_in xof_out app].
  change PN with 512%nat. apply map_ext_in. intros i Hi. apply in_seq in Hi.
  pose proof (per_bounds u Hu) as Hp. unfold noise_sample.
  set (per := Z.to_nat ((u + 7) / 8)) in *. assert (Hper : (1 <= per <= 8)%nat) by lia. clearbody per.
  rewrite stream_bytes_sub.
  - rewrite sampleU_coeff_eq; [reflexivity|exact Hu|apply hash_bytes|rewrite stream_bytes_length; lia].
  - assert ((i + 1) * per <= 512 * per)%nat by (apply Nat.mul_le_mono_r; lia). lia.
Qed.
Lemma noise_sample_range S u i : 1 <= u -> - 2 ^ (u - 1) <= noise_sample S u i < 2 ^ (u - 1).
Proof. apply signed_bits_range. Qed.

(* one noise addition *)
Lemma noise_coeff_eq raw f : canon raw -> - 2 ^ 48 <= f < 2 ^ 48 -> noise_coeff raw f = (raw + f) mod Q.
Proof.
  intros Hr Hf. unfold noise_coeff. change (2 ^ 48) with 281474976710656 in Hf. unfold canon in Hr.
  pose proof Q_val as QV. cbv zeta. rewrite (s64_small raw) by (unfold two63; lia).
  set (c := raw + f) in *. assert (Hc : - 281474976710656 <= c < 281474976710656 + Q) by lia.
  assert (HU : u64_of_s64 c = if c <? 0 then c + two64 else c).
  { unfold u64_of_s64, u64. destruct (c <? 0) eqn:E.
    - rewrite <- (Z_mod_plus_full c 1 two64), Z.mul_1_l. apply Z.mod_small. unfold two64 in *. lia.
    - apply Z.mod_small. unfold two64. lia. }
  destruct (c <? 0) eqn:E.
  - assert (M : neg64 (shr64 (u64_of_s64 c) 63) = two64 - 1).
    { rewrite HU, shr64_spec by lia. replace ((c + two64) / 2 ^ 63) with 1; [reflexivity|].
      change (2 ^ 63) with 9223372036854775808. apply Z.div_unique with (c + two64 - 9223372036854775808); unfold two64; lia. }
    rewrite M. unfold not64. replace (two64 - 1 - (two64 - 1)) with 0 by lia. rewrite Z.land_0_r.
    unfold ct_ge64. replace (Q <=? 0) with false by lia. rewrite Z.land_0_r.
    rewrite (land_mask Q 64 (two64 - 1)) by (try reflexivity; lia). rewrite Z.mod_small by (rewrite QV; split; [lia|reflexivity]).
    rewrite !s64_small by (unfold two63; lia). unfold u64_of_s64, u64.
    rewrite Z.mod_small by (unfold two64; lia).
    rewrite <- (Z_mod_plus_full c 1 Q). rewrite Z.mod_small by lia. lia.
  - assert (M : neg64 (shr64 (u64_of_s64 c) 63) = 0).
    { rewrite HU, shr64_spec by lia. rewrite Z.div_small; [reflexivity|]. change (2 ^ 63) with 9223372036854775808. lia. }
    rewrite M. unfold not64. rewrite Z.sub_0_r, Z.land_0_r.
    rewrite (land_mask (u64_of_s64 c) 64 (two64 - 1)) by (try reflexivity; lia).
    rewrite HU. rewrite Z.mod_small by (change (2 ^ 64) with 18446744073709551616; lia).
    unfold ct_ge64. destruct (Q <=? c) eqn:G.
    + rewrite (land_mask Q 64 (two64 - 1)) by (try reflexivity; lia). rewrite Z.mod_small by (rewrite QV; split; [lia|reflexivity]).
      rewrite !s64_small by (unfold two63; lia). unfold u64_of_s64, u64. rewrite Z.mod_small by (unfold two64; lia).
      apply Z.mod_unique with 1; lia.
    + rewrite Z.land_0_r. rewrite !s64_small by (unfold two63; lia). unfold u64_of_s64, u64.
      rewrite Z.mod_small by (unfold two64; lia). rewrite Z.mod_small by lia. lia.
Qed.
(* the signed 64-bit intermediate values of noise_coeff do not overflow *)
Lemma noise_coeff_range raw f : canon raw -> - 2 ^ 48 <= f < 2 ^ 48 -> - two63 <= raw + f < two63.
Proof. intros Hr Hf. change (2 ^ 48) with 281474976710656 in Hf. unfold canon, two63 in *. pose proof Q_val. lia. Qed.

Lemma Zsum_S n f : Zsum (S n) f = Zsum n f + f n. Proof. reflexivity. Qed.
Lemma noise_bound u n : 1 <= u -> u <= 48 -> - 2 ^ (u - 1) <= n < 2 ^ (u - 1) -> - 2 ^ 48 <= n < 2 ^ 48.
Proof. intros H1 H2 H. assert (2 ^ (u - 1) <= 2 ^ 48) by (apply Z.pow_le_mono_r; lia). lia. Qed.

(* one share of one repetition *)
Lemma noise_add_share u S p : 1 <= u <= 48 -> is_poly p ->
  is_poly (map2 noise_coeff p (map (noise_sample S u) (seq 0 512))) /\
  forall k, (k < 512)%nat -> coef (map2 noise_coeff p (map (noise_sample S u) (seq 0 512))) k == coef p k + noise_sample S u k.
Proof.
  intros Hu Hp.
  assert (L : length (map (noise_sample S u) (seq 0 512)) = 512%nat) by (rewrite map_length, seq_length; reflexivity).
  assert (Hn : forall i, - 2 ^ 48 <= noise_sample S u i < 2 ^ 48) by (intros i; apply (noise_bound u); [lia|lia|apply noise_sample_range; lia]).
  split.
  - split; [rewrite map2_length, L, (proj1 Hp); reflexivity|].
    apply (map2_Forall noise_coeff canon (fun f => - 2 ^ 48 <= f < 2 ^ 48) reduced).
    + intros x y Hx Hy. rewrite noise_coeff_eq by assumption. rewrite <- q_Q. apply reduced_mod.
    + destruct Hp as [_ F]. apply (Forall_impl canon) in F; [exact F|]. intros x. apply reduced_canon.
    + apply Forall_map, Forall_forall. intros i _. apply Hn.
  - intros k Hk. unfold coef. rewrite (map2_nth noise_coeff _ _ k 0 0) by (rewrite ?L, ?(proj1 Hp); lia).
    rewrite nth_map_seq by exact Hk.
    rewrite noise_coeff_eq; [rewrite <- q_Q; apply cg_mod|apply is_poly_coef, Hp|apply Hn].
Qed.

Section Noise.
Variable O : oracles.
Variable fuel : nat.
Variables (u kappa : Z) (d : nat).
Hypothesis Hu : 1 <= u <= 48.
Hypothesis Hd : (d <= 256)%nat.
Let kb := kbytes kappa.
Let H := hash_of O.

Lemma noise_shares_ok row i a tp pos : (row < 256)%nat -> (i < 256)%nat -> mp_ok d a ->
  let r := fold_left (noise_share O u kappa row i) (seq 0 d) (a, Prng tp pos) in
  mp_ok d (fst r) /\ snd r = Prng tp (pos + d * kb) /\
  forall k, (k < 512)%nat -> usum k (fst r) == usum k a +
    Zsum d (fun j => noise_sample (H ([117; Z.of_nat i; Z.of_nat row; Z.of_nat j; 0; 0; 0; 0] ++ stream_bytes (tape_of tp) (pos + j * kb) kb)) u k).
Proof.
  intros Hrow Hi Ha r. subst r.
  assert (G : forall n, (n <= d)%nat ->
    let r := fold_left (noise_share O u kappa row i) (seq 0 n) (a, Prng tp pos) in
    mp_ok d (fst r) /\ snd r = Prng tp (pos + n * kb) /\
    forall k, (k < 512)%nat -> usum k (fst r) == usum k a +
      Zsum n (fun j => noise_sample (H ([117; Z.of_nat i; Z.of_nat row; Z.of_nat j; 0; 0; 0; 0] ++ stream_bytes (tape_of tp) (pos + j * kb) kb)) u k)).
  { induction n as [|n IH]; intros Hn.
    - cbn [seq fold_left fst snd Zsum Nat.mul]. rewrite Nat.add_0_r. split; [exact Ha|]. split; [reflexivity|].
      intros k Hk. rewrite Z.add_0_r. reflexivity.
    - rewrite seq_S, fold_left_app. cbn [fold_left]. rewrite Nat.add_0_l.
      destruct (IH ltac:(lia)) as (H1 & H2 & H3). destruct (fold_left _ (seq 0 n) _) as [mp p]. cbn [fst snd] in *. subst p.
      unfold noise_share. rewrite prng_read_eq. cbn [tape ppos]. rewrite !Z.mod_small by lia.
      rewrite sampleU_eq by lia. fold kb.
      set (S := H ([117; Z.of_nat i; Z.of_nat row; Z.of_nat n; 0; 0; 0; 0] ++ stream_bytes (tape_of tp) (pos + n * kb) kb)).
      change (hash_of O _) with S. cbn [fst snd].
      destruct (noise_add_share u S (nth n mp []) Hu ltac:(apply (mp_ok_nth d); [exact H1|lia])) as [N1 N2].
      split; [apply mp_ok_upd; assumption|]. split; [f_equal; lia|].
      intros k Hk. rewrite usum_upd by (rewrite (proj1 H1); lia). rewrite N2, H3 by exact Hk.
      rewrite Zsum_S. fold S. apply cg_refl'. unfold mpoly, poly in *. ring. }
  apply (G d). lia.
Qed.
Lemma mp_add_rep_noise_ok rep row a tp pos m : (row < 256)%nat -> (rep <= 256)%nat -> pow2 d -> mp_ok d a ->
  wp (mp_add_rep_noise O fuel u rep kappa d row a (Prng tp pos) m)
     (fun r => mp_ok d (fst (fst r)) /\ snd (fst r) = Prng tp (pos + rep * d * kb) /\
        unmask (fst (fst r)) = ring_add (unmask a) (noise_poly H (tape_of tp) u kb rep d row pos)).
Proof.
  intros Hrow Hrep P2 Ha. unfold mp_add_rep_noise.
  apply (wp_mono _ (fun r => mp_ok d (fst (fst r)) /\ snd (fst r) = Prng tp (pos + (0 + rep) * d * kb) /\
     forall k, (k < 512)%nat -> usum k (fst (fst r)) == usum k a + Zsum (0 + rep) (fun i => Zsum d (fun j => noise_sample (noise_stream H (tape_of tp) kb d row pos i j) u k)))).
  - apply (wp_foldM_seq (fun n (r : mpoly * prng * mrng) => mp_ok d (fst (fst r)) /\ snd (fst r) = Prng tp (pos + n * d * kb) /\
     forall k, (k < 512)%nat -> usum k (fst (fst r)) == usum k a + Zsum n (fun i => Zsum d (fun j => noise_sample (noise_stream H (tape_of tp) kb d row pos i j) u k)))
      _ rep 0).
    + cbn [fst snd Zsum Nat.mul]. rewrite Nat.add_0_r. split; [exact Ha|]. split; [reflexivity|]. intros k Hk. rewrite Z.add_0_r. reflexivity.
    + intros [[mp p] m'] i Hi (H1 & H2 & H3). cbn [fst snd] in *. subst p.
      destruct (noise_shares_ok row i mp tp (pos + i * d * kb) Hrow ltac:(lia) H1) as (N1 & N2 & N3).
      destruct (fold_left _ (seq 0 d) _) as [mp' p']. cbn [fst snd] in *. subst p'.
      apply wp_bind. apply (wp_mono _ _ _ (mp_refresh_ok O fuel d mp' m' P2 N1)). intros [mp'' m''] [R1 R2]. cbn [fst snd wp] in *.
      split; [exact R1|]. split; [f_equal; lia|].
      intros k Hk. rewrite R2, N3, H3 by exact Hk. rewrite Nat.add_1_r, Zsum_S. apply cg_refl'.
      rewrite <- Z.add_assoc. f_equal. f_equal.
      apply Zsum_ext. intros j Hj. unfold noise_stream. replace (pos + i * d * kb + j * kb)%nat with (pos + (i * d + j) * kb)%nat by lia. reflexivity.
  - intros [[mp p] m'] (H1 & H2 & H3). cbn [fst snd Nat.add] in *. split; [exact H1|]. split; [exact H2|].
    apply poly_ext; [apply is_poly_length, unmask_poly|apply is_poly_length, ring_add_poly|].
    intros k Hk. rewrite coef_unmask, coef_add, coef_unmask by exact Hk. unfold noise_poly. rewrite coef_map by exact Hk.
    rewrite <- Zplus_mod. apply H3. exact Hk.
Qed.
Lemma pv_add_rep_noise_ok rep k v tp pos m : (k <= 256)%nat -> (rep <= 256)%nat -> pow2 d -> pv_ok k d v ->
  wp (pv_add_rep_noise O fuel u rep kappa d v (Prng tp pos) m)
     (fun r => pv_ok k d (fst (fst r)) /\ snd (fst r) = Prng tp (pos + k * (rep * d * kb)) /\
        map unmask (fst (fst r)) = map2 ring_add (map unmask v) (noise_vec H (tape_of tp) u kb rep d k pos)).
Proof.
  intros Hk Hrep P2 [Lv Fv]. unfold pv_add_rep_noise. replace (@length mpoly v) with k by (symmetry; exact Lv).
  pose (I := fun (n : nat) (r : pvec * prng * mrng) => pv_ok n d (fst (fst r)) /\ snd (fst r) = Prng tp (pos + n * (rep * d * kb)) /\
        map unmask (fst (fst r)) = map2 ring_add (firstn n (map unmask v)) (noise_vec H (tape_of tp) u kb rep d n pos)).
  apply (wp_mono _ (I (0 + k)%nat)).
  - apply (wp_foldM_seq I _ k 0).
    + unfold I. cbn [fst snd Nat.mul]. rewrite Nat.add_0_r. split; [split; [reflexivity|constructor]|]. split; reflexivity.
    + intros [[acc p] m'] r Hr ((La & Fa) & H2 & H3). cbn [fst snd] in *. subst p. apply wp_bind.
      assert (Hrow : mp_ok d (nth r v [])) by (rewrite Forall_forall in Fv; apply Fv, nth_In; lia).
      apply (wp_mono _ _ _ (mp_add_rep_noise_ok rep r (nth r v []) tp (pos + r * (rep * d * kb)) m' ltac:(lia) Hrep P2 Hrow)).
      intros [[z p'] m''] (N1 & N2 & N3). cbn [fst snd wp] in *. subst p'. unfold I. cbn [fst snd]. rewrite Nat.add_1_r.
      split; [split|split].
      * rewrite app_length. cbn [length]. unfold mpoly, poly in *. lia.
      * apply Forall_app. split; [exact Fa|constructor; [exact N1|constructor]].
      * f_equal. lia.
      * unfold pvec, mpoly, poly in *. rewrite map_app. cbn [map]. rewrite N3, H3. unfold noise_vec. rewrite seq_S, map_app. cbn [map]. rewrite Nat.add_0_l.
        rewrite (firstn_S_nth (unmask [])) by (rewrite map_length; lia). rewrite map_nth.
        assert (MA : forall (a b : list (list Z)) x y, length a = length b -> map2 ring_add (a ++ [x]) (b ++ [y]) = map2 ring_add a b ++ [ring_add x y]).
        { induction a as [|a0 a IH]; intros [|b0 b] x y LL; cbn [length] in LL; try lia; [reflexivity|]. cbn [app map2]. f_equal. apply IH. lia. }
        rewrite MA; [reflexivity|]. rewrite firstn_length, !map_length, seq_length. lia.
  - intros r (H1 & H2 & H3). cbn [Nat.add] in *. split; [exact H1|]. split; [exact H2|].
    rewrite H3, firstn_all2 by (rewrite map_length; lia). reflexivity.
Qed.
End Noise.

(* bound on the noise *)
Lemma Zsum_bound n f lo hi : (forall i, (i < n)%nat -> lo <= f i <= hi) -> Z.of_nat n * lo <= Zsum n f <= Z.of_nat n * hi.
Proof.
  induction n as [|n IH]; intros Hf; [cbn; lia|]. rewrite Zsum_S. specialize (Hf n ltac:(lia)) as H1.
  assert (IH' := IH ltac:(intros i Hi; apply Hf; lia)). rewrite Nat2Z.inj_succ. nia.
Qed.
Lemma noise_coef_bound H T u kb rep d row pos k : 1 <= u ->
  - (Z.of_nat rep * Z.of_nat d * 2 ^ (u - 1)) <= noise_coef H T u kb rep d row pos k <= Z.of_nat rep * Z.of_nat d * 2 ^ (u - 1).
Proof.
  intros Hu. unfold noise_coef.
  pose proof (Zsum_bound rep (fun i => Zsum d (fun j => noise_sample (noise_stream H T kb d row pos i j) u k))
    (- (Z.of_nat d * 2 ^ (u - 1))) (Z.of_nat d * 2 ^ (u - 1))) as B.
  assert (X : Z.of_nat rep * - (Z.of_nat d * 2 ^ (u - 1)) <= Zsum rep (fun i => Zsum d (fun j => noise_sample (noise_stream H T kb d row pos i j) u k)) <= Z.of_nat rep * (Z.of_nat d * 2 ^ (u - 1))).
  { apply B. intros i Hi. cbv beta.
    pose proof (Zsum_bound d (fun j => noise_sample (noise_stream H T kb d row pos i j) u k) (- 2 ^ (u - 1)) (2 ^ (u - 1))) as B2.
    rewrite <- Z.mul_opp_r. apply B2. intros j Hj. pose proof (noise_sample_range (noise_stream H T kb d row pos i j) u k Hu). lia. }
  clear B. rewrite <- Z.mul_opp_r in X |- *. rewrite <- Z.mul_assoc. lia.
Qed.
