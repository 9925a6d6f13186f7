(* How often the uniform sampler and the challenge sampler need many candidates. *)
From Coq Require Import ZArith Lia Bool List Arith.
From Verif Require Import ModelBase ModelField ModelUtils ModelPoly ModelVec ModelSerial ModelScheme.
From Verif Require Import Spec SpecScheme SpecSig SpecVerify.
From Verif Require Import FieldProofs ArithLemmas BytesProofs SampleProofs SampleLemmas ParamProofs KeyLemmas SigDec2 SigLemmas NormProofs VerifyProofs HashExact UniformProofs CountProofs.
Import ListNotations.
Open Scope Z_scope.
Ltac Zify.zify_post_hook ::= idtac.

Definition all_bytes : list Z := map Z.of_nat (seq 0 256).
Lemma in_bytes x : In x all_bytes <-> is_byte x.
Proof.
  unfold all_bytes, is_byte. rewrite in_map_iff. split.
  - intros (n & <- & H). apply in_seq in H. lia.
  - intros H. exists (Z.to_nat x). split; [lia|]. apply in_seq. lia.
Qed.
Definition chunks (m : nat) : list (list Z) := seqs all_bytes m.
Lemma in_chunks m u : In u (chunks m) <-> length u = m /\ Forall is_byte u.
Proof.
  unfold chunks. rewrite in_seqs. split; intros [L F]; (split; [exact L|]); refine (Forall_impl _ _ F); intros x; apply in_bytes.
Qed.
Lemma zl_flat_map_eq {A B} (f : A -> list B) c l : (forall x, In x l -> zl (f x) = c) -> zl (flat_map f l) = zl l * c.
Proof.
  induction l as [|x l IH]; intros H; [cbn; lia|]. cbn [flat_map]. rewrite zl_app. pose proof (H x (or_introl eq_refl)).
  rewrite (IH (fun y Hy => H y (or_intror Hy))). replace (zl (x :: l)) with (zl l + 1) by (unfold zl; cbn [length]; lia). lia.
Qed.
Lemma zl_seqs_eq {X} (al : list X) n : zl (seqs al n) = zl al ^ Z.of_nat n.
Proof.
  induction n as [|n IH]; [reflexivity|]. cbn [seqs]. rewrite Nat2Z.inj_succ, Z.pow_succ_r by lia.
  apply zl_flat_map_eq. intros x _. rewrite zl_map. exact IH.
Qed.
Lemma zl_chunks m : zl (chunks m) = 256 ^ Z.of_nat m.
Proof. unfold chunks. rewrite zl_seqs_eq. assert (E : zl all_bytes = 256) by (unfold all_bytes; rewrite zl_map; unfold zl; rewrite seq_length; reflexivity). rewrite E. reflexivity. Qed.
Lemma NoDup_app_i {A} (l m : list A) : NoDup l -> NoDup m -> (forall x, In x l -> In x m -> False) -> NoDup (l ++ m).
Proof.
  intros Nl Nm H. induction Nl as [|x l Hx Nl IH]; [exact Nm|]. cbn [app]. constructor.
  - intros X. apply in_app_or in X. destruct X as [X|X]; [exact (Hx X)|]. exact (H x (or_introl eq_refl) X).
  - apply IH. intros y Hy. apply H. right. exact Hy.
Qed.
Lemma NoDup_map_in {A B} (f : A -> B) l : (forall x y, In x l -> In y l -> f x = f y -> x = y) -> NoDup l -> NoDup (map f l).
Proof.
  intros H N. induction N as [|x l Hx N IH]; [constructor|]. cbn [map]. constructor.
  - intros X. apply in_map_iff in X. destruct X as (y & E & Hy). apply Hx. rewrite <- (H y x (or_intror Hy) (or_introl eq_refl) E). exact Hy.
  - apply IH. intros a b Ha Hb. apply H; right; assumption.
Qed.
Lemma NoDup_seqs {X} (al : list X) n : NoDup al -> NoDup (seqs al n).
Proof.
  intros N. induction n as [|n IH]; [constructor; [intros []|constructor]|]. cbn [seqs]. revert IH. generalize (seqs al n). intros L NL.
  induction N as [|x l Hx N IHl]; [constructor|]. cbn [flat_map]. apply NoDup_app_i.
  - apply NoDup_map_in; [|exact NL]. intros y z _ _ E. injection E as E. exact E.
  - exact IHl.
  - intros y H1 H2. apply in_map_iff in H1. destruct H1 as (u & <- & _). apply in_flat_map in H2. destruct H2 as (x' & Hx' & H2).
    apply in_map_iff in H2. destruct H2 as (u' & E & _). injection E as -> _. exact (Hx Hx').
Qed.
Lemma NoDup_bytes : NoDup all_bytes.
Proof. apply NoDup_map_in; [intros x y _ _; apply Nat2Z.inj|apply seq_NoDup]. Qed.
Lemma NoDup_chunks m : NoDup (chunks m).
Proof. apply NoDup_seqs, NoDup_bytes. Qed.
(* at most as many chunks satisfy P as there are values in a list of all their values *)
Lemma zl_filter_chunks m P vals : (forall u, length u = m -> Forall is_byte u -> P u = true -> In (le_value u) vals) -> zl (filter P (chunks m)) <= zl vals.
Proof.
  intros H. rewrite <- (zl_map le_value). unfold zl. apply inj_le. apply NoDup_incl_length.
  - apply NoDup_map_in; [|apply NoDup_filter, NoDup_chunks]. intros x y Hx Hy E. apply filter_In in Hx, Hy. destruct Hx as [Hx _]. destruct Hy as [Hy _].
    apply in_chunks in Hx, Hy. apply le_value_inj; [apply Hx|apply Hy|rewrite (proj1 Hx), (proj1 Hy); reflexivity|exact E].
  - intros v Hv. apply in_map_iff in Hv. destruct Hv as (u & <- & Hu). apply filter_In in Hu. destruct Hu as [Hu HP]. apply in_chunks in Hu.
    apply H; [apply Hu|apply Hu|exact HP].
Qed.
(* integers lo, ..., lo + n - 1 *)
Definition zrange (lo n : Z) : list Z := map (fun i => lo + Z.of_nat i) (seq 0 (Z.to_nat n)).
Lemma zl_zrange lo n : 0 <= n -> zl (zrange lo n) = n.
Proof. intros H. unfold zrange. rewrite zl_map. unfold zl. rewrite seq_length. apply Z2Nat.id, H. Qed.
Lemma in_zrange lo n x : lo <= x < lo + n -> In x (zrange lo n).
Proof. intros H. unfold zrange. apply in_map_iff. exists (Z.to_nat (x - lo)). split; [lia|]. apply in_seq. lia. Qed.
Global Opaque chunks.
(* ---------- windows ---------- *)
Definition chunk (S : nat -> Z) (m t : nat) : list Z := stream_bytes S (m * t) m.
Lemma stream_cat S a : forall n m, stream_bytes S a (n + m) = stream_bytes S a n ++ stream_bytes S (a + n) m.
Proof. intros n m. unfold stream_bytes. rewrite seq_app, map_app. reflexivity. Qed.
Lemma window_chunks S m n : stream_bytes S 0 (n * m) = concat (map (chunk S m) (seq 0 n)).
Proof.
  induction n as [|n IH]; [reflexivity|]. rewrite seq_S, map_app, concat_app, <- IH. cbn [map concat Nat.add]. rewrite app_nil_r.
  replace (Datatypes.S n * m)%nat with (n * m + m)%nat by (cbn [Nat.mul]; lia). rewrite stream_cat. unfold chunk. rewrite (Nat.mul_comm m n). reflexivity.
Qed.
Lemma concat_bytes m : forall s : list (list Z), Forall (fun u => In u (chunks m)) s -> Forall is_byte (concat s) /\ length (concat s) = (length s * m)%nat.
Proof.
  induction 1 as [|u s Hu F IH]; [split; [constructor|reflexivity]|]. apply in_chunks in Hu. cbn [concat]. destruct IH as [IF IL]. split.
  - apply Forall_app. split; [apply Hu|exact IF].
  - rewrite app_length, IL, (proj1 Hu). cbn [length Nat.mul]. lia.
Qed.
Section Window.
  Variables (m : nat) (r : list (list Z) -> list (list Z)) (cnt : list (list Z) -> nat) (T b : nat) (R : Z).
  Hypothesis Hmono : forall pre u, (cnt pre <= cnt (pre ++ u))%nat.
  Hypothesis Hstuck : forall pre u, Forall (fun x => In x (chunks m)) u -> cnt (pre ++ u) = cnt pre -> (cnt pre < T)%nat -> Forall (fun x => In x (r pre)) u.
  Hypothesis HR : forall pre, zl (r pre) <= R.
  Hypothesis Hr : forall pre x, In x (r pre) -> In x (chunks m).
  Lemma window_tail : exists bads : list (list Z), NoDup bads /\ Forall (fun w => Forall is_byte w /\ length w = (T * b * m)%nat) bads /\
    zl bads * (256 ^ Z.of_nat m) ^ Z.of_nat b <= Z.of_nat T * R ^ Z.of_nat b * (256 ^ Z.of_nat m) ^ Z.of_nat (T * b) /\
    forall S, (forall i, is_byte (S i)) -> (cnt (map (chunk S m) (seq 0 (T * b))) < T)%nat -> In (stream_bytes S 0 (T * b * m)) bads.
  Proof.
    exists (nodup (list_eq_dec Z.eq_dec) (map (@concat Z) (bad (chunks m) r b [] T))). split; [apply NoDup_nodup|]. split; [|split].
    - apply Forall_forall. intros w Hw. apply nodup_In, in_map_iff in Hw. destruct Hw as (s & <- & Hs).
      destruct (bad_sound _ _ _ Hr _ _ _ Hs) as [L F]. destruct (concat_bytes m s F) as [H1 H2]. split; [exact H1|]. rewrite H2, L. reflexivity.
    - assert (L : zl (nodup (list_eq_dec Z.eq_dec) (map (@concat Z) (bad (chunks m) r b [] T))) <= zl (bad (chunks m) r b [] T)).
      { rewrite <- (zl_map (@concat Z)). unfold zl. apply inj_le, NoDup_incl_length; [apply NoDup_nodup|]. intros x Hx. apply nodup_In in Hx. exact Hx. }
      assert (C : zl (bad (chunks m) r b [] T) * zl (chunks m) ^ Z.of_nat b <= Z.of_nat T * R ^ Z.of_nat b * zl (chunks m) ^ Z.of_nat (T * b)) by (apply bad_count; exact HR). rewrite zl_chunks in C.
      eapply Z.le_trans; [apply Z.mul_le_mono_nonneg_r; [apply Z.pow_nonneg, Z.pow_nonneg; lia|exact L]|exact C].
    - intros S HS HT. apply nodup_In. rewrite window_chunks. apply in_map. eapply bad_complete; try eassumption.
      + rewrite map_length. apply seq_length.
      + apply Forall_map, Forall_forall. intros t _. apply in_chunks. unfold chunk, stream_bytes. split; [rewrite map_length; apply seq_length|].
        apply Forall_map, Forall_forall. intros i _. apply HS.
      + lia.
  Qed.
End Window.

(* ---------- the uniform sampler ---------- *)
Definition ok49 (u : list Z) : bool := le_value u mod 2 ^ 49 <? q.
Definition cnt49 (s : list (list Z)) : nat := length (filter ok49 s).
Lemma cnt49_stream S n : cnt49 (map (chunk S 7) (seq 0 n)) = length (accepted49 S n).
Proof.
  unfold cnt49, accepted49. induction (seq 0 n) as [|t l IH]; [reflexivity|]. cbn [map filter].
  change (ok49 (chunk S 7 t)) with (candidate49 S t <? q). destruct (candidate49 S t <? q); cbn [length]; rewrite IH; reflexivity.
Qed.
Lemma rejected_count : zl (filter (fun u => negb (ok49 u)) (chunks 7)) <= 2 ^ 7 * (2 ^ 49 - q).
Proof.
  set (vals := flat_map (fun a => zrange (a * 2 ^ 49 + q) (2 ^ 49 - q)) (zrange 0 (2 ^ 7))).
  assert (HM : 0 <= 2 ^ 49 - q) by (rewrite q_Q, Q_val; discriminate).
  assert (E : zl vals = 2 ^ 7 * (2 ^ 49 - q)).
  { unfold vals. rewrite (zl_flat_map_eq _ (2 ^ 49 - q)); [rewrite zl_zrange by discriminate; reflexivity|]. intros a _. apply zl_zrange, HM. }
  rewrite <- E. apply zl_filter_chunks. intros u L F HP. unfold ok49 in HP. apply negb_true_iff, Z.ltb_ge in HP.
  pose proof (le_value_range u F) as B. unfold zlen in B. rewrite L in B. change (256 ^ Z.of_nat 7) with (2 ^ 49 * 2 ^ 7) in B.
  unfold vals. apply in_flat_map. exists (le_value u / 2 ^ 49).
  pose proof (Z.div_mod (le_value u) (2 ^ 49) ltac:(discriminate)) as D. pose proof (Z.mod_pos_bound (le_value u) (2 ^ 49) eq_refl) as Bm. split.
  - apply in_zrange. split; [apply Z.div_pos; [apply B|reflexivity]|]. rewrite Z.add_0_l. apply Z.div_lt_upper_bound; [reflexivity|apply B].
  - apply in_zrange. revert D Bm HP. generalize (le_value u / 2 ^ 49) (le_value u mod 2 ^ 49) (le_value u). generalize (2 ^ 49) q. clear. intros M q0 a y v D Bm HP. lia.
Qed.
Definition rej49 : list (list Z) := filter (fun u => negb (ok49 u)) (chunks 7).
Lemma in_rej49 x : In x rej49 <-> In x (chunks 7) /\ ok49 x = false.
Proof. unfold rej49. rewrite filter_In, negb_true_iff. reflexivity. Qed.
Lemma zl_rej49 : zl rej49 <= 2 ^ 7 * (2 ^ 49 - q). Proof. exact rejected_count. Qed.
Global Opaque rej49.
Lemma uniform_tail b : exists bads : list (list Z), NoDup bads /\ Forall (fun w => Forall is_byte w /\ length w = (512 * b * 7)%nat) bads /\
  zl bads * (2 ^ 49) ^ Z.of_nat b <= 512 * (2 ^ 49 - q) ^ Z.of_nat b * 256 ^ Z.of_nat (512 * b * 7) /\
  forall O fuel hdr seed, (512 * b <= fuel)%nat -> sampleQ O fuel hdr seed = OutOfFuel ->
    In (stream_bytes (hash_of O (hdr ++ seed)) 0 (512 * b * 7)) bads.
Proof.
  destruct (window_tail 7 (fun _ => rej49) cnt49 512 b (2 ^ 7 * (2 ^ 49 - q))) as (bads & H1 & H2 & H3 & H4).
  - intros pre u. unfold cnt49. rewrite filter_app, app_length. lia.
  - intros pre u F E _. unfold cnt49 in E. rewrite filter_app, app_length in E. assert (Z0 : length (filter ok49 u) = 0%nat) by lia. clear E.
    induction F as [|x u Hx F IH]; [constructor|]. cbn [filter] in Z0. destruct (ok49 x) eqn:Ex; [discriminate Z0|]. constructor; [|apply IH, Z0].
    exact (proj2 (in_rej49 x) (conj Hx Ex)).
  - intros _. exact zl_rej49.
  - intros _ x Hx. exact (proj1 (proj1 (in_rej49 x) Hx)).
  - exists bads. split; [exact H1|]. split; [exact H2|]. split.
    + assert (P7 : 0 < (2 ^ 7) ^ Z.of_nat b) by (apply Z.pow_pos_nonneg; lia).
      apply (Z.mul_le_mono_pos_r _ _ _ P7). change (256 ^ Z.of_nat 7) with (2 ^ 49 * 2 ^ 7) in H3. rewrite (Z.pow_mul_l (2 ^ 49) (2 ^ 7) (Z.of_nat b)), (Z.pow_mul_l (2 ^ 7)) in H3.
      assert (E : (2 ^ 49 * 2 ^ 7) ^ Z.of_nat (512 * b) = 256 ^ Z.of_nat (512 * b * 7)).
      { change (2 ^ 49 * 2 ^ 7) with (256 ^ Z.of_nat 7). rewrite <- Z.pow_mul_r by lia. f_equal. rewrite <- Nat2Z.inj_mul. f_equal. lia. }
      rewrite E in H3. change (Z.of_nat 512) with 512 in H3.
      revert H3. generalize ((2 ^ 7) ^ Z.of_nat b) ((2 ^ 49) ^ Z.of_nat b) ((2 ^ 49 - q) ^ Z.of_nat b) (256 ^ Z.of_nat (512 * b * 7)) (zl bads). clear.
      intros x y z w n H. replace (n * y * x) with (n * (y * x)) by ring. replace (512 * z * w * x) with (512 * (x * z) * w) by ring. exact H.
    + intros O fuel hdr seed Hf E. apply H4; [apply hash_byte_stream|]. rewrite cnt49_stream. rewrite sampleQ_eq in E. unfold take512 in E.
      destruct (512 <=? length (accepted49 (hash_of O (hdr ++ seed)) fuel))%nat eqn:El; [discriminate E|]. apply Nat.leb_gt in El.
      eapply Nat.le_lt_trans; [|exact El]. clear - Hf. unfold accepted49. replace fuel with (512 * b + (fuel - 512 * b))%nat by lia.
      rewrite seq_app, map_app, filter_app, app_length. lia.
Qed.

(* ---------- the challenge sampler ---------- *)
Definition dstep (s : list nat) (p : nat) : list nat := if existsb (Nat.eqb p) s then s else s ++ [p].
Lemma dstep_grows l : forall s, incl s (fold_left dstep l s) /\ (length s <= length (fold_left dstep l s))%nat.
Proof.
  induction l as [|p l IH]; intros s; [split; [intros x H; exact H|apply le_n]|]. cbn [fold_left]. destruct (IH (dstep s p)) as [H1 H2].
  assert (G : incl s (dstep s p) /\ (length s <= length (dstep s p))%nat).
  { unfold dstep. destruct (existsb _ _); [split; [intros x H; exact H|apply le_n]|]. split; [intros x H; apply in_or_app; left; exact H|rewrite app_length; lia]. }
  split; [intros x H; apply H1, G, H|]. destruct G as [_ G]. lia.
Qed.
Lemma dstep_stuck l : forall s, length (fold_left dstep l s) = length s -> incl l s.
Proof.
  induction l as [|p l IH]; intros s E; [intros x []|]. cbn [fold_left] in E. pose proof (proj2 (dstep_grows l (dstep s p))) as G.
  unfold dstep in *. destruct (existsb (Nat.eqb p) s) eqn:X.
  - intros x [<-|H]; [|apply IH; assumption]. apply existsb_exists in X. destruct X as (y & Hy & Ey). apply Nat.eqb_eq in Ey. subst y. exact Hy.
  - rewrite app_length in G. cbn [length] in G. lia.
Qed.
Definition pos16 (u : list Z) : nat := Z.to_nat ((le_value u / 2) mod 512).
Definition seen (s : list (list Z)) : list nat := distinct (map pos16 s).
Definition cnt16 (s : list (list Z)) : nat := length (seen s).
Lemma cnt16_stream S n : cnt16 (map (chunk S 2) (seq 0 n)) = length (distinct (map (chal_pos S) (seq 0 n))).
Proof. unfold cnt16, seen. rewrite map_map. reflexivity. Qed.
Definition hit (D : list nat) (u : list Z) : bool := existsb (Nat.eqb (pos16 u)) D.
Lemma hits_count D : zl (filter (hit D) (chunks 2)) <= 2 ^ 7 * zl D.
Proof.
  set (vals := flat_map (fun p => flat_map (fun a => zrange (2 * (a * 512 + Z.of_nat p)) 2) (zrange 0 64)) D).
  assert (E : zl vals = zl D * 128).
  { unfold vals. apply zl_flat_map_eq. intros p _. rewrite (zl_flat_map_eq _ 2); [rewrite zl_zrange by discriminate; reflexivity|].
    intros a _. apply zl_zrange. discriminate. }
  rewrite (Z.mul_comm (2 ^ 7)). change (2 ^ 7) with 128. rewrite <- E. apply zl_filter_chunks. intros u L F HP.
  unfold hit in HP. apply existsb_exists in HP. destruct HP as (p & Hp & Ep). apply Nat.eqb_eq in Ep. subst p.
  pose proof (le_value_range u F) as B. unfold zlen in B. rewrite L in B. change (256 ^ Z.of_nat 2) with 65536 in B.
  unfold vals. apply in_flat_map. exists (pos16 u). split; [exact Hp|]. apply in_flat_map. exists (le_value u / 2 / 512). unfold pos16.
  rewrite Z2Nat.id by (apply Z.mod_pos_bound; reflexivity). revert B. generalize (le_value u). clear. intros v B.
  pose proof (Z.div_mod v 2 ltac:(lia)) as D1. pose proof (Z.mod_pos_bound v 2 eq_refl) as B1.
  pose proof (Z.div_mod (v / 2) 512 ltac:(lia)) as D2. pose proof (Z.mod_pos_bound (v / 2) 512 eq_refl) as B2.
  split; apply in_zrange; revert D1 B1 D2 B2; generalize (v / 2 / 512) ((v / 2) mod 512) (v mod 2); generalize (v / 2); intros; lia.
Qed.
Definition stuck16 (omega : nat) (pre : list (list Z)) : list (list Z) :=
  if (cnt16 pre <? omega)%nat then filter (hit (seen pre)) (chunks 2) else [].
Lemma in_stuck16 omega pre x : (cnt16 pre < omega)%nat -> In x (chunks 2) -> In (pos16 x) (seen pre) -> In x (stuck16 omega pre).
Proof.
  intros H Hx Hp. unfold stuck16. rewrite (proj2 (Nat.ltb_lt _ _) H). apply (proj2 (filter_In _ _ _)). split; [exact Hx|].
  unfold hit. apply existsb_exists. exists (pos16 x). split; [exact Hp|apply Nat.eqb_refl].
Qed.
Lemma stuck16_chunks omega pre x : In x (stuck16 omega pre) -> In x (chunks 2).
Proof. unfold stuck16. destruct (_ <? _)%nat; [|intros []]. intros H. exact (proj1 (proj1 (filter_In _ _ _) H)). Qed.
Lemma zl_stuck16 omega pre : (0 < omega)%nat -> zl (stuck16 omega pre) <= 2 ^ 7 * (Z.of_nat omega - 1).
Proof.
  intros Ho. unfold stuck16. destruct (cnt16 pre <? omega)%nat eqn:E; [|cbn [zl length]; change (zl (@nil (list Z))) with 0; lia].
  apply Nat.ltb_lt in E. eapply Z.le_trans; [apply hits_count|]. unfold cnt16 in E. unfold zl. lia.
Qed.
Global Opaque stuck16.
Lemma challenge_tail omega b : (0 < omega < 256)%nat ->
  exists bads : list (list Z), NoDup bads /\ Forall (fun w => Forall is_byte w /\ length w = (omega * b * 2)%nat) bads /\
  zl bads * 512 ^ Z.of_nat b <= Z.of_nat omega * (Z.of_nat omega - 1) ^ Z.of_nat b * 256 ^ Z.of_nat (omega * b * 2) /\
  forall O fuel c, (omega * b <= fuel)%nat -> chal_poly O fuel omega c = OutOfFuel ->
    In (stream_bytes (challenge_stream (hash_of O) omega c) 0 (omega * b * 2)) bads.
Proof.
  intros Ho. destruct (window_tail 2 (stuck16 omega) cnt16 omega b (2 ^ 7 * (Z.of_nat omega - 1))) as (bads & H1 & H2 & H3 & H4).
  - intros pre u. unfold cnt16, seen, distinct. rewrite map_app, fold_left_app. apply (dstep_grows (map pos16 u)).
  - intros pre u F E Hc. unfold cnt16 in E. unfold seen at 1, distinct in E. rewrite map_app, fold_left_app in E. apply (dstep_stuck (map pos16 u)) in E.
    apply Forall_forall. intros x Hx. rewrite Forall_forall in F. apply in_stuck16; [exact Hc|exact (F x Hx)|]. apply E, in_map, Hx.
  - intros pre. apply zl_stuck16. lia.
  - intros pre x. apply stuck16_chunks.
  - exists bads. split; [exact H1|]. split; [exact H2|]. split.
    + assert (P7 : 0 < (2 ^ 7) ^ Z.of_nat b) by (apply Z.pow_pos_nonneg; lia).
      apply (Z.mul_le_mono_pos_r _ _ _ P7). change (256 ^ Z.of_nat 2) with (512 * 2 ^ 7) in H3. rewrite (Z.pow_mul_l 512 (2 ^ 7) (Z.of_nat b)), (Z.pow_mul_l (2 ^ 7)) in H3.
      assert (E : (512 * 2 ^ 7) ^ Z.of_nat (omega * b) = 256 ^ Z.of_nat (omega * b * 2)).
      { change (512 * 2 ^ 7) with (256 ^ Z.of_nat 2). rewrite <- Z.pow_mul_r by lia. f_equal. lia. }
      rewrite E in H3.
      revert H3. generalize ((2 ^ 7) ^ Z.of_nat b) (512 ^ Z.of_nat b) ((Z.of_nat omega - 1) ^ Z.of_nat b) (256 ^ Z.of_nat (omega * b * 2)) (zl bads). generalize (Z.of_nat omega). clear.
      intros o x y z w n H. replace (n * y * x) with (n * (y * x)) by ring. replace (o * z * w * x) with (o * (x * z) * w) by ring. exact H.
    + intros O fuel c Hf E. apply H4; [apply hash_byte_stream|]. rewrite cnt16_stream.
      destruct (challenge_facts O fuel omega c (proj2 Ho)) as (_ & _ & H & _). apply H in E. clear H.
      eapply Nat.le_lt_trans; [|exact E]. exact (distinct_count_mono (challenge_stream (hash_of O) omega c) _ _ Hf).
Qed.

(* ---------- verification ---------- *)
Lemma foldM_out {St A} (f : St -> A -> res St) l : forall s, foldM f l s = OutOfFuel -> exists s' a, In a l /\ f s' a = OutOfFuel.
Proof.
  induction l as [|a l IH]; intros s H; [discriminate H|]. cbn [foldM] in H. destruct (f s a) as [s1| |] eqn:E; cbn [bind] in H.
  - destruct (IH s1 H) as (s' & x & Hx & Ex). exists s', x. split; [right; exact Hx|exact Ex].
  - discriminate H.
  - exists s, a. split; [left; reflexivity|exact E].
Qed.
Lemma expandA_out O fuel k l seed : (k <= 256)%nat -> (l <= 256)%nat -> expandA O fuel k l seed = OutOfFuel ->
  exists r c, (r < k)%nat /\ (c < l)%nat /\ sampleQ O fuel (expandA_hdr r c) seed = OutOfFuel.
Proof.
  intros Hk Hl H. unfold expandA in H. apply foldM_out in H. destruct H as (A & r & Hr & H). apply foldM_out in H. destruct H as (A' & c & Hc & H).
  apply in_seq in Hr, Hc. exists r, c. split; [lia|]. split; [lia|]. destruct (sampleQ O fuel (expandA_hdr r c) seed); [discriminate H|discriminate H|reflexivity].
Qed.
Lemma matrix_stream_hdr O seed r c : (r < 256)%nat -> (c < 256)%nat -> matrix_stream (hash_of O) seed r c = hash_of O (expandA_hdr r c ++ seed).
Proof. intros Hr Hc. unfold matrix_stream, expandA_hdr. rewrite !Z.mod_small by lia. reflexivity. Qed.
Lemma verify_out O fuel P pk msg sig : params_ok P = true ->
  valid_public (Z.to_nat (p_kappa P / 8)) (p_k P) (pk_seed pk) (pk_t pk) -> Forall is_byte sig -> zlen sig = p_siglen P ->
  verify O fuel P pk msg sig = OutOfFuel ->
  (exists r c, (r < p_k P)%nat /\ (c < p_l P)%nat /\ sampleQ O fuel (expandA_hdr r c) (pk_seed pk) = OutOfFuel) \/
  chal_poly O fuel (p_omega P) (firstn (Z.to_nat (2 * p_kappa P / 8)) sig) = OutOfFuel.
Proof.
  intros HP V Hb Ls E. destruct (params_facts P HP) as (kb & e & F). destruct (sig_len_cl P HP) as [Hcl Ekb].
  pose proof (pf_k _ _ _ F) as Hk. pose proof (pf_l _ _ _ F) as Hl.
  pose proof (decode_sound (2 * p_kappa P / 8) (p_k P * 512) (p_l P * 512) sig Hb ltac:(lia)) as D.
  unfold verify, sig_from_bytes in E. change PN with 512%nat in E.
  destruct (decode_sig (2 * p_kappa P / 8) (p_k P * 512) (p_l P * 512) sig) as [[[[c h] z]|]| |] eqn:ED; cbn [bind] in E; [|discriminate E|discriminate E|destruct D].
  apply decode_prefix in ED. destruct D as (Lc & Bc & Lh & Lz & W & _). destruct (windows_small h z W) as [Sh Sz].
  destruct (check_bounds_params P (Sig c h z) HP Lh Lz Sh Sz) as (ok & Eb & _). rewrite Eb in E. cbn [bind] in E.
  destruct ok; cbn [negb] in E; [|discriminate E].
  destruct (bind_msg_ok O P pk msg HP V) as (pkb & _ & _ & _ & Ebm). rewrite Ebm in E. cbn [bind sg_c] in E.
  destruct (expandA O fuel (p_k P) (p_l P) (pk_seed pk)) as [A| |] eqn:EA; cbn [bind] in E.
  - right. rewrite <- ED. destruct (chal_poly O fuel (p_omega P) c) as [cp| |]; cbn [bind] in E; [discriminate E|discriminate E|reflexivity].
  - discriminate E.
  - left. apply expandA_out in EA; [exact EA|lia|lia].
Qed.
