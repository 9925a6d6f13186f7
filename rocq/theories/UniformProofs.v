(* Proofs for C50: rejection sampling is unbiased. *)
From Coq Require Import ZArith Lia List Bool.
From Coq Require Import ZifyBool ZifyNat Arith.
From Coq Require Strings.Byte.
From Verif Require Import ModelBase ModelU128 ModelField ModelUtils ModelPoly ModelVec Words FieldProofs ArithLemmas BytesProofs PolyProofs SampleProofs SigEnc.
From Verif Require Import Spec SpecUniform.
Import ListNotations.
Open Scope Z_scope.
Ltac Zify.zify_post_hook ::= idtac.

(* ---------- rewriting a stream chunk by chunk ---------- *)
Definition chunk (m : nat) (S : nat -> Z) (t : nat) : Z := le_value (stream_bytes S (m * t) m).
Definition rewrite_chunks (m : nat) (f : (nat -> Z) -> nat -> Z) (S : nat -> Z) (i : nat) : Z :=
  nth (i mod m) (le_bytes m (f S (i / m)%nat)) 0.

Lemma chunk_range m S t : byte_stream S -> 0 <= chunk m S t < 256 ^ Z.of_nat m.
Proof.
  intros H. unfold chunk. pose proof (le_value_range (stream_bytes S (m * t) m)) as R.
  assert (F : Forall is_byte (stream_bytes S (m * t) m)) by (apply Forall_map, Forall_forall; intros i _; apply H).
  specialize (R F).
  unfold zlen in R. rewrite stream_bytes_length in R. exact R.
Qed.
Lemma rewrite_byte m f S : (0 < m)%nat -> byte_stream (rewrite_chunks m f S).
Proof.
  intros Hm i. unfold rewrite_chunks. pose proof (le_bytes_byte m (f S (i / m)%nat)) as B.
  rewrite Forall_forall in B. apply B. apply nth_In. rewrite le_bytes_length. apply Nat.mod_upper_bound. lia.
Qed.
Lemma rewrite_bytes m f S t : (0 < m)%nat -> stream_bytes (rewrite_chunks m f S) (m * t) m = le_bytes m (f S t).
Proof.
  intros Hm. apply nth_ext_Z; [rewrite stream_bytes_length, le_bytes_length; reflexivity|].
  intros i Hi. rewrite stream_bytes_length in Hi. unfold stream_bytes.
  rewrite (nth_indep _ 0 (rewrite_chunks m f S 0%nat)) by (rewrite map_length, seq_length; exact Hi).
  rewrite map_nth, seq_nth by exact Hi. unfold rewrite_chunks.
  replace ((m * t + i) / m)%nat with t.
  - replace ((m * t + i) mod m)%nat with i; [reflexivity|].
    rewrite Nat.add_comm, Nat.mul_comm, Nat.mod_add, Nat.mod_small by lia. reflexivity.
  - rewrite Nat.mul_comm, Nat.div_add_l, Nat.div_small by lia. lia.
Qed.
Lemma rewrite_chunk m f S t : (0 < m)%nat -> 0 <= f S t < 256 ^ Z.of_nat m ->
  chunk m (rewrite_chunks m f S) t = f S t.
Proof.
  intros Hm H. unfold chunk. rewrite rewrite_bytes by exact Hm. rewrite le_bytes_value. apply Z.mod_small, H.
Qed.
Lemma chunk_ext m S S' t : (forall i, (i < m * (t + 1))%nat -> S i = S' i) -> chunk m S t = chunk m S' t.
Proof.
  intros H. unfold chunk, stream_bytes. f_equal. apply map_ext_in. intros i Hi. apply in_seq in Hi. apply H.
  rewrite Nat.mul_add_distr_l, Nat.mul_1_r. lia.
Qed.
Lemma chunks_inj m S S' : (0 < m)%nat -> byte_stream S -> byte_stream S' ->
  (forall t, chunk m S t = chunk m S' t) -> forall i, S i = S' i.
Proof.
  intros Hm B B' H i. set (t := (i / m)%nat). pose proof (H t) as E. unfold chunk in E.
  apply le_value_inj in E.
  - assert (X : nth (i mod m) (stream_bytes S (m * t) m) 0 = nth (i mod m) (stream_bytes S' (m * t) m) 0) by (rewrite E; reflexivity).
    assert (Hi : (i mod m < m)%nat) by (apply Nat.mod_upper_bound; lia).
    assert (D : (m * t + i mod m)%nat = i) by (unfold t; symmetry; apply Nat.div_mod; lia).
    unfold stream_bytes in X.
    rewrite (nth_indep _ 0 (S 0%nat)) in X by (rewrite map_length, seq_length; exact Hi).
    rewrite (nth_indep (map S' _) 0 (S' 0%nat)) in X by (rewrite map_length, seq_length; exact Hi).
    rewrite !map_nth, !seq_nth, D in X by exact Hi. exact X.
  - apply Forall_map, Forall_forall. intros j _. apply B.
  - apply Forall_map, Forall_forall. intros j _. apply B'.
  - rewrite !stream_bytes_length. reflexivity.
Qed.
Lemma rewrite_causal m f : (0 < m)%nat ->
  (forall t S S', (forall i, (i < m * (t + 1))%nat -> S i = S' i) -> f S t = f S' t) ->
  causal m (rewrite_chunks m f).
Proof.
  intros Hm H t S S' E i Hi. unfold rewrite_chunks. rewrite (H (i / m)%nat S S'); [reflexivity|].
  intros j Hj. apply E. assert (i / m < t)%nat by (apply Nat.div_lt_upper_bound; lia).
  assert (m * (i / m + 1) <= m * t)%nat by (apply Nat.mul_le_mono_l; lia). lia.
Qed.
Lemma rewrite_bijection m f g : (0 < m)%nat ->
  (forall t S S', (forall i, (i < m * (t + 1))%nat -> S i = S' i) -> f S t = f S' t) ->
  (forall t S S', (forall i, (i < m * (t + 1))%nat -> S i = S' i) -> g S t = g S' t) ->
  (forall S t, byte_stream S -> 0 <= f S t < 256 ^ Z.of_nat m) ->
  (forall S t, byte_stream S -> 0 <= g S t < 256 ^ Z.of_nat m) ->
  (forall S t, byte_stream S -> g (rewrite_chunks m f S) t = chunk m S t) ->
  (forall S t, byte_stream S -> f (rewrite_chunks m g S) t = chunk m S t) ->
  stream_bijection m (rewrite_chunks m f) (rewrite_chunks m g).
Proof.
  intros Hm Cf Cg Rf Rg Gf Fg. split; [|split].
  - apply rewrite_causal; assumption.
  - apply rewrite_causal; assumption.
  - intros S B. pose proof (rewrite_byte m f S Hm) as Bf. pose proof (rewrite_byte m g S Hm) as Bg.
    split; [exact Bf|]. split; [exact Bg|]. split.
    + apply (chunks_inj m); [exact Hm|apply rewrite_byte; exact Hm|exact B|].
      intros t. rewrite rewrite_chunk; [apply Gf; exact B|exact Hm|apply Rg; exact Bf].
    + apply (chunks_inj m); [exact Hm|apply rewrite_byte; exact Hm|exact B|].
      intros t. rewrite rewrite_chunk; [apply Fg; exact B|exact Hm|apply Rf; exact Bg].
Qed.

(* ---------- rejection sampling ---------- *)
Definition cnt49 (S : nat -> Z) (t : nat) : nat := length (accepted49 S t).
Definition shift49 (delta : nat -> Z) (S : nat -> Z) (t : nat) : Z :=
  let x := chunk 7 S t in let c := x mod 2 ^ 49 in
  if c <? q then (c + delta (cnt49 S t)) mod q + 2 ^ 49 * (x / 2 ^ 49) else x.

Lemma cand_chunk S t : candidate49 S t = chunk 7 S t mod 2 ^ 49.
Proof. reflexivity. Qed.
Lemma accepted_ext S S' n : (forall i, (i < 7 * n)%nat -> S i = S' i) -> accepted49 S n = accepted49 S' n.
Proof.
  intros H. unfold accepted49. f_equal. apply map_ext_in. intros t Ht. apply in_seq in Ht. rewrite !cand_chunk. f_equal.
  apply chunk_ext. intros i Hi. apply H. lia.
Qed.
Lemma accepted_S S n : accepted49 S (Datatypes.S n) = accepted49 S n ++ (if candidate49 S n <? q then [candidate49 S n] else []).
Proof.
  rewrite <- Nat.add_1_r, accepted_app. f_equal.
Qed.
Lemma q_2_49 : 0 < q < 2 ^ 49.
Proof. rewrite q_Q, Q_val. split; reflexivity. Qed.
Lemma shift49_causal delta t S S' : (forall i, (i < 7 * (t + 1))%nat -> S i = S' i) -> shift49 delta S t = shift49 delta S' t.
Proof.
  intros H. unfold shift49, cnt49. rewrite (chunk_ext 7 S S' t H). rewrite (accepted_ext S S' t); [reflexivity|].
  intros i Hi. apply H. lia.
Qed.
Lemma mod_split a h : 0 <= a < 2 ^ 49 -> (a + 2 ^ 49 * h) mod 2 ^ 49 = a /\ (a + 2 ^ 49 * h) / 2 ^ 49 = h.
Proof.
  intros H. rewrite (Z.mul_comm (2 ^ 49)). split.
  - rewrite Z.mod_add by discriminate. apply Z.mod_small, H.
  - rewrite Z.div_add by discriminate. rewrite Z.div_small by exact H. apply Z.add_0_l.
Qed.
Lemma shift49_range delta S t : byte_stream S -> 0 <= shift49 delta S t < 256 ^ Z.of_nat 7.
Proof.
  intros B. pose proof (chunk_range 7 S t B) as R. unfold shift49. cbv zeta. set (x := chunk 7 S t) in *.
  destruct (_ <? q); [|exact R]. pose proof q_2_49 as Hq.
  pose proof (Z.mod_pos_bound (x mod 2 ^ 49 + delta (cnt49 S t)) q (proj1 Hq)) as M.
  set (a := (_ + _) mod q) in *. change (256 ^ Z.of_nat 7) with (2 ^ 49 * 128) in *.
  assert (0 <= x / 2 ^ 49 < 128).
  { split; [apply Z.div_pos; [apply R|reflexivity]|]. apply Z.div_lt_upper_bound; [reflexivity|apply R]. }
  lia.
Qed.
Definition shiftF (delta : nat -> Z) : (nat -> Z) -> nat -> Z := rewrite_chunks 7 (shift49 delta).
Lemma shift_candidate delta S t : byte_stream S ->
  candidate49 (shiftF delta S) t
  = if candidate49 S t <? q then (candidate49 S t + delta (cnt49 S t)) mod q else candidate49 S t.
Proof.
  intros B. rewrite !cand_chunk. unfold shiftF. rewrite rewrite_chunk; [|lia|apply shift49_range; exact B].
  unfold shift49. cbv zeta. destruct (_ <? q); [|reflexivity].
  pose proof q_2_49 as Hq. apply mod_split.
  pose proof (Z.mod_pos_bound (chunk 7 S t mod 2 ^ 49 + delta (cnt49 S t)) q (proj1 Hq)). lia.
Qed.
Lemma shift_accepts delta S t : byte_stream S -> (candidate49 (shiftF delta S) t <? q) = (candidate49 S t <? q).
Proof.
  intros B. rewrite shift_candidate by exact B. destruct (candidate49 S t <? q) eqn:E; [|exact E].
  apply Z.ltb_lt. apply Z.mod_pos_bound. apply q_2_49.
Qed.
Lemma shift_accepted delta S : byte_stream S -> forall n,
  length (accepted49 (shiftF delta S) n) = length (accepted49 S n) /\
  forall j, (j < length (accepted49 S n))%nat ->
    nth j (accepted49 (shiftF delta S) n) 0 = (nth j (accepted49 S n) 0 + delta j) mod q.
Proof.
  intros B. induction n as [|n [IL IH]]; [split; [reflexivity|intros j Hj; cbn in Hj; lia]|].
  rewrite !accepted_S. rewrite shift_accepts by exact B.
  destruct (candidate49 S n <? q) eqn:E; [|rewrite !app_nil_r; split; assumption].
  split; [rewrite !app_length, IL; reflexivity|]. intros j Hj. rewrite app_length in Hj. cbn [length] in Hj.
  destruct (lt_dec j (length (accepted49 S n))) as [Hlt|Hge].
  - rewrite !app_nth1 by (try rewrite IL; exact Hlt). apply IH. exact Hlt.
  - assert (j = length (accepted49 S n)) by lia. subst j.
    rewrite !app_nth2 by lia. rewrite IL, Nat.sub_diag. cbn [nth].
    rewrite shift_candidate, E by exact B. reflexivity.
Qed.
Lemma shift_inverse delta delta' S t : (forall j, delta j + delta' j = 0) -> byte_stream S ->
  shift49 delta' (shiftF delta S) t = chunk 7 S t.
Proof.
  intros D B. pose proof q_2_49 as Hq. pose proof (shift_accepts delta S t B) as A. rewrite !cand_chunk in A.
  unfold shift49 at 1. cbv zeta. rewrite A.
  unfold cnt49. rewrite (proj1 (shift_accepted delta S B t)). fold (cnt49 S t).
  unfold shiftF. rewrite rewrite_chunk; [|lia|apply shift49_range; exact B].
  unfold shift49. cbv zeta. clear A. destruct (chunk 7 S t mod 2 ^ 49 <? q) eqn:E; [|reflexivity]. apply Z.ltb_lt in E.
  set (x := chunk 7 S t) in *.
  pose proof (Z.mod_pos_bound (x mod 2 ^ 49 + delta (cnt49 S t)) q (proj1 Hq)) as M.
  destruct (mod_split ((x mod 2 ^ 49 + delta (cnt49 S t)) mod q) (x / 2 ^ 49)) as [E1 E2]; [lia|].
  rewrite E1, E2. rewrite Zplus_mod_idemp_l. rewrite <- Z.add_assoc, D, Z.add_0_r.
  rewrite (Z.mod_small (x mod 2 ^ 49) q) by (split; [apply Z.mod_pos_bound; reflexivity|exact E]).
  rewrite Z.add_comm. symmetry. apply Z.div_mod. discriminate.
Qed.
Lemma shift_bijection delta delta' : (forall j, delta j + delta' j = 0) ->
  stream_bijection 7 (shiftF delta) (shiftF delta').
Proof.
  intros D. apply rewrite_bijection.
  - lia.
  - intros t S S' H. apply shift49_causal. exact H.
  - intros t S S' H. apply shift49_causal. exact H.
  - intros S t B. apply shift49_range. exact B.
  - intros S t B. apply shift49_range. exact B.
  - intros S t B. apply shift_inverse; assumption.
  - intros S t B. apply shift_inverse; [|exact B]. intros j. rewrite Z.add_comm. apply D.
Qed.
Lemma hash_byte_stream O m : byte_stream (hash_of O m).
Proof.
  intros i. pose proof (hash_bytes O m i 1) as H. inversion H; assumption.
Qed.
Lemma nth_firstn_lt (n : nat) : forall (l : list Z) j, (j < n)%nat -> nth j (firstn n l) 0 = nth j l 0.
Proof.
  induction n as [|n IH]; intros l j H; [lia|]. destruct l as [|x l]; [reflexivity|]. destruct j as [|j]; [reflexivity|].
  cbn [firstn nth]. apply IH. lia.
Qed.
Lemma take512_iff l p : length p = 512%nat ->
  (take512 l = Ok p <-> (512 <= length l)%nat /\ forall j, (j < 512)%nat -> nth j l 0 = nth j p 0).
Proof.
  intros Lp. split.
  - intros H. apply take512_Ok in H. destruct H as [L ->]. split; [exact L|]. intros j Hj. symmetry. apply nth_firstn_lt. exact Hj.
  - intros [L H]. unfold take512. apply Nat.leb_le in L. rewrite L. apply Nat.leb_le in L. f_equal. symmetry.
    apply nth_ext_Z; [rewrite firstn_length, Lp; lia|]. intros j Hj. rewrite Lp in Hj. rewrite nth_firstn_lt by exact Hj. symmetry. apply H, Hj.
Qed.

Lemma sampleQ_shift p p' O O' fuel hdr seed : is_poly p -> is_poly p' ->
  (forall i, hash_of O' (hdr ++ seed) i = shiftF (fun j => nth j p' 0 - nth j p 0) (hash_of O (hdr ++ seed)) i) ->
  (sampleQ O fuel hdr seed = Ok p <-> sampleQ O' fuel hdr seed = Ok p').
Proof.
  intros [Lp Rp] [Lp' Rp'] H. rewrite !sampleQ_eq.
  set (S := hash_of O (hdr ++ seed)) in *. set (delta := fun j => nth j p' 0 - nth j p 0) in *.
  rewrite (accepted_ext (hash_of O' (hdr ++ seed)) (shiftF delta S) fuel) by (intros i _; apply H).
  pose proof (hash_byte_stream O (hdr ++ seed)) as B. fold S in B.
  destruct (shift_accepted delta S B fuel) as [EL EN].
  fold (take512 (accepted49 S fuel)). fold (take512 (accepted49 (shiftF delta S) fuel)).
  rewrite !take512_iff by assumption. rewrite EL.
  pose proof (accepted_reduced S fuel) as AR. rewrite Forall_forall in AR, Rp, Rp'.
  split; intros [L N]; (split; [exact L|]); intros j Hj; assert (Hj2 : (j < length (accepted49 S fuel))%nat) by lia.
  - rewrite EN by exact Hj2. rewrite N by exact Hj. unfold delta.
    replace (nth j p 0 + (nth j p' 0 - nth j p 0)) with (nth j p' 0) by lia.
    apply Z.mod_small. apply Rp'. apply nth_In. lia.
  - specialize (N j Hj). rewrite EN in N by exact Hj2.
    pose proof (AR _ (nth_In _ 0 Hj2)) as R1. assert (R2 : reduced (nth j p 0)) by (apply Rp, nth_In; lia).
    assert (R3 : reduced (nth j p' 0)) by (apply Rp', nth_In; lia).
    unfold reduced in *. set (a := nth j (accepted49 S fuel) 0) in *. unfold delta in N.
    pose proof q_2_49 as Hq. clear AR Rp Rp' EN H. clearbody a. set (u := nth j p 0) in *. set (v := nth j p' 0) in *. clearbody u v.
    assert (E : (a - u) mod q = 0).
    { replace (a - u) with ((a + (v - u)) - v) by lia. rewrite Zminus_mod, N, (Z.mod_small v q) by exact R3. rewrite Z.sub_diag. apply Z.mod_0_l. lia. }
    apply Z.mod_divide in E; [|lia]. destruct E as [w Ew]. assert (w = 0) by nia. subst w. lia.
Qed.

(* ---------- the matrix ---------- *)
Lemma foldM_app' {A B} (f : A -> B -> res A) l1 l2 a : foldM f (l1 ++ l2) a = bind (foldM f l1 a) (foldM f l2).
Proof.
  revert a. induction l1 as [|x l1 IH]; intros a; [reflexivity|]. cbn [app foldM].
  destruct (f a x) as [a'| |]; cbn [bind]; [apply IH|reflexivity|reflexivity].
Qed.
Lemma foldM_push {X} (f : X -> res poly) l : forall acc A,
  foldM (fun A x => p <- f x ;; Ok (A ++ [p])) l acc = Ok A <-> exists B, A = acc ++ B /\ Forall2 (fun x p => f x = Ok p) l B.
Proof.
  induction l as [|x l IH]; intros acc A; cbn [foldM].
  - split.
    + intros E. apply ok_inj in E. subst A. exists []. split; [symmetry; apply app_nil_r|constructor].
    + intros (B & -> & F). inversion F. rewrite app_nil_r. reflexivity.
  - split.
    + intros E. destruct (f x) as [p| |] eqn:Ex; cbn [bind] in E; [|discriminate|discriminate].
      apply IH in E. destruct E as (B & -> & F). exists (p :: B). split; [rewrite <- app_assoc; reflexivity|]. constructor; assumption.
    + intros (B & -> & F). inversion F as [|x' p l' B' Hp HF E1 E2]. subst. rewrite Hp. cbn [bind]. apply IH.
      exists B'. split; [rewrite <- app_assoc; reflexivity|exact HF].
Qed.
Lemma Forall2_seq {X} (P : nat -> X -> Prop) d n : forall s B,
  Forall2 P (seq s n) B <-> length B = n /\ forall i, (i < n)%nat -> P (s + i)%nat (nth i B d).
Proof.
  induction n as [|n IH]; intros s B; cbn [seq].
  - split; [intros F; inversion F; split; [reflexivity|intros; lia]|]. intros [L _]. destruct B; [constructor|discriminate].
  - split.
    + intros F. inversion F as [|a b l' B' Hp HF E1 E2]. subst. apply IH in HF. destruct HF as [L HF].
      split; [cbn [length]; lia|]. intros [|i] Hi; [rewrite Nat.add_0_r; exact Hp|]. cbn [nth].
      replace (s + Datatypes.S i)%nat with (Datatypes.S s + i)%nat by lia. apply HF. lia.
    + intros [L H]. destruct B as [|b B]; [discriminate|]. cbn [length] in L. constructor.
      * specialize (H 0%nat ltac:(lia)). rewrite Nat.add_0_r in H. exact H.
      * apply IH. split; [lia|]. intros i Hi. specialize (H (Datatypes.S i) ltac:(lia)). cbn [nth] in H.
        replace (Datatypes.S s + i)%nat with (s + Datatypes.S i)%nat by lia. exact H.
Qed.
Lemma expandA_iff O fuel l seed k A :
  expandA O fuel k l seed = Ok A <->
  length A = (k * l)%nat /\ forall r c, (r < k)%nat -> (c < l)%nat ->
    sampleQ O fuel (expandA_hdr r c) seed = Ok (nth (r * l + c) A []).
Proof.
  unfold expandA. revert A. induction k as [|k IH]; intros A.
  - cbn [seq foldM]. split.
    + intros E. apply ok_inj in E. subst A. split; [reflexivity|]. intros; lia.
    + intros [L _]. destruct A; [reflexivity|discriminate].
  - rewrite seq_S, foldM_app'. cbn [Nat.add foldM]. split.
    + intros E. destruct (foldM _ (seq 0 k) []) as [A0| |] eqn:E0; cbn [bind] in E; [|discriminate|discriminate].
      destruct (proj1 (IH A0) eq_refl) as [L0 H0]. clear IH.
      destruct (foldM _ (seq 0 l) A0) as [A1| |] eqn:E1; cbn [bind] in E; [|discriminate|discriminate].
      apply ok_inj in E. subst A1. apply (foldM_push (fun c => sampleQ O fuel (expandA_hdr k c) seed)) in E1.
      destruct E1 as (B & -> & F). apply (Forall2_seq _ (@nil Z)) in F. destruct F as [LB F].
      unfold pmat, poly in *. split; [rewrite app_length; lia|]. intros r c Hr Hc.
      destruct (Nat.eq_dec r k) as [->|Hne].
      * rewrite app_nth2 by lia. rewrite L0. replace (k * l + c - k * l)%nat with c by lia. apply F. exact Hc.
      * assert (Hr' : (r < k)%nat) by lia. assert ((r + 1) * l <= k * l)%nat by (apply Nat.mul_le_mono_r; lia).
        rewrite app_nth1 by lia. apply H0; assumption.
    + intros [L H]. set (A0 := firstn (k * l) A). set (B := skipn (k * l) A).
      assert (EA : A = A0 ++ B) by (symmetry; apply firstn_skipn).
      assert (L0 : length A0 = (k * l)%nat) by (unfold A0; rewrite firstn_length, L; lia).
      assert (E0 : foldM (fun A ridx => foldM (fun A cidx =>
                    p <- sampleQ O fuel (expandA_hdr ridx cidx) seed ;; Ok (A ++ [p])) (seq 0 l) A) (seq 0 k) [] = Ok A0).
      { apply IH. split; [exact L0|]. intros r c Hr Hc. rewrite H by lia. f_equal. rewrite EA.
        assert ((r + 1) * l <= k * l)%nat by (apply Nat.mul_le_mono_r; lia). apply app_nth1. unfold pmat, poly in *. lia. }
      rewrite E0. cbn [bind].
      assert (E1 : foldM (fun A cidx => p <- sampleQ O fuel (expandA_hdr k cidx) seed ;; Ok (A ++ [p])) (seq 0 l) A0 = Ok A).
      { apply (foldM_push (fun c => sampleQ O fuel (expandA_hdr k c) seed)). exists B. split; [exact EA|].
        apply (Forall2_seq _ (@nil Z)). unfold pmat, poly in *. split; [rewrite EA, app_length in L; lia|].
        intros c Hc. cbn [Nat.add]. rewrite H by lia. f_equal. rewrite EA. rewrite app_nth2 by lia. f_equal. lia. }
      rewrite E1. reflexivity.
Qed.

Lemma hdr_small k r c : (r < k)%nat -> (k <= 256)%nat -> (c < 256)%nat -> expandA_hdr r c = [65; Z.of_nat r; Z.of_nat c; 0; 0; 0; 0; 0].
Proof. intros. unfold expandA_hdr. rewrite !Z.mod_small by lia. reflexivity. Qed.
Lemma matrix_uniform k l A A' : (k <= 256)%nat -> (l <= 256)%nat ->
   length A = (k * l)%nat -> length A' = (k * l)%nat -> Forall is_poly A -> Forall is_poly A' ->
   exists F G : nat -> nat -> (nat -> Z) -> nat -> Z,
     (forall r c, stream_bijection 7 (F r c) (G r c)) /\
     forall O O' fuel seed,
       (forall r c i, (r < k)%nat -> (c < l)%nat ->
          matrix_stream (hash_of O') seed r c i = F r c (matrix_stream (hash_of O) seed r c) i) ->
       (expandA O fuel k l seed = Ok A <-> expandA O' fuel k l seed = Ok A').
Proof.
  intros Hk Hl L L' PA PA'. rewrite Forall_forall in PA, PA'.
  exists (fun r c => shiftF (fun j => nth j (nth (r * l + c) A' []) 0 - nth j (nth (r * l + c) A []) 0)).
  exists (fun r c => shiftF (fun j => nth j (nth (r * l + c) A []) 0 - nth j (nth (r * l + c) A' []) 0)).
  split; [intros r c; apply shift_bijection; intros j; lia|]. intros O O' fuel seed H.
  rewrite !expandA_iff.
  assert (X : forall r c, (r < k)%nat -> (c < l)%nat ->
     (sampleQ O fuel (expandA_hdr r c) seed = Ok (nth (r * l + c) A []) <-> sampleQ O' fuel (expandA_hdr r c) seed = Ok (nth (r * l + c) A' []))).
  { intros r c Hr Hc. assert ((r + 1) * l <= k * l)%nat by (apply Nat.mul_le_mono_r; lia).
    rewrite (hdr_small k r c) by lia. apply sampleQ_shift.
    - apply PA, nth_In. unfold pmat, poly in *. lia.
    - apply PA', nth_In. unfold pmat, poly in *. lia.
    - intros i. apply (H r c i Hr Hc). }
  split; intros [Z1 Z2]; (split; [assumption|]); intros r c Hr Hc; apply X; try assumption; apply Z2; assumption.
Qed.

(* ---------- oracles with a prescribed stream ---------- *)
Definition to_byte (x : Z) : byte := match Byte.of_N (Z.to_N x) with Some b => b | None => Byte.x00 end.
Lemma to_byte_val x : is_byte x -> byteZ (to_byte x) = x.
Proof.
  intros [H1 H2]. unfold to_byte, byteZ. destruct (Byte.of_N (Z.to_N x)) as [b|] eqn:E.
  - apply Byte.to_of_N in E. rewrite E. apply Z2N.id. exact H1.
  - apply Byte.of_N_None_iff in E. lia.
Qed.
Lemma oracle_with O m S : byte_stream S -> exists O', (forall i, hash_of O' m i = S i) /\
  forall m', m' <> m -> forall i, hash_of O' m' i = hash_of O m' i.
Proof.
  intros B. exists {| shake256 := fun m' i => if list_eq_dec Z.eq_dec m' m then to_byte (S i) else shake256 O m' i;
                      ascon_permute := ascon_permute O; ascon80pq_iv := ascon80pq_iv O |}.
  split.
  - intros i. unfold hash_of. cbn [shake256]. destruct (list_eq_dec Z.eq_dec m m) as [_|N]; [|congruence]. apply to_byte_val, B.
  - intros m' N i. unfold hash_of. cbn [shake256]. destruct (list_eq_dec Z.eq_dec m' m) as [E|_]; [congruence|]. reflexivity.
Qed.
Lemma sampleQ_is_poly O fuel hdr seed p : sampleQ O fuel hdr seed = Ok p -> is_poly p.
Proof.
  intros E. pose proof (sampleQ_uniform O fuel hdr seed) as W. rewrite E in W. exact (uniform_poly_poly _ _ W).
Qed.
Lemma zero_is_poly : is_poly (repeat 0 512).
Proof.
  split; [apply repeat_length|]. apply Forall_forall. intros x Hx. apply repeat_spec in Hx. subst x. pose proof q_2_49. split; lia.
Qed.
