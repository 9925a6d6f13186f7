(* Proofs for C51: the challenge sampler is unbiased. *)
From Coq Require Import ZArith Lia List Bool.
From Coq Require Import ZifyBool ZifyNat Arith Permutation.
From Verif Require Import ModelBase ModelU128 ModelField ModelUtils ModelPoly ModelVec Words FieldProofs ArithLemmas BytesProofs PolyProofs SampleProofs SigEnc UniformProofs.
From Verif Require Import Spec SpecUniform.
Import ListNotations.
Open Scope Z_scope.
Ltac Zify.zify_post_hook ::= idtac.

(* ---------- a permutation of the positions that maps one support to another ---------- *)
Fixpoint index_of (x : nat) (l : list nat) : nat :=
  match l with [] => 0%nat | y :: l' => if (x =? y)%nat then 0%nat else Datatypes.S (index_of x l') end.
Lemma index_of_nth x l : In x l -> (index_of x l < length l)%nat /\ nth (index_of x l) l 0%nat = x.
Proof.
  induction l as [|y l IH]; intros H; [destruct H|]. cbn [index_of length].
  destruct (x =? y)%nat eqn:E.
  - apply Nat.eqb_eq in E. split; [lia|]. symmetry. exact E.
  - apply Nat.eqb_neq in E. destruct H as [H|H]; [congruence|]. destruct (IH H) as [H1 H2]. split; [lia|exact H2].
Qed.
Lemma index_of_uniq l i : NoDup l -> (i < length l)%nat -> index_of (nth i l 0%nat) l = i.
Proof.
  intros N H. assert (Hin : In (nth i l 0%nat) l) by (apply nth_In; exact H).
  destruct (index_of_nth _ _ Hin) as [H1 H2]. rewrite (NoDup_nth l 0%nat) in N. apply (N (index_of (nth i l 0%nat) l) i); assumption.
Qed.
Definition split_by (s : nat -> bool) (n : nat) : list nat :=
  filter s (seq 0 n) ++ filter (fun i => negb (s i)) (seq 0 n).
Lemma filter_split_perm {A} (s : A -> bool) l : Permutation l (filter s l ++ filter (fun i => negb (s i)) l).
Proof.
  induction l as [|x l IH]; [constructor|]. cbn [filter]. destruct (s x); cbn [negb app].
  - constructor. exact IH.
  - apply Permutation_cons_app. exact IH.
Qed.
Lemma split_by_facts s n : NoDup (split_by s n) /\ length (split_by s n) = n /\ forall i, In i (split_by s n) <-> (i < n)%nat.
Proof.
  unfold split_by. pose proof (filter_split_perm s (seq 0 n)) as P. split; [|split].
  - apply (Permutation_NoDup P). apply seq_NoDup.
  - rewrite <- (Permutation_length P). apply seq_length.
  - intros i. split.
    + intros H. apply (Permutation_in _ (Permutation_sym P)) in H. apply in_seq in H. lia.
    + intros H. apply (Permutation_in _ P). apply in_seq. lia.
Qed.
Lemma split_by_side s n i : (i < n)%nat -> s (nth i (split_by s n) 0%nat) = (i <? length (filter s (seq 0 n)))%nat.
Proof.
  intros H. unfold split_by. destruct (i <? length (filter s (seq 0 n)))%nat eqn:E.
  - apply Nat.ltb_lt in E. rewrite app_nth1 by exact E. apply (filter_In s _ (seq 0 n)). apply nth_In. exact E.
  - apply Nat.ltb_ge in E. rewrite app_nth2 by exact E.
    pose proof (proj1 (proj2 (split_by_facts s n))) as L. unfold split_by in L. rewrite app_length in L.
    assert (Hin : In (nth (i - length (filter s (seq 0 n))) (filter (fun i => negb (s i)) (seq 0 n)) 0%nat) (filter (fun i => negb (s i)) (seq 0 n))) by (apply nth_In; lia).
    apply filter_In in Hin. destruct Hin as [_ Hin]. apply negb_true_iff in Hin. exact Hin.
Qed.
Definition move (s s' : nat -> bool) (n i : nat) : nat := nth (index_of i (split_by s n)) (split_by s' n) 0%nat.
Lemma move_facts s s' n i : length (filter s (seq 0 n)) = length (filter s' (seq 0 n)) -> (i < n)%nat ->
  (move s s' n i < n)%nat /\ move s' s n (move s s' n i) = i /\ s' (move s s' n i) = s i.
Proof.
  intros L H. unfold move. destruct (split_by_facts s n) as (N & Ln & I). destruct (split_by_facts s' n) as (N' & Ln' & I').
  destruct (index_of_nth i (split_by s n)) as [H1 H2]; [apply I; exact H|]. rewrite Ln in H1.
  set (j := index_of i (split_by s n)) in *. split; [|split].
  - apply I'. apply nth_In. lia.
  - rewrite index_of_uniq by (try assumption; lia). exact H2.
  - rewrite split_by_side by exact H1. rewrite <- L. rewrite <- (split_by_side s n j H1). rewrite H2. reflexivity.
Qed.

(* ---------- rewriting the words of the challenge stream ---------- *)
Definition perm_word (sg : nat -> nat) (eps : nat -> bool) (x : Z) : Z :=
  let pos := Z.to_nat ((x / 2) mod 512) in
  Z.b2z (xorb (Z.odd x) (eps pos)) + 2 * Z.of_nat (sg pos) + 1024 * (x / 1024).
Lemma word_split b p h : 0 <= p < 512 ->
  Z.odd (Z.b2z b + 2 * p + 1024 * h) = b /\ ((Z.b2z b + 2 * p + 1024 * h) / 2) mod 512 = p /\
  (Z.b2z b + 2 * p + 1024 * h) / 1024 = h.
Proof.
  intros Hp. split; [|split].
  - replace (Z.b2z b + 2 * p + 1024 * h) with (Z.b2z b + 2 * (p + 512 * h)) by lia.
    rewrite Z.odd_add_mul_2. destruct b; reflexivity.
  - replace (Z.b2z b + 2 * p + 1024 * h) with (Z.b2z b + (p + h * 512) * 2) by lia.
    rewrite Z.div_add by discriminate. replace (Z.b2z b / 2) with 0 by (destruct b; reflexivity).
    rewrite Z.add_0_l, Z.mod_add by discriminate. apply Z.mod_small, Hp.
  - replace (Z.b2z b + 2 * p + 1024 * h) with ((Z.b2z b + 2 * p) + h * 1024) by lia.
    rewrite Z.div_add by discriminate. rewrite Z.div_small; [lia|]. destruct b; cbn [Z.b2z]; lia.
Qed.
Lemma word_join x : Z.b2z (Z.odd x) + 2 * ((x / 2) mod 512) + 1024 * (x / 1024) = x.
Proof.
  rewrite (Zdiv2_odd_eqn x) at 4. rewrite Z.div2_div. replace (x / 1024) with (x / 2 / 512) by (rewrite Z.div_div by lia; reflexivity).
  pose proof (Z.div_mod (x / 2) 512 ltac:(discriminate)). unfold Z.b2z. destruct (Z.odd x); lia.
Qed.
Definition permF (sg : nat -> nat) (eps : nat -> bool) : (nat -> Z) -> nat -> Z :=
  rewrite_chunks 2 (fun S t => perm_word sg eps (chunk 2 S t)).
Definition maps512 (sg : nat -> nat) : Prop := forall i, (i < 512)%nat -> (sg i < 512)%nat.
Lemma pos_lt x : (Z.to_nat ((x / 2) mod 512) < 512)%nat.
Proof. pose proof (Z.mod_pos_bound (x / 2) 512 eq_refl). lia. Qed.
Lemma perm_word_range sg eps x : maps512 sg -> 0 <= x < 256 ^ Z.of_nat 2 -> 0 <= perm_word sg eps x < 256 ^ Z.of_nat 2.
Proof.
  intros M H. change (256 ^ Z.of_nat 2) with 65536 in *. unfold perm_word. cbv zeta.
  pose proof (M _ (pos_lt x)) as P. set (s := sg _) in *. set (b := xorb _ _). clearbody s b.
  assert (0 <= x / 1024 < 64) by (split; [apply Z.div_pos; lia|apply Z.div_lt_upper_bound; lia]).
  destruct b; cbn [Z.b2z]; lia.
Qed.
Lemma perm_word_inv sg eps sg' eps' x : maps512 sg ->
  (forall i, (i < 512)%nat -> sg' (sg i) = i /\ eps' (sg i) = eps i) ->
  perm_word sg' eps' (perm_word sg eps x) = x.
Proof.
  intros M H. pose proof (pos_lt x) as P. pose proof (M _ P) as P'. destruct (H _ P) as [H1 H2].
  unfold perm_word at 1. cbv zeta.
  assert (W : 0 <= Z.of_nat (sg (Z.to_nat ((x / 2) mod 512))) < 512) by lia.
  destruct (word_split (xorb (Z.odd x) (eps (Z.to_nat ((x / 2) mod 512)))) _ (x / 1024) W) as (E1 & E2 & E3).
  unfold perm_word. cbv zeta. rewrite E1, E2, E3. rewrite Nat2Z.id, H1, H2.
  rewrite xorb_assoc, xorb_nilpotent, xorb_false_r. rewrite Z2Nat.id by (apply Z.mod_pos_bound; reflexivity). apply word_join.
Qed.
Lemma perm_bijection sg eps sg' eps' : maps512 sg -> maps512 sg' ->
  (forall i, (i < 512)%nat -> sg' (sg i) = i /\ eps' (sg i) = eps i) ->
  (forall i, (i < 512)%nat -> sg (sg' i) = i /\ eps (sg' i) = eps' i) ->
  stream_bijection 2 (permF sg eps) (permF sg' eps').
Proof.
  intros M M' H H'. apply rewrite_bijection.
  - lia.
  - intros t S S' E. cbv beta. f_equal. apply chunk_ext. exact E.
  - intros t S S' E. cbv beta. f_equal. apply chunk_ext. exact E.
  - intros S t B. apply perm_word_range; [exact M|apply chunk_range; exact B].
  - intros S t B. apply perm_word_range; [exact M'|apply chunk_range; exact B].
  - intros S t B. cbv beta. rewrite rewrite_chunk; [apply perm_word_inv; assumption|lia|]. apply perm_word_range; [exact M|apply chunk_range; exact B].
  - intros S t B. cbv beta. rewrite rewrite_chunk; [apply perm_word_inv; assumption|lia|]. apply perm_word_range; [exact M'|apply chunk_range; exact B].
Qed.
Definition flip (b : bool) (x : Z) : Z := if b then (if x =? 0 then 0 else q - x) else x.
Lemma perm_step sg eps S t : maps512 sg -> byte_stream S ->
  chal_pos (permF sg eps S) t = sg (chal_pos S t) /\
  chal_sign (permF sg eps S) t = flip (eps (chal_pos S t)) (chal_sign S t).
Proof.
  intros M B. unfold chal_pos, chal_sign, chal_word. fold (chunk 2 (permF sg eps S) t). fold (chunk 2 S t).
  unfold permF. rewrite rewrite_chunk; [|lia|apply perm_word_range; [exact M|apply chunk_range; exact B]].
  set (x := chunk 2 S t). pose proof (pos_lt x) as P. pose proof (M _ P) as P'.
  assert (W : 0 <= Z.of_nat (sg (Z.to_nat ((x / 2) mod 512))) < 512) by lia.
  destruct (word_split (xorb (Z.odd x) (eps (Z.to_nat ((x / 2) mod 512)))) _ (x / 1024) W) as (E1 & E2 & E3).
  unfold perm_word. cbv zeta. rewrite E1, E2. split; [apply Nat2Z.id|].
  unfold flip. pose proof q_2_49 as Hq.
  destruct (Z.odd x), (eps _); cbn [xorb]; reflexivity.
Qed.
Lemma flip_zero b x : 0 <= x < q -> (flip b x =? 0) = (x =? 0).
Proof.
  intros H. destruct b; [|reflexivity]. unfold flip. destruct (x =? 0) eqn:E; [reflexivity|].
  apply Z.eqb_neq in E. apply Z.eqb_neq. lia.
Qed.
Lemma coef_range S n i : 0 <= chal_coef S n i < q.
Proof.
  pose proof q_2_49. assert (1 < q) by (rewrite q_Q, Q_val; reflexivity). destruct (chal_coef_cases S n i) as [->|[->| ->]]; lia.
Qed.
Lemma perm_coef sg eps S : maps512 sg -> (forall i j, (i < 512)%nat -> (j < 512)%nat -> sg i = sg j -> i = j) -> byte_stream S ->
  forall n i, (i < 512)%nat -> chal_coef (permF sg eps S) n (sg i) = flip (eps i) (chal_coef S n i).
Proof.
  intros M Inj B. induction n as [|n IH]; intros i Hi.
  - unfold chal_coef. cbn [seq find]. unfold flip. destruct (eps i); reflexivity.
  - rewrite !chal_coef_S. rewrite IH by exact Hi. rewrite flip_zero by apply coef_range.
    destruct (perm_step sg eps S n M B) as [-> ->].
    destruct (chal_coef S n i =? 0); [|reflexivity].
    destruct (chal_pos S n =? i)%nat eqn:E.
    + apply Nat.eqb_eq in E. subst i. rewrite Nat.eqb_refl. reflexivity.
    + apply Nat.eqb_neq in E. replace (sg (chal_pos S n) =? sg i)%nat with false; [unfold flip; destruct (eps i); reflexivity|].
      symmetry. apply Nat.eqb_neq. intros X. apply E. apply Inj; [apply chal_pos_lt|exact Hi|exact X].
Qed.
Lemma perm_distinct sg eps S : maps512 sg -> (forall i j, (i < 512)%nat -> (j < 512)%nat -> sg i = sg j -> i = j) -> byte_stream S ->
  forall n, distinct_count (permF sg eps S) n = distinct_count S n.
Proof.
  intros M Inj B. induction n as [|n IH]; [reflexivity|]. rewrite !distinct_count_S, IH. f_equal.
  rewrite (proj1 (perm_step sg eps S n M B)). rewrite (perm_coef sg eps S M Inj B) by apply chal_pos_lt.
  rewrite flip_zero by apply coef_range. reflexivity.
Qed.

(* ---------- the challenge polynomial ---------- *)
Lemma chal_ext S S' : (forall i, S i = S' i) -> (forall n, distinct_count S n = distinct_count S' n) /\ (forall n, chal_vec S n = chal_vec S' n).
Proof.
  intros H. assert (W : forall t, chal_word S t = chal_word S' t).
  { intros t. unfold chal_word. f_equal. apply map_ext. exact H. }
  assert (P : forall t, chal_pos S t = chal_pos S' t) by (intros t; unfold chal_pos; rewrite W; reflexivity).
  assert (C : forall n i, chal_coef S n i = chal_coef S' n i).
  { induction n as [|n IH]; intros i; [reflexivity|]. rewrite !chal_coef_S, IH, P. unfold chal_sign. rewrite W. reflexivity. }
  split; intros n.
  - unfold distinct_count. f_equal. f_equal. apply map_ext. exact P.
  - apply map_ext. intros i. apply C.
Qed.
Lemma chal_poly_iff O fuel omega c_hash c : (omega < 256)%nat ->
  let S := challenge_stream (hash_of O) omega c_hash in
  (chal_poly O fuel omega c_hash = Ok c <-> exists m, (m <= fuel)%nat /\ distinct_count S m = omega /\ c = chal_vec S m).
Proof.
  intros Ho S. pose proof (chal_poly_eq O fuel omega c_hash Ho) as H. cbv zeta in H. fold S in H.
  destruct (chal_poly O fuel omega c_hash) as [c1| |].
  - split.
    + intros E. apply ok_inj in E. subst c1. exact H.
    + intros (m & Hm & D & E). destruct H as (m1 & Hm1 & D1 & E1). f_equal. apply (challenge_poly_fun S omega).
      * exists m1. split; [exact D1|exact E1].
      * exists m. split; [exact D|exact E].
  - destruct H.
  - split; [discriminate|]. intros (m & Hm & D & E). pose proof (distinct_count_mono S m fuel Hm). lia.
Qed.
Definition supp (c : list Z) (i : nat) : bool := negb (nth i c 0 =? 0).
Lemma supp_count n : forall c s, length c = n -> length (filter (fun i => negb (nth (i - s) c 0 =? 0)) (seq s n)) = length (filter (fun x => negb (x =? 0)) c).
Proof.
  induction n as [|n IH]; intros c s L; destruct c as [|x c]; try discriminate; [reflexivity|].
  assert (E : filter (fun i => negb (nth (i - s) (x :: c) 0 =? 0)) (seq (Datatypes.S s) n) = filter (fun i => negb (nth (i - Datatypes.S s) c 0 =? 0)) (seq (Datatypes.S s) n)).
  { apply filter_ext_in. intros i Hi. apply in_seq in Hi. replace (i - s)%nat with (Datatypes.S (i - Datatypes.S s)) by lia. reflexivity. }
  cbn [seq filter]. rewrite E. replace (nth (s - s) (x :: c) 0) with x by (rewrite Nat.sub_diag; reflexivity).
  cbn [length] in L. destruct (negb (x =? 0)); cbn [length]; rewrite IH by lia; reflexivity.
Qed.
Lemma supp_weight_n n c : length c = n -> length (filter (supp c) (seq 0 n)) = length (filter (fun x => negb (x =? 0)) c).
Proof.
  intros L. rewrite <- (supp_count n c 0 L). f_equal. apply filter_ext. intros i. rewrite Nat.sub_0_r. reflexivity.
Qed.
Lemma supp_weight omega c : ternary omega c -> length (filter (supp c) (seq 0 512)) = omega.
Proof.
  intros (L & _ & W). etransitivity; [exact (supp_weight_n 512 c L)|exact W].
Qed.
Definition moveC (c c' : list Z) : nat -> nat := move (supp c) (supp c') 512.
Definition signC (c c' : list Z) (i : nat) : bool := negb (nth i c 0 =? nth (moveC c c' i) c' 0).
Lemma challenge_transfer omega c c' S n : ternary omega c -> ternary omega c' -> byte_stream S ->
  (chal_vec S n = c <-> chal_vec (permF (moveC c c') (signC c c') S) n = c').
Proof.
  intros T T' B. pose proof (supp_weight _ _ T) as W. pose proof (supp_weight _ _ T') as W'.
  assert (MF : forall i, (i < 512)%nat -> (moveC c c' i < 512)%nat /\ moveC c' c (moveC c c' i) = i /\ supp c' (moveC c c' i) = supp c i).
  { intros i Hi. apply move_facts; [rewrite W, W'; reflexivity|exact Hi]. }
  assert (MF' : forall i, (i < 512)%nat -> (moveC c' c i < 512)%nat /\ moveC c c' (moveC c' c i) = i).
  { intros i Hi. destruct (move_facts (supp c') (supp c) 512 i) as (X & Y & _); [rewrite W, W'; reflexivity|exact Hi|]. split; assumption. }
  assert (M : maps512 (moveC c c')) by (intros i Hi; apply MF, Hi).
  assert (Inj : forall i j, (i < 512)%nat -> (j < 512)%nat -> moveC c c' i = moveC c c' j -> i = j).
  { intros i j Hi Hj E. rewrite <- (proj1 (proj2 (MF i Hi))), <- (proj1 (proj2 (MF j Hj))), E. reflexivity. }
  pose proof (perm_coef (moveC c c') (signC c c') S M Inj B n) as PC.
  destruct T as (L & F & _). destruct T' as (L' & F' & _). rewrite Forall_forall in F, F'.
  assert (C : forall i, (i < 512)%nat -> flip (signC c c' i) (nth i c 0) = nth (moveC c c' i) c' 0).
  { intros i Hi. destruct (MF i Hi) as (M1 & _ & M3). unfold supp in M3.
    assert (I1 : In (nth i c 0) c) by (apply nth_In; lia). assert (I2 : In (nth (moveC c c' i) c' 0) c') by (apply nth_In; lia).
    apply F in I1. apply F' in I2. unfold signC. set (a := nth i c 0) in *. set (b := nth (moveC c c' i) c' 0) in *. clearbody a b.
    unfold flip. destruct (a =? b) eqn:E; cbn [negb]; [apply Z.eqb_eq; exact E|]. apply Z.eqb_neq in E.
    destruct (a =? 0) eqn:A0, (b =? 0) eqn:B0; try discriminate.
    - apply Z.eqb_eq in A0, B0. congruence.
    - apply Z.eqb_neq in A0, B0. destruct I1 as [I1|[I1|I1]], I2 as [I2|[I2|I2]]; subst; try congruence; lia. }
  assert (FI : forall b x, 0 <= x < q -> flip b (flip b x) = x).
  { intros b x Hx. unfold flip. destruct b; [|reflexivity]. destruct (x =? 0) eqn:E; [apply Z.eqb_eq in E; subst x; reflexivity|].
    apply Z.eqb_neq in E. replace (q - x =? 0) with false; [lia|]. symmetry. apply Z.eqb_neq. lia. }
  assert (Lv : forall T, length (chal_vec T n) = 512%nat) by (intros U; unfold chal_vec; rewrite map_length, seq_length; reflexivity).
  assert (Rc : forall i, (i < 512)%nat -> 0 <= nth i c 0 < q).
  { intros i Hi. pose proof q_2_49. assert (1 < q) by (rewrite q_Q, Q_val; reflexivity). assert (I1 : In (nth i c 0) c) by (apply nth_In; lia).
    apply F in I1. destruct I1 as [->|[->| ->]]; lia. }
  split; intros E; apply nth_ext_Z; try (rewrite Lv; lia); intros i Hi; rewrite Lv in Hi; rewrite chal_vec_nth by exact Hi.
  - destruct (MF' i Hi) as [X1 X2]. rewrite <- X2. rewrite PC by exact X1. rewrite <- C by exact X1. f_equal.
    pose proof (chal_vec_nth S n (moveC c' c i) X1) as Y. rewrite E in Y. symmetry. exact Y.
  - pose proof (f_equal (fun v => nth (moveC c c' i) v 0) E) as E'. cbv beta in E'. rewrite chal_vec_nth in E' by (apply MF; exact Hi).
    rewrite PC, <- C in E' by exact Hi. rewrite <- (FI (signC c c' i) (chal_coef S n i)) by apply coef_range.
    rewrite E'. apply FI. apply Rc. exact Hi.
Qed.
Lemma chal_uniform omega c c' : (omega < 256)%nat -> ternary omega c -> ternary omega c' ->
  exists F G, stream_bijection 2 F G /\
    forall O O' fuel c_hash,
      (forall i, challenge_stream (hash_of O') omega c_hash i = F (challenge_stream (hash_of O) omega c_hash) i) ->
      (chal_poly O fuel omega c_hash = Ok c <-> chal_poly O' fuel omega c_hash = Ok c').
Proof.
  intros Ho T T'. exists (permF (moveC c c') (signC c c')), (permF (moveC c' c) (signC c' c)).
  pose proof (supp_weight _ _ T) as W. pose proof (supp_weight _ _ T') as W'.
  assert (MF : forall a b, length (filter (supp a) (seq 0 512)) = length (filter (supp b) (seq 0 512)) -> forall i, (i < 512)%nat ->
     (moveC a b i < 512)%nat /\ moveC b a (moveC a b i) = i /\ signC b a (moveC a b i) = signC a b i).
  { intros a b E i Hi. destruct (move_facts (supp a) (supp b) 512 i E Hi) as (X & Y & _). split; [exact X|]. split; [exact Y|].
    unfold signC. unfold moveC in *. rewrite Y. rewrite Z.eqb_sym. reflexivity. }
  assert (E1 : length (filter (supp c) (seq 0 512)) = length (filter (supp c') (seq 0 512))) by (rewrite W, W'; reflexivity).
  assert (E2 : length (filter (supp c') (seq 0 512)) = length (filter (supp c) (seq 0 512))) by (symmetry; exact E1).
  split.
  - apply perm_bijection.
    + intros i Hi. apply (MF c c' E1 i Hi).
    + intros i Hi. apply (MF c' c E2 i Hi).
    + intros i Hi. apply (MF c c' E1 i Hi).
    + intros i Hi. apply (MF c' c E2 i Hi).
  - intros O O' fuel c_hash H. rewrite !chal_poly_iff by exact Ho.
    destruct (chal_ext _ _ H) as [D V]. set (S := challenge_stream (hash_of O) omega c_hash) in *.
    assert (B : byte_stream S) by apply hash_byte_stream.
    assert (DD : forall m, distinct_count (challenge_stream (hash_of O') omega c_hash) m = distinct_count S m).
    { intros m. rewrite D. apply perm_distinct; [intros i Hi; apply (MF c c' E1 i Hi)| |exact B].
      intros i j Hi Hj E. rewrite <- (proj1 (proj2 (MF c c' E1 i Hi))), <- (proj1 (proj2 (MF c c' E1 j Hj))), E. reflexivity. }
    split; intros (m & Hm & Hd & Hc); exists m; (split; [exact Hm|]).
    + split; [rewrite DD; exact Hd|]. rewrite V. symmetry. apply (challenge_transfer omega c c' S m T T' B). symmetry. exact Hc.
    + split; [rewrite <- DD; exact Hd|]. rewrite V in Hc. symmetry. apply (challenge_transfer omega c c' S m T T' B). symmetry. exact Hc.
Qed.

Lemma chal_poly_ternary O fuel omega c_hash c : chal_poly O fuel omega c_hash = Ok c -> (omega < 256)%nat -> ternary omega c.
Proof.
  intros E Ho. pose proof (chal_poly_ok O fuel omega c_hash Ho) as W. rewrite E in W.
  destruct (challenge_poly_facts _ _ _ W) as ([L _] & N & T). split; [exact L|]. split; [exact T|exact N].
Qed.
