(* Refreshing with ideal masks makes any all-but-one shares independent of the secret. *)
From Coq Require Import ZArith Lia Bool List Arith.
From Coq Require Import ZifyBool ZifyNat.
From Verif Require Import ModelBase ModelU128 ModelField ModelUtils ModelPoly ModelVec.
From Verif Require Import Spec SpecMask.
From Verif Require Import Words FieldProofs ArithLemmas PolyProofs Cong MaskedProofs PolyLemmas.
Import ListNotations.
Open Scope Z_scope.
Ltac Zify.zify_post_hook ::= idtac.

(* ---------- integer masks ---------- *)
Fixpoint esum (k : nat) (es : list ((nat * nat) * Z)) : Z :=
  match es with
  | [] => 0
  | ((i, j), r) :: es => (if Nat.eqb k i then r else 0) - (if Nat.eqb k j then r else 0) + esum k es
  end.
Lemma mask_coef_esum k c : forall ps rs, mask_coef k c (combine ps rs) = esum k (combine ps (map (fun r => coef r c) rs)).
Proof.
  induction ps as [|[i j] ps IH]; intros [|r rs]; try reflexivity. cbn [combine map mask_coef esum]. rewrite IH. reflexivity.
Qed.
Definition vadd (a b : list Z) : list Z := map (fun '(x, y) => x + y) (combine a b).
Lemma vadd_length a b : length a = length b -> length (vadd a b) = length a.
Proof. intros H. unfold vadd. rewrite map_length, combine_length, H. apply Nat.min_id. Qed.
Lemma esum_vadd k : forall ps a b, length a = length ps -> length b = length ps ->
  esum k (combine ps (vadd a b)) = esum k (combine ps a) + esum k (combine ps b).
Proof.
  induction ps as [|[i j] ps IH]; intros [|x a] [|y b] La Lb; cbn [length] in *; try lia; [reflexivity|].
  unfold vadd. cbn [combine map esum]. fold (vadd a b). rewrite IH by lia.
  destruct (Nat.eqb k i), (Nat.eqb k j); ring.
Qed.
Lemma esum_zero k : forall ps n, esum k (combine ps (repeat 0 n)) = 0.
Proof.
  induction ps as [|[i j] ps IH]; intros [|n]; try reflexivity. cbn [repeat combine esum]. rewrite IH.
  destruct (Nat.eqb k i), (Nat.eqb k j); ring.
Qed.
Lemma esum_unit i j ps v : In (i, j) ps -> exists ds, length ds = length ps /\
  forall k, esum k (combine ps ds) = (if Nat.eqb k i then v else 0) - (if Nat.eqb k j then v else 0).
Proof.
  induction ps as [|[i' j'] ps IH]; intros H; [destruct H|]. destruct H as [H|H].
  - inversion H; subst. exists (v :: repeat 0 (length ps)). split; [cbn [length]; rewrite repeat_length; reflexivity|].
    intros k. cbn [combine esum]. rewrite esum_zero. ring.
  - destruct (IH H) as (ds & L & E). exists (0 :: ds). split; [cbn [length]; rewrite L; reflexivity|].
    intros k. cbn [combine esum]. rewrite E. destruct (Nat.eqb k i'), (Nat.eqb k j'); ring.
Qed.

(* ---------- the pairs ---------- *)
Lemma pow2_pos m : (0 < 2 ^ m)%nat.
Proof. assert (2 ^ m <> 0)%nat by (apply Nat.pow_nonzero; lia). lia. Qed.
Lemma pow2_split e m : (m < e)%nat -> (2 ^ (e - 1 - m) * (2 * 2 ^ m) = 2 ^ e)%nat.
Proof.
  intros H. change (2 * 2 ^ m)%nat with (2 ^ S m)%nat. rewrite <- Nat.pow_add_r. f_equal. lia.
Qed.
Lemma mask_pairs_in e i j : In (i, j) (mask_pairs e) -> exists m, (m < e /\ j = i + 2 ^ m /\ j < 2 ^ e)%nat.
Proof.
  unfold mask_pairs. intros H. apply in_concat in H. destruct H as (l & Hl & H). apply in_map_iff in Hl. destruct Hl as (m & <- & Hm).
  apply in_seq in Hm. unfold round_pairs in H. apply in_concat in H. destruct H as (l & Hl & H). apply in_map_iff in Hl. destruct Hl as (b & <- & Hb).
  apply in_map_iff in H. destruct H as (x & E & Hx). inversion E; subst. apply in_seq in Hb. apply in_seq in Hx. exists m.
  split; [lia|]. split; [reflexivity|]. pose proof (pow2_split e m ltac:(lia)) as PS. pose proof (pow2_pos m).
  assert ((b + 1) * (2 * 2 ^ m) <= 2 ^ (e - 1 - m) * (2 * 2 ^ m))%nat by (apply Nat.mul_le_mono_r; lia). lia.
Qed.
Lemma parent_pair e i : (0 < i < 2 ^ e)%nat -> exists p, (p < i)%nat /\ In (p, i) (mask_pairs e).
Proof.
  intros [H0 H1]. set (m := Nat.log2 i). destruct (Nat.log2_spec i H0) as [A B]. fold m in A, B.
  assert (Hm : (m < e)%nat). { apply Nat.log2_lt_pow2 in H1; [exact H1|exact H0]. }
  exists (i - 2 ^ m)%nat. pose proof (pow2_pos m). split; [lia|].
  unfold mask_pairs. apply in_concat. exists (round_pairs e m). split; [apply in_map, in_seq; lia|].
  unfold round_pairs. apply in_concat. eexists. split.
  - apply in_map, in_seq. split; [apply Nat.le_0_l|]. apply pow2_pos.
  - apply in_map_iff. exists (i - 2 ^ m)%nat. cbn [Nat.pow] in B. split; [f_equal; lia|apply in_seq; lia].
Qed.
Lemma reach e v : forall i, (i < 2 ^ e)%nat -> exists ds, length ds = length (mask_pairs e) /\
  forall k, esum k (combine (mask_pairs e) ds) = (if Nat.eqb k i then v else 0) - (if Nat.eqb k 0 then v else 0).
Proof.
  induction i as [i IH] using lt_wf_ind. intros Hi. destruct (Nat.eq_dec i 0) as [->|N].
  - exists (repeat 0 (length (mask_pairs e))). split; [apply repeat_length|]. intros k. rewrite esum_zero. ring.
  - destruct (parent_pair e i ltac:(lia)) as (p & Hp & Hin). destruct (IH p Hp ltac:(lia)) as (ds & L & E).
    destruct (esum_unit p i _ (- v) Hin) as (ds' & L' & E'). exists (vadd ds ds'). split; [rewrite vadd_length; lia|].
    intros k. rewrite esum_vadd by assumption. rewrite E, E'. destruct (Nat.eqb k p), (Nat.eqb k i), (Nat.eqb k 0); ring.
Qed.
Lemma reach_many e t : forall n, (n <= 2 ^ e)%nat -> exists ds, length ds = length (mask_pairs e) /\
  forall k, esum k (combine (mask_pairs e) ds) = (if (k <? n)%nat then t k else 0) - (if Nat.eqb k 0 then Zsum n t else 0).
Proof.
  induction n as [|n IH]; intros Hn.
  - exists (repeat 0 (length (mask_pairs e))). split; [apply repeat_length|]. intros k. rewrite esum_zero. cbn. destruct (Nat.eqb k 0); ring.
  - destruct (IH ltac:(lia)) as (ds & L & E). destruct (reach e (t n) n ltac:(lia)) as (ds' & L' & E'). exists (vadd ds ds').
    split; [rewrite vadd_length; lia|]. intros k. rewrite esum_vadd by assumption. rewrite E, E'. cbn [Zsum].
    destruct (Nat.eqb_spec k n) as [->|N].
    + replace (n <? n)%nat with false by (symmetry; apply Nat.ltb_irrefl). replace (n <? S n)%nat with true by (symmetry; apply Nat.ltb_lt; lia).
      destruct (Nat.eqb n 0); ring.
    + replace (k <? S n)%nat with (k <? n)%nat by (destruct (Nat.ltb_spec k n), (Nat.ltb_spec k (S n)); try reflexivity; lia).
      destruct (k <? n)%nat, (Nat.eqb k 0); ring.
Qed.
(* every family of integers with sum zero is the effect of some masks *)
Lemma solve_masks e t : Zsum (2 ^ e) t = 0 -> exists ds, length ds = length (mask_pairs e) /\
  forall k, (k < 2 ^ e)%nat -> esum k (combine (mask_pairs e) ds) = t k.
Proof.
  intros H. destruct (reach_many e t (2 ^ e) (le_n _)) as (ds & L & E). exists ds. split; [exact L|]. intros k Hk. rewrite E, H.
  replace (k <? 2 ^ e)%nat with true by (symmetry; apply Nat.ltb_lt; exact Hk). destruct (Nat.eqb k 0); ring.
Qed.
Lemma Zsum_ext n f g : (forall i, (i < n)%nat -> f i = g i) -> Zsum n f = Zsum n g.
Proof. induction n as [|n IH]; intros H; [reflexivity|]. cbn [Zsum]. rewrite IH, (H n) by (intros; try apply H; lia). reflexivity. Qed.
(* .. the value at p can be chosen to make the sum zero *)
Lemma solve_except e p t : (p < 2 ^ e)%nat -> exists ds, length ds = length (mask_pairs e) /\
  forall k, (k < 2 ^ e)%nat -> k <> p -> esum k (combine (mask_pairs e) ds) = t k.
Proof.
  intros Hp. set (u := fun k => if Nat.eqb k p then 0 else t k). set (w := fun k => if Nat.eqb k p then - Zsum (2 ^ e) u else t k).
  assert (S : forall n, Zsum n w = Zsum n u - (if (p <? n)%nat then Zsum (2 ^ e) u else 0)).
  { induction n as [|n IH]; [reflexivity|]. cbn [Zsum]. rewrite IH.
    assert (W : w n = if Nat.eqb n p then - Zsum (2 ^ e) u else t n) by reflexivity. assert (U : u n = if Nat.eqb n p then 0 else t n) by reflexivity.
    rewrite W, U. clear W U. destruct (Nat.eqb_spec n p) as [->|N].
    - replace (p <? p)%nat with false by (symmetry; apply Nat.ltb_irrefl). replace (p <? S p)%nat with true by (symmetry; apply Nat.ltb_lt; lia). ring.
    - replace (p <? S n)%nat with (p <? n)%nat by (destruct (Nat.ltb_spec p n), (Nat.ltb_spec p (Datatypes.S n)); try reflexivity; lia). ring. }
  destruct (solve_masks e w) as (ds & L & E).
  - rewrite S. replace (p <? 2 ^ e)%nat with true by (symmetry; apply Nat.ltb_lt; exact Hp). ring.
  - exists ds. split; [exact L|]. intros k Hk N. rewrite (E k Hk). unfold w. destruct (Nat.eqb_spec k p); [contradiction|reflexivity].
Qed.

(* ---------- polynomials ---------- *)
Lemma list_choice {A} (d : A) (P : nat -> A -> Prop) n : (forall i, (i < n)%nat -> exists x, P i x) ->
  exists l, length l = n /\ forall i, (i < n)%nat -> P i (nth i l d).
Proof.
  induction n as [|n IH]; intros H; [exists []; split; [reflexivity|lia]|].
  destruct (IH (fun i Hi => H i (Nat.lt_lt_succ_r _ _ Hi))) as (l & L & Hl). destruct (H n (Nat.lt_succ_diag_r n)) as [x Hx].
  exists (l ++ [x]). split; [rewrite app_length; cbn [length]; lia|]. intros i Hi. destruct (Nat.eq_dec i n) as [->|N].
  - rewrite app_nth2, L, Nat.sub_diag by lia. exact Hx.
  - rewrite app_nth1 by lia. apply Hl. lia.
Qed.
Lemma nth_map_seq {A} (f : nat -> A) n k d : (k < n)%nat -> nth k (map f (seq 0 n)) d = f k.
Proof. intros H. rewrite (nth_indep _ d (f 0%nat)) by (rewrite map_length, seq_length; exact H). rewrite map_nth, seq_nth by exact H. reflexivity. Qed.
Lemma coef_map_seq (f : nat -> Z) c : (c < 512)%nat -> coef (map f (seq 0 512)) c = f c.
Proof. intros H. unfold coef. apply nth_map_seq. exact H. Qed.
Lemma mod_poly (f : nat -> Z) : is_poly (map (fun c => f c mod q) (seq 0 512)).
Proof.
  split; [rewrite map_length, seq_length; reflexivity|]. apply Forall_forall. intros x Hx. apply in_map_iff in Hx. destruct Hx as (c & <- & _).
  unfold reduced. apply Z.mod_pos_bound. rewrite q_Q, Q_val. reflexivity.
Qed.
Lemma tuple_add_map c : (c < 512)%nat -> forall rs ss, length rs = length ss -> forall ps k, length ps = length rs ->
  esum k (combine ps (map (fun r => coef r c) (tuple_add rs ss))) ==
  esum k (combine ps (map (fun r => coef r c) rs)) + esum k (combine ps (map (fun r => coef r c) ss)).
Proof.
  intros Hc. induction rs as [|r rs IH]; intros [|s ss] L [|[i j] ps] k Lp; cbn [length] in *; try lia; [reflexivity|].
  unfold tuple_add. cbn [combine map esum]. fold (tuple_add rs ss). rewrite (IH ss ltac:(lia) ps k ltac:(lia)).
  unfold ring_add at 1 2. rewrite coef_map_seq by exact Hc.
  assert (X : (coef r c + coef s c) mod q == coef r c + coef s c) by (unfold cg; apply Zmod_mod).
  destruct (Nat.eqb k i), (Nat.eqb k j); rewrite ?X; apply cg_refl'; ring.
Qed.
Lemma tuple_add_ok e rs ss : mask_tuple e rs -> mask_tuple e ss -> mask_tuple e (tuple_add rs ss).
Proof.
  intros [L F] [L' F']. split; [unfold tuple_add; rewrite map_length, combine_length, L, L'; apply Nat.min_id|].
  apply Forall_forall. intros x Hx. apply in_map_iff in Hx. destruct Hx as ([r s] & <- & _). apply ring_add_poly.
Qed.
(* masks that move one view to another *)
Lemma shift_masks e p a a' v v' : (p < 2 ^ e)%nat -> masked (2 ^ e) v -> masked (2 ^ e) v' ->
  exists delta, mask_tuple e delta /\ forall rs, mask_tuple e rs ->
    (agree_except p (2 ^ e) (add_masks e a rs) v <-> agree_except p (2 ^ e) (add_masks e a' (tuple_add rs delta)) v').
Proof.
  intros Hp [Lv Fv] [Lv' Fv'].
  set (T := fun c k => (coef (nth k v' []) c - coef (nth k a' []) c) - (coef (nth k v []) c - coef (nth k a []) c)).
  destruct (list_choice [] (fun c ds => length ds = length (mask_pairs e) /\ forall k, (k < 2 ^ e)%nat -> k <> p -> esum k (combine (mask_pairs e) ds) = T c k) 512) as (dss & Ld & Hd).
  { intros c Hc. apply solve_except. exact Hp. }
  set (delta := map (fun x => map (fun c => nth x (nth c dss []) 0 mod q) (seq 0 512)) (seq 0 (length (mask_pairs e)))).
  assert (Hdel : mask_tuple e delta).
  { split; [unfold delta; rewrite map_length, seq_length; reflexivity|]. apply Forall_forall. intros x Hx. apply in_map_iff in Hx. destruct Hx as (y & <- & _). apply mod_poly. }
  exists delta. split; [exact Hdel|]. intros rs [Lr Fr].
  assert (Sd : forall c k, (c < 512)%nat -> (k < 2 ^ e)%nat -> k <> p -> esum k (combine (mask_pairs e) (map (fun r => coef r c) delta)) == T c k).
  { intros c k Hc Hk N. destruct (Hd c Hc) as [Lc Ec]. rewrite <- (Ec k Hk N).
    assert (M : map (fun r => coef r c) delta = map (fun x => x mod q) (nth c dss [])).
    { unfold delta. rewrite map_map. apply (nth_ext _ _ 0 0); [rewrite !map_length, seq_length; symmetry; exact Lc|].
      rewrite map_length, seq_length. intros n Hn. rewrite nth_map_seq by exact Hn. rewrite coef_map_seq by exact Hc.
      symmetry. rewrite (nth_indep _ 0 (0 mod q)) by (rewrite map_length; lia). rewrite (map_nth (fun x => x mod q)). reflexivity. }
    rewrite M. clear. generalize (mask_pairs e) (nth c dss []). induction l as [|[i j] l IH]; intros [|x ds]; try reflexivity.
    cbn [map combine esum]. rewrite IH. assert (X : x mod q == x) by (unfold cg; apply Zmod_mod).
    destruct (Nat.eqb k i), (Nat.eqb k j); rewrite ?X; apply cg_refl'; ring. }
  assert (View : forall b ss u, masked (2 ^ e) u -> forall k, (k < 2 ^ e)%nat ->
    (nth k (add_masks e b ss) [] = nth k u [] <->
     forall c, (c < 512)%nat -> coef (nth k b []) c + mask_coef k c (combine (mask_pairs e) ss) == coef (nth k u []) c)).
  { intros b ss u [Lu Fu] k Hk. unfold add_masks. rewrite nth_map_seq by exact Hk.
    assert (Pu : is_poly (nth k u [])) by (rewrite Forall_forall in Fu; apply Fu, nth_In; lia). split.
    - intros E c Hc. rewrite <- E, coef_map_seq by exact Hc. unfold cg. symmetry. apply Zmod_mod.
    - intros E. apply poly_ext; [rewrite map_length, seq_length; reflexivity|apply Pu|]. intros c Hc. rewrite coef_map_seq by exact Hc.
      specialize (E c Hc). unfold cg in E. rewrite E. apply mod_q_reduced. apply is_poly_coef'. exact Pu. }
  assert (Key : forall k, (k < 2 ^ e)%nat -> k <> p -> (nth k (add_masks e a rs) [] = nth k v [] <-> nth k (add_masks e a' (tuple_add rs delta)) [] = nth k v' [])).
  { intros k Hk N. rewrite (View a rs v (conj Lv Fv) k Hk), (View a' (tuple_add rs delta) v' (conj Lv' Fv') k Hk).
    assert (R : forall c, (c < 512)%nat -> (coef (nth k a []) c + mask_coef k c (combine (mask_pairs e) rs) == coef (nth k v []) c <->
       coef (nth k a' []) c + mask_coef k c (combine (mask_pairs e) (tuple_add rs delta)) == coef (nth k v' []) c)).
    { intros c Hc. rewrite !mask_coef_esum. rewrite (tuple_add_map c Hc rs delta ltac:(rewrite Lr; symmetry; apply Hdel) (mask_pairs e) k ltac:(symmetry; exact Lr)).
      rewrite (Sd c k Hc Hk N). unfold T. generalize (esum k (combine (mask_pairs e) (map (fun r => coef r c) rs))). intros x.
      generalize (coef (nth k a []) c), (coef (nth k v []) c), (coef (nth k a' []) c), (coef (nth k v' []) c). intros y1 y2 y3 y4. clear.
      split; intros E.
      - transitivity ((y1 + x) + (y4 - y1 - (y2 - y1)) - y1 + y1); [apply cg_refl'; ring|]. rewrite E. apply cg_refl'. ring.
      - transitivity ((y3 + (x + (y4 - y3 - (y2 - y1)))) - y4 + y2); [apply cg_refl'; ring|]. rewrite E. apply cg_refl'. ring. }
    split; intros H c Hc; apply (R c Hc), H, Hc. }
  unfold agree_except. split; intros H k Hk N; apply (Key k Hk N), H; assumption.
Qed.
(* adding a fixed tuple permutes the mask tuples *)
Lemma ring_add_cancel r s : is_poly r -> is_poly s -> ring_add (ring_sub r s) s = r.
Proof.
  intros Hr Hs. apply poly_ext; [apply is_poly_length, ring_add_poly|apply Hr|]. intros c Hc. unfold ring_add, ring_sub. rewrite coef_map_seq by exact Hc.
  rewrite coef_map_seq by exact Hc. rewrite Zplus_mod_idemp_l. replace (coef r c - coef s c + coef s c) with (coef r c) by ring. apply mod_q_reduced, is_poly_coef'. exact Hr.
Qed.
Lemma ring_add_inj r r' s : is_poly r -> is_poly r' -> ring_add r s = ring_add r' s -> r = r'.
Proof.
  intros Hr Hr' E. apply poly_ext; [apply Hr|apply Hr'|]. intros c Hc. assert (X := f_equal (fun p => coef p c) E). cbv beta in X. unfold ring_add in X.
  rewrite !coef_map_seq in X by exact Hc. rewrite <- (mod_q_reduced (coef r c)) by (apply is_poly_coef'; exact Hr). rewrite <- (mod_q_reduced (coef r' c)) by (apply is_poly_coef'; exact Hr').
  change (coef r c + coef s c == coef r' c + coef s c) in X. change (coef r c == coef r' c).
  transitivity (coef r c + coef s c - coef s c); [apply cg_refl'; ring|]. rewrite X. apply cg_refl'. ring.
Qed.
Lemma tuple_add_perm e delta : mask_tuple e delta -> forall rs', mask_tuple e rs' ->
  exists! rs, mask_tuple e rs /\ tuple_add rs delta = rs'.
Proof.
  intros [Ld Fd]. unfold mask_tuple. revert Ld. generalize (length (mask_pairs e)). intros n Ld rs' [Lr' Fr']. subst n.
  revert rs' Lr' Fr'. induction Fd as [|s delta Hs Fd IH]; intros [|r' rs'] L F; cbn [length] in L; try lia.
  - exists []. split; [split; [split; [reflexivity|constructor]|reflexivity]|]. intros [|y ys] [[Hl _] _]; [reflexivity|discriminate].
  - inversion F as [|? ? Hr' F']; subst. destruct (IH rs' ltac:(lia) F') as (rs & [[Lr Fr] E] & U).
    exists (ring_sub r' s :: rs). split.
    + split; [split; [cbn [length]; lia|constructor; [apply ring_sub_poly|exact Fr]]|]. unfold tuple_add in *. cbn [combine map]. rewrite E. f_equal. apply ring_add_cancel; assumption.
    + intros ys [[Ly Fy] Ey]. destruct ys as [|y ys]; [discriminate|]. cbn [length] in Ly. inversion Fy as [|? ? Py Fy']; subst. unfold tuple_add in Ey. cbn [combine map] in Ey. injection Ey as E1 E2.
      f_equal; [|apply U; split; [split; [lia|exact Fy']|exact E2]].
      apply (ring_add_inj _ _ s); [apply ring_sub_poly|exact Py|]. rewrite ring_add_cancel by assumption. symmetry. exact E1.
Qed.
