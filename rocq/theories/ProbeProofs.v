(* Probing security of refresh with ideal masks. *)
From Coq Require Import ZArith Lia Bool List Arith.
From Coq Require Import ZifyBool ZifyNat.
From Verif Require Import Spec SpecMask SpecProbe.
From Verif Require Import ArithLemmas FieldProofs Cong PolyProofs PolyLemmas MaskedProofs MaskUniform ProbeCore.
Import ListNotations.
Open Scope Z_scope.
Ltac Zify.zify_post_hook ::= idtac.

Definition pf (r : nat -> nat -> Z) (p : nat * nat) : Z := r (Nat.log2 (snd p - fst p)) (fst p).
Definition lsum (r : nat -> nat -> Z) (k : nat) (l : list (nat * nat)) : Z := esum k (combine l (map (pf r) l)).
Lemma lsum_app r k l l' : lsum r k (l ++ l') = lsum r k l + lsum r k l'.
Proof.
  unfold lsum. induction l as [|[i j] l IH]; [reflexivity|]. cbn [app map combine esum]. rewrite IH. ring.
Qed.
Lemma lsum_absent r k l : (forall i j, In (i, j) l -> k <> i /\ k <> j) -> lsum r k l = 0.
Proof.
  unfold lsum. induction l as [|[i j] l IH]; intros H; [reflexivity|]. cbn [map combine esum]. rewrite IH by (intros i' j' X; apply H; right; exact X).
  destruct (H i j (or_introl eq_refl)) as [H1 H2]. apply Nat.eqb_neq in H1, H2. rewrite H1, H2. reflexivity.
Qed.
Lemma seq_at s n b : (s <= b < s + n)%nat -> seq s n = seq s (b - s) ++ b :: seq (S b) (s + n - S b).
Proof.
  intros H. replace n with ((b - s) + S (s + n - S b))%nat at 1 by lia. rewrite seq_app. f_equal. cbn [seq]. f_equal; [lia|]. f_equal. lia.
Qed.
Lemma round_at e m k : (m < e)%nat -> (k < 2 ^ e)%nat -> exists l1 l2 i, round_pairs e m = l1 ++ (i, i + 2 ^ m)%nat :: l2 /\
  (if Nat.testbit k m then k = (i + 2 ^ m)%nat else k = i) /\ (forall i' j', In (i', j') (l1 ++ l2) -> k <> i' /\ k <> j').
Proof.
  intros Hm Hk. pose proof (pow2_pos m) as PM. pose proof (pow2_split e m Hm) as PS.
  set (M := (2 ^ m)%nat) in *. set (b := (k / M / 2)%nat). set (x := (k mod M)%nat).
  pose proof (Nat.div_mod k M ltac:(lia)) as E1. pose proof (Nat.div_mod (k / M) 2 ltac:(lia)) as E2. fold b in E2. fold x in E1.
  pose proof (Nat.mod_upper_bound k M ltac:(lia)) as B1. fold x in B1. pose proof (Nat.mod_upper_bound (k / M) 2 ltac:(lia)) as B2.
  assert (KB : forall b' x' t, (x' < M)%nat -> (t < 2)%nat -> k = (b' * (2 * M) + x' + t * M)%nat -> b' = b /\ x' = x).
  { intros b' x' t Hx Ht E. assert (EK : k = (M * (2 * b' + t) + x')%nat) by (rewrite E; ring).
    pose proof (Nat.div_unique k M (2 * b' + t) x' Hx EK) as D1. pose proof (Nat.mod_unique k M (2 * b' + t) x' Hx EK) as D2.
    split; [|exact D2]. unfold b. rewrite <- D1. apply (Nat.div_unique _ 2 b' t); [exact Ht|]. lia. }
  assert (Hb : (b < 2 ^ (e - 1 - m))%nat).
  { apply Nat.nle_gt. intros C. assert (2 ^ (e - 1 - m) * (2 * M) <= b * (2 * M))%nat by (apply Nat.mul_le_mono_r; exact C).
    assert (b * (2 * M) <= k)%nat; [|lia]. rewrite E1, E2. nia. }
  set (BL := fun b0 => map (fun j => (b0 * (2 * M) + j, b0 * (2 * M) + j + M)%nat) (seq 0 M)).
  set (pr := fun j => (b * (2 * M) + j, b * (2 * M) + j + M)%nat).
  assert (EB : BL b = map pr (seq 0 x) ++ pr x :: map pr (seq (S x) (M - S x))).
  { unfold BL. fold pr. rewrite (seq_at 0 M x) by lia. rewrite Nat.sub_0_r, Nat.add_0_l, map_app. reflexivity. }
  assert (ER : round_pairs e m = concat (map BL (seq 0 b)) ++ BL b ++ concat (map BL (seq (S b) (2 ^ (e - 1 - m) - S b)))).
  { unfold round_pairs. fold M. fold BL. rewrite (seq_at 0 (2 ^ (e - 1 - m)) b) by lia. rewrite Nat.sub_0_r, Nat.add_0_l, map_app, concat_app. reflexivity. }
  rewrite ER, EB.
  exists (concat (map BL (seq 0 b)) ++ map pr (seq 0 x)), (map pr (seq (S x) (M - S x)) ++ concat (map BL (seq (S b) (2 ^ (e - 1 - m) - S b)))), (b * (2 * M) + x)%nat.
  split; [|split].
  - rewrite <- !app_assoc. cbn [app]. reflexivity.
  - destruct (Nat.testbit k m) eqn:T.
    + apply Nat.testbit_true in T. fold M in T. rewrite T in E2. rewrite E1, E2. ring.
    + apply Nat.testbit_false in T. fold M in T. rewrite T in E2. rewrite E1, E2. ring.
  - assert (OB : forall b0 i' j', b0 <> b -> In (i', j') (BL b0) -> k <> i' /\ k <> j').
    { intros b0 i' j' N H. unfold BL in H. apply in_map_iff in H. destruct H as (y & E & Hy). apply in_seq in Hy. injection E as <- <-.
      split; intros E; [apply N, (KB b0 y 0%nat); lia|apply N, (KB b0 y 1%nat); lia]. }
    assert (OP : forall s t i' j', (x < s \/ s + t <= x)%nat -> (s + t <= M)%nat -> In (i', j') (map pr (seq s t)) -> k <> i' /\ k <> j').
    { intros s t i' j' N L H. apply in_map_iff in H. destruct H as (y & E & Hy). apply in_seq in Hy. injection E as <- <-.
      split; intros E; [assert (y = x) by (apply (KB b y 0%nat); lia); lia|assert (y = x) by (apply (KB b y 1%nat); lia); lia]. }
    intros i' j' H. rewrite !in_app_iff in H. destruct H as [[H|H]|[H|H]].
    + apply in_concat in H. destruct H as (l & Hl & H). apply in_map_iff in Hl. destruct Hl as (b0 & <- & Hb0). apply in_seq in Hb0. apply (OB b0); [lia|exact H].
    + apply (OP 0%nat x); [lia|lia|exact H].
    + apply (OP (S x) (M - S x)%nat); [lia|lia|exact H].
    + apply in_concat in H. destruct H as (l & Hl & H). apply in_map_iff in Hl. destruct Hl as (b0 & <- & Hb0). apply in_seq in Hb0. apply (OB b0); [lia|exact H].
Qed.
Lemma round_prefix e m k n : (m < e)%nat -> (k < 2 ^ e)%nat -> exists f : bool, (length (round_pairs e m) <= n -> f = true)%nat /\
  forall r, lsum r k (firstn n (round_pairs e m)) = if f then term r m k else 0.
Proof.
  intros Hm Hk. destruct (round_at e m k Hm Hk) as (l1 & l2 & i & E & Ei & A). rewrite E.
  assert (A1 : forall n' i' j', In (i', j') (firstn n' l1) -> k <> i' /\ k <> j').
  { intros n' i' j' H. apply A. apply in_or_app. left. rewrite <- (firstn_skipn n' l1). apply in_or_app. left. exact H. }
  destruct (Nat.le_gt_cases n (length l1)) as [L|L].
  - exists false. split; [rewrite app_length; cbn [length]; lia|]. intros r. rewrite firstn_app. replace (n - length l1)%nat with 0%nat by lia. cbn [firstn]. rewrite app_nil_r.
    apply lsum_absent, A1.
  - exists true. split; [reflexivity|]. intros r. rewrite firstn_app, firstn_all2 by lia. replace (n - length l1)%nat with (S (n - S (length l1))) by lia. cbn [firstn].
    rewrite lsum_app. rewrite (lsum_absent r k l1) by (intros i' j' H; apply A, in_or_app; left; exact H).
    change ((i, (i + 2 ^ m)%nat) :: firstn (n - S (length l1)) l2) with ([(i, (i + 2 ^ m)%nat)] ++ firstn (n - S (length l1)) l2). rewrite lsum_app.
    rewrite (lsum_absent r k (firstn _ l2)).
    2:{ intros i' j' H. apply A. apply in_or_app. right. rewrite <- (firstn_skipn (n - S (length l1)) l2). apply in_or_app. left. exact H. }
    unfold lsum, pf. cbn [map combine esum fst snd]. replace (i + 2 ^ m - i)%nat with (2 ^ m)%nat by lia. rewrite Nat.log2_pow2 by lia.
    pose proof (pow2_pos m) as PM. unfold term. destruct (Nat.testbit k m); subst k.
    + replace (Nat.eqb (i + 2 ^ m) i) with false by (symmetry; apply Nat.eqb_neq; lia). rewrite Nat.eqb_refl. replace (i + 2 ^ m - 2 ^ m)%nat with i by lia. ring.
    + rewrite Nat.eqb_refl. replace (Nat.eqb i (i + 2 ^ m)) with false by (symmetry; apply Nat.eqb_neq; lia). ring.
Qed.
Lemma prefix_part e k n : (k < 2 ^ e)%nat -> forall t, (t <= e)%nat -> exists m, (m <= t)%nat /\
  (length (concat (map (round_pairs e) (seq 0 t))) <= n -> m = t)%nat /\
  forall r, lsum r k (firstn n (concat (map (round_pairs e) (seq 0 t)))) = part r m k.
Proof.
  intros Hk. induction t as [|t IH]; intros Ht.
  - exists 0%nat. split; [lia|]. split; [reflexivity|]. intros r. cbn [seq map concat]. rewrite firstn_nil. reflexivity.
  - destruct (IH ltac:(lia)) as (m & Lm & Fm & Em). rewrite seq_S, map_app, concat_app. cbn [map concat Nat.add]. rewrite app_nil_r.
    set (L := concat (map (round_pairs e) (seq 0 t))) in *. destruct (Nat.le_gt_cases n (length L)) as [C|C].
    + destruct (Nat.eq_dec (length (round_pairs e t)) 0) as [Z|Z].
      * exfalso. destruct (round_at e t k ltac:(lia) Hk) as (l1 & l2 & i & E & _). rewrite E, app_length in Z. cbn [length] in Z. lia.
      * exists m. split; [lia|]. split; [rewrite app_length; lia|]. intros r. rewrite firstn_app. replace (n - length L)%nat with 0%nat by lia. cbn [firstn]. rewrite app_nil_r. apply Em.
    + destruct (round_prefix e t k (n - length L) ltac:(lia) Hk) as (f & Ff & Ef). specialize (Fm ltac:(lia)). subst m.
      exists (if f then S t else t). split; [destruct f; lia|]. split; [rewrite app_length; intros H; rewrite Ff by lia; reflexivity|].
      intros r. rewrite firstn_app, lsum_app, Em, Ef. destruct f; [rewrite part_S; reflexivity|ring].
Qed.
Lemma mask_at e n : (n < length (mask_pairs e))%nat -> exists m i, nth n (mask_pairs e) (0%nat, 0%nat) = (i, i + 2 ^ m)%nat /\ (m < e /\ i < 2 ^ e)%nat /\ Nat.testbit i m = false.
Proof.
  intros H. apply (nth_In _ (0%nat, 0%nat)) in H. destruct (nth n (mask_pairs e) (0%nat, 0%nat)) as [i j]. unfold mask_pairs in H.
  apply in_concat in H. destruct H as (l & Hl & H). apply in_map_iff in Hl. destruct Hl as (m & <- & Hm). apply in_seq in Hm.
  unfold round_pairs in H. apply in_concat in H. destruct H as (l & Hl & H). apply in_map_iff in Hl. destruct Hl as (b & <- & Hb). apply in_seq in Hb.
  apply in_map_iff in H. destruct H as (x & E & Hx). apply in_seq in Hx. injection E as <- <-.
  pose proof (pow2_pos m) as PM. pose proof (pow2_split e m ltac:(lia)) as PS. exists m, (b * (2 * 2 ^ m) + x)%nat. split; [reflexivity|].
  assert ((b + 1) * (2 * 2 ^ m) <= 2 ^ (e - 1 - m) * (2 * 2 ^ m))%nat by (apply Nat.mul_le_mono_r; lia).
  split; [lia|]. apply Nat.testbit_false. rewrite <- (Nat.div_unique (b * (2 * 2 ^ m) + x) (2 ^ m) (2 * b) x); [rewrite Nat.mul_comm; apply Nat.mod_mul; discriminate|lia|ring].
Qed.

(* integer value of a wire when the inputs are zero *)
Definition ival (e : nat) (r : nat -> nat -> Z) (w : wire) : Z :=
  match w with
  | wire_input _ => 0
  | wire_mask n => pf r (nth n (mask_pairs e) (0%nat, 0%nat))
  | wire_acc n k => lsum r k (firstn n (mask_pairs e))
  end.
Lemma translate e W : Forall (wire_ok e) W -> exists PW KI, (length PW + length KI <= length W)%nat /\ Forall (pok e) PW /\ Forall (fun k => (k < 2 ^ e)%nat) KI /\
  (forall k, In (wire_input k) W -> In k KI) /\
  forall r, (forall p, In p PW -> pval r p = 0) -> forall w, In w W -> ival e r w = 0.
Proof.
  induction 1 as [|w W Hw F IH]; [exists [], []; split; [cbn; lia|]; split; [constructor|]; split; [constructor|]; split; [intros k []|intros r _ w []]|].
  destruct IH as (PW & KI & L & FP & FK & HI & HV).
  destruct w as [k|n|n k]; cbn [wire_ok] in Hw.
  - exists PW, (k :: KI). split; [cbn [length]; lia|]. split; [exact FP|]. split; [constructor; assumption|]. split.
    + intros k' [E|H]; [injection E as ->; left; reflexivity|right; apply HI, H].
    + intros r Hr w [<-|H]; [reflexivity|apply HV; assumption].
  - destruct (mask_at e n Hw) as (m & i & E & (H1 & H2) & H3). exists (Pmask m i :: PW), KI. split; [cbn [length]; lia|]. split; [constructor; [cbn [pok]; auto|exact FP]|]. split; [exact FK|]. split.
    + intros k' [X|H]; [discriminate|apply HI, H].
    + intros r Hr w [<-|H]; [|apply HV; [intros p Hp; apply Hr; right; exact Hp|exact H]].
      cbn [ival]. rewrite E. unfold pf. cbn [fst snd]. replace (i + 2 ^ m - i)%nat with (2 ^ m)%nat by lia. rewrite Nat.log2_pow2 by lia.
      exact (Hr (Pmask m i) (or_introl eq_refl)).
  - destruct (prefix_part e k n (proj2 Hw) e (le_n _)) as (m & Lm & _ & Em). exists (Ppart m k :: PW), KI. split; [cbn [length]; lia|]. split; [constructor; [cbn [pok]; lia|exact FP]|]. split; [exact FK|]. split.
    + intros k' [X|H]; [discriminate|apply HI, H].
    + intros r Hr w [<-|H]; [|apply HV; [intros p Hp; apply Hr; right; exact Hp|exact H]].
      cbn [ival]. etransitivity; [apply Em|]. exact (Hr (Ppart m k) (or_introl eq_refl)).
Qed.
Lemma free_position d (L : list nat) : (length L < d)%nat -> exists p, (p < d)%nat /\ ~ In p L.
Proof.
  intros H. destruct (existsb (fun p => negb (mem p L)) (seq 0 d)) eqn:E.
  - apply existsb_exists in E. destruct E as (p & Hp & N). apply in_seq in Hp. exists p. split; [lia|]. intros X. apply mem_In in X. rewrite X in N. discriminate.
  - exfalso. assert (I : incl (seq 0 d) L).
    { intros p Hp. apply mem_In. destruct (mem p L) eqn:M; [reflexivity|]. assert (X : existsb (fun p => negb (mem p L)) (seq 0 d) = true); [|congruence]. apply existsb_exists. exists p. split; [exact Hp|]. rewrite M. reflexivity. }
    apply NoDup_incl_length in I; [rewrite seq_length in I; lia|apply seq_NoDup].
Qed.
Lemma Zsum_at n p (u : nat -> Z) : (p < n)%nat -> Zsum n (fun k => if Nat.eqb k p then - Zsum n (fun j => if Nat.eqb j p then 0 else u j) else u k) = 0.
Proof.
  intros Hp. set (s := Zsum n (fun j => if Nat.eqb j p then 0 else u j)).
  assert (X : forall j, Zsum j (fun k => if Nat.eqb k p then - s else u k) = Zsum j (fun k => if Nat.eqb k p then 0 else u k) - (if (p <? j)%nat then s else 0)).
  { induction j as [|j IH]; [reflexivity|]. cbn [Zsum]. rewrite IH. destruct (Nat.eqb_spec j p) as [->|Nj].
    - replace (p <? p)%nat with false by (symmetry; apply Nat.ltb_irrefl). replace (p <? S p)%nat with true by (symmetry; apply Nat.ltb_lt; lia). lia.
    - replace (p <? S j)%nat with (p <? j)%nat by (destruct (Nat.ltb_spec p j), (Nat.ltb_spec p (S j)); try reflexivity; lia). lia. }
  rewrite X. replace (p <? n)%nat with true by (symmetry; apply Nat.ltb_lt; exact Hp). fold s. lia.
Qed.
Lemma lsum_mod r k : forall l, esum k (combine l (map (fun p => pf r p mod q) l)) == lsum r k l.
Proof.
  unfold lsum. induction l as [|[i j] l IH]; [reflexivity|]. cbn [map combine esum]. rewrite IH.
  assert (X : pf r (i, j) mod q == pf r (i, j)) by (unfold cg; apply Zmod_mod). destruct (Nat.eqb k i), (Nat.eqb k j); rewrite ?X; apply cg_refl'; ring.
Qed.
Lemma firstn_tuple_add n : forall rs ss, firstn n (tuple_add rs ss) = tuple_add (firstn n rs) (firstn n ss).
Proof. intros rs ss. unfold tuple_add. rewrite firstn_map, combine_firstn. reflexivity. Qed.
Lemma nth_tuple_add : forall rs ss n, (n < length rs)%nat -> (n < length ss)%nat -> nth n (tuple_add rs ss) [] = ring_add (nth n rs []) (nth n ss []).
Proof.
  induction rs as [|r rs IH]; intros [|s ss] [|n] H1 H2; cbn [length] in *; try lia; [reflexivity|]. unfold tuple_add. cbn [combine map nth]. apply IH; lia.
Qed.
Definition dnull : nat -> nat -> Z := fun _ _ => 0.
Lemma probe_shift e (W : list wire) (Oq : list nat) : Forall (wire_ok e) W -> Forall (fun k => (k < 2 ^ e)%nat) Oq -> (length W + length Oq < 2 ^ e)%nat ->
  exists K, (length K <= length W)%nat /\ Forall (fun k => (k < 2 ^ e)%nat) K /\ forall v, masked (2 ^ e) v -> (forall k, In k K -> nth k v [] = ring_zero) ->
  exists delta, mask_tuple e delta /\ forall x rs, masked (2 ^ e) x -> mask_tuple e rs ->
    (forall w, In w W -> wire_value e x rs w = wire_value e (tuple_add x v) (tuple_add rs delta) w) /\
    (forall k, In k Oq -> nth k (add_masks e x rs) [] = nth k (add_masks e (tuple_add x v) (tuple_add rs delta)) []).
Proof.
  intros FW FO HL. destruct (translate e W FW) as (PW & KI & L & FP & FK & HI & HV). destruct (probes_core e PW FP) as (J & LJ & FJ & HJ).
  exists (J ++ KI). split; [rewrite app_length; lia|]. split; [apply Forall_app; split; assumption|]. intros v [Lv Fv] AG.
  destruct (free_position (2 ^ e) (J ++ Oq)) as (p & Hp & Np); [rewrite app_length; lia|].
  set (u := fun c k => if mem k Oq then - coef (nth k v []) c else 0).
  set (D := fun c k => if Nat.eqb k p then - Zsum (2 ^ e) (fun j => if Nat.eqb j p then 0 else u c j) else u c k).
  destruct (list_choice dnull (fun c r => (forall k, (k < 2 ^ e)%nat -> part r e k = D c k) /\ forall w, In w PW -> pval r w = 0) 512) as (rl & Ll & Hl).
  { intros c Hc. apply HJ; [apply Zsum_at; exact Hp|]. intros k Hk. unfold D. destruct (Nat.eqb_spec k p) as [->|_]; [exfalso; apply Np, in_or_app; left; exact Hk|].
    unfold u. destruct (mem k Oq); [|reflexivity]. rewrite (AG k) by (apply in_or_app; left; exact Hk). rewrite coef_ring_zero. reflexivity. }
  set (pairs := mask_pairs e). set (R := fun c => nth c rl dnull).
  set (delta := map (fun pr => map (fun c => pf (R c) pr mod q) (seq 0 512)) pairs).
  assert (Hdel : mask_tuple e delta).
  { split; [unfold delta; rewrite map_length; reflexivity|]. apply Forall_forall. intros y Hy. apply in_map_iff in Hy. destruct Hy as (pr & <- & _). apply mod_poly. }
  exists delta. split; [exact Hdel|]. intros x rs [Lx Fx] [Lr Fr].
  assert (CD : forall c, (c < 512)%nat -> map (fun y => coef y c) delta = map (fun pr => pf (R c) pr mod q) pairs).
  { intros c Hc. unfold delta. rewrite map_map. apply map_ext. intros pr. apply coef_map_seq. exact Hc. }
  assert (LD : length delta = length pairs) by apply Hdel.
  assert (PRE : forall c k n, (c < 512)%nat -> mask_coef k c (firstn n (combine pairs (tuple_add rs delta))) == mask_coef k c (firstn n (combine pairs rs)) + lsum (R c) k (firstn n pairs)).
  { intros c k n Hc. rewrite !combine_firstn, firstn_tuple_add, !mask_coef_esum.
    rewrite (tuple_add_map c Hc (firstn n rs) (firstn n delta)) by (rewrite !firstn_length; unfold pairs in *; lia).
    rewrite <- (firstn_map (fun r => coef r c) n delta), (CD c Hc), (firstn_map (fun pr => pf (R c) pr mod q) n pairs), lsum_mod. reflexivity. }
  assert (Z0 : forall c w, (c < 512)%nat -> In w W -> ival e (R c) w = 0).
  { intros c w Hc Hw. apply HV; [|exact Hw]. apply (Hl c Hc). }
  split.
  - intros w Hw. destruct w as [k|n|n k]; cbn [wire_value].
    + rewrite Forall_forall in FW. pose proof (FW _ Hw) as Hn. cbn [wire_ok] in Hn. rewrite nth_tuple_add by lia. rewrite (AG k) by (apply in_or_app; right; apply HI, Hw).
      assert (Pn : is_poly (nth k x [])) by (rewrite Forall_forall in Fx; apply Fx, nth_In; lia).
      apply poly_ext; [apply Pn|apply is_poly_length, ring_add_poly|]. intros c Hc. unfold ring_add. rewrite coef_map_seq by exact Hc.
      rewrite coef_ring_zero, Z.add_0_r. symmetry. apply mod_q_reduced, is_poly_coef'. exact Pn.
    + rewrite Forall_forall in FW. pose proof (FW _ Hw) as Hn. cbn [wire_ok] in Hn. rewrite nth_tuple_add by (unfold pairs in *; lia).
      assert (Pn : is_poly (nth n rs [])) by (rewrite Forall_forall in Fr; apply Fr, nth_In; lia).
      apply poly_ext; [apply Pn|apply is_poly_length, ring_add_poly|]. intros c Hc. unfold ring_add. rewrite coef_map_seq by exact Hc.
      assert (Dn : coef (nth n delta []) c = 0).
      { pose proof (Z0 c _ Hc Hw) as X. cbn [ival] in X. fold pairs in X. unfold delta.
        rewrite (nth_indep _ [] ((fun pr => map (fun c => pf (R c) pr mod q) (seq 0 512)) (0%nat, 0%nat))) by (rewrite map_length; exact Hn).
        rewrite (map_nth (fun pr => map (fun c => pf (R c) pr mod q) (seq 0 512))). rewrite coef_map_seq by exact Hc. rewrite X. apply Z.mod_0_l. rewrite q_Q, Q_val. discriminate. }
      rewrite Dn, Z.add_0_r. symmetry. apply mod_q_reduced, is_poly_coef'. exact Pn.
    + unfold accumulator. apply map_ext_in. intros c Hc. apply in_seq in Hc. pose proof (Z0 c _ ltac:(lia) Hw) as X. cbn [ival] in X. fold pairs in X |- *.
      pose proof (PRE c k n ltac:(lia)) as Y. rewrite X, Z.add_0_r in Y. symmetry. exact Y.
  - intros k Hk. assert (Bk : (k < 2 ^ e)%nat) by (rewrite Forall_forall in FO; apply FO, Hk). unfold add_masks. rewrite !nth_map_seq by exact Bk.
    apply map_ext_in. intros c Hc. apply in_seq in Hc. assert (Hc' : (c < 512)%nat) by lia.
    pose proof (PRE c k (length pairs) Hc') as Y. rewrite !firstn_all2 in Y; [|apply le_n|rewrite combine_length; apply Nat.le_min_l|rewrite combine_length; apply Nat.le_min_l]. fold pairs.
    assert (S1 : lsum (R c) k pairs = - coef (nth k v []) c).
    { destruct (prefix_part e k (length pairs) Bk e (le_n _)) as (m & _ & Fm & Em). specialize (Fm (le_n _)). subst m.
      pose proof (Em (R c)) as E. unfold pairs, mask_pairs in E. rewrite firstn_all in E. unfold pairs, mask_pairs. rewrite E.
      pose proof (proj1 (Hl c Hc') k Bk) as E3. change (part (R c) e k = D c k) in E3. rewrite E3. unfold D. destruct (Nat.eqb_spec k p) as [->|_]; [exfalso; apply Np, in_or_app; right; exact Hk|].
      unfold u. replace (mem k Oq) with true by (symmetry; apply mem_In; exact Hk). reflexivity. }
    change (coef (nth k x []) c + mask_coef k c (combine pairs rs) == coef (nth k (tuple_add x v) []) c + mask_coef k c (combine pairs (tuple_add rs delta))).
    rewrite Y, S1, nth_tuple_add by lia. unfold ring_add at 1. rewrite coef_map_seq by exact Hc'.
    assert (M : (coef (nth k x []) c + coef (nth k v []) c) mod q == coef (nth k x []) c + coef (nth k v []) c) by (unfold cg; apply Zmod_mod).
    rewrite M. apply cg_refl'. ring.
Qed.
