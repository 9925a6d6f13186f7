(* zero_encoding and refresh add the masks drawn from the generators to the pairs of SpecMask.v. *)
From Coq Require Import ZArith Lia Bool List Arith.
From Coq Require Import ZifyBool ZifyNat.
From Verif Require Import ModelBase ModelU128 ModelField ModelUtils ModelPoly ModelVec.
From Verif Require Import Spec SpecMask.
From Verif Require Import Words FieldProofs ArithLemmas PolyProofs NttLayers Cong MaskedProofs PolyLemmas SigEnc MaskUniform.
Import ListNotations.
Open Scope Z_scope.
Ltac Zify.zify_post_hook ::= idtac.

(* the masks are the polynomials returned, one after the other, by the generators with the numbers of
   the first shares of the pairs *)
Fixpoint drawn (O : oracles) (fuel d : nat) (ps : list (nat * nat)) (g : mrng) (rs : list (list Z)) (g' : mrng) : Prop :=
  match ps, rs with
  | [], [] => g = g'
  | (i, _) :: ps, r :: rs => exists g1, sample_polynomial O fuel d i g = Ok (r, g1) /\ drawn O fuel d ps g1 rs g'
  | _, _ => False
  end.

Definition pstep (O : oracles) (fuel d : nat) (st : mpoly * mrng) (ij : nat * nat) : res (mpoly * mrng) :=
  zenc_step O fuel d (snd ij - fst ij) st (fst ij).
Lemma foldM_app {S A} (f : S -> A -> res S) l l' s : foldM f (l ++ l') s = (s' <- foldM f l s ;; foldM f l' s').
Proof. revert s. induction l as [|a l IH]; intros s; [reflexivity|]. cbn [app foldM]. destruct (f s a); cbn [bind]; [apply IH|reflexivity|reflexivity]. Qed.
Lemma foldM_concat {S A} (f : S -> A -> res S) ll : forall s, foldM f (concat ll) s = foldM (fun s l => foldM f l s) ll s.
Proof.
  induction ll as [|l ll IH]; intros s; [reflexivity|]. cbn [concat foldM]. rewrite foldM_app. destruct (foldM f l s); cbn [bind]; [apply IH|reflexivity|reflexivity].
Qed.
Lemma foldM_map {S A B} (f : S -> B -> res S) (h : A -> B) l : forall s, foldM f (map h l) s = foldM (fun s a => f s (h a)) l s.
Proof. induction l as [|a l IH]; intros s; [reflexivity|]. cbn [map foldM]. destruct (f s (h a)); cbn [bind]; [apply IH|reflexivity|reflexivity]. Qed.
Lemma foldM_ext {S A} (f g : S -> A -> res S) l : (forall s a, In a l -> f s a = g s a) -> forall s, foldM f l s = foldM g l s.
Proof.
  induction l as [|a l IH]; intros H s; [reflexivity|]. cbn [foldM]. rewrite (H s a (or_introl eq_refl)). destruct (g s a); cbn [bind]; [|reflexivity..].
  apply IH. intros s' b Hb. apply H. right. exact Hb.
Qed.
Lemma seq_map_add i n : seq i n = map (fun j => (i + j)%nat) (seq 0 n).
Proof. revert i. induction n as [|n IH]; intros i; [reflexivity|]. cbn [seq map]. rewrite Nat.add_0_r. f_equal. rewrite (IH (S i)), (IH 1%nat), map_map. apply map_ext. intros j. lia. Qed.
(* one round of the network *)
Lemma round_eq O fuel e m st : (m < e)%nat ->
  foldM (fun st i => foldM (zenc_step O fuel (2 ^ e) (2 ^ m)) (seq i (2 ^ m)) st) (range_step (2 ^ e) (2 * 2 ^ m)) st
  = foldM (pstep O fuel (2 ^ e)) (round_pairs e m) st.
Proof.
  intros H. unfold round_pairs. rewrite foldM_concat, foldM_map. unfold range_step. rewrite foldM_map.
  pose proof (pow2_pos m) as PM. pose proof (pow2_split e m H) as PS.
  replace ((2 ^ e + 2 * 2 ^ m - 1) / (2 * 2 ^ m))%nat with (2 ^ (e - 1 - m))%nat.
  - apply foldM_ext. intros s b _. rewrite seq_map_add, !foldM_map. apply foldM_ext. intros s' j _. unfold pstep. cbn [fst snd]. f_equal. rewrite (Nat.add_comm _ (2 ^ m)), Nat.add_sub. reflexivity.
  - rewrite <- PS. set (x := (2 ^ (e - 1 - m))%nat). set (y := (2 * 2 ^ m)%nat). assert (0 < y)%nat by (unfold y; lia).
    symmetry. transitivity ((y - 1 + x * y) / y)%nat; [f_equal; lia|]. rewrite Nat.div_add by lia. rewrite Nat.div_small by lia. reflexivity.
Qed.
Lemma while_eq O fuel e : forall n j st, (e <= j + n)%nat ->
  zenc_while O fuel n (2 ^ e) (2 ^ j) st = foldM (pstep O fuel (2 ^ e)) (concat (map (round_pairs e) (seq j (e - j)))) st.
Proof.
  induction n as [|n IH]; intros j st H.
  - replace (e - j)%nat with 0%nat by lia. cbn [zenc_while seq map concat foldM]. replace (2 ^ e <=? 2 ^ j)%nat with true; [reflexivity|].
    symmetry. apply Nat.leb_le. apply Nat.pow_le_mono_r; lia.
  - cbn [zenc_while]. destruct (le_lt_dec e j) as [D|D].
    + replace (e - j)%nat with 0%nat by lia. replace (2 ^ e <=? 2 ^ j)%nat with true; [reflexivity|]. symmetry. apply Nat.leb_le. apply Nat.pow_le_mono_r; lia.
    + replace (2 ^ e <=? 2 ^ j)%nat with false by (symmetry; apply Nat.leb_gt; apply Nat.pow_lt_mono_r; lia).
      replace (e - j)%nat with (S (e - S j)) by lia. cbn [seq map concat]. rewrite foldM_app, <- (round_eq O fuel e j st D).
      match goal with |- bind ?x _ = bind ?y _ => change y with x; destruct x as [st'| |]; cbn [bind]; [|reflexivity..] end.
      change (2 * 2 ^ j)%nat with (2 ^ S j)%nat. apply IH. lia.
Qed.
Lemma zenc_network O fuel e g :
  mp_zero_encoding O fuel (2 ^ e) g = foldM (pstep O fuel (2 ^ e)) (mask_pairs e) (repeat (poly_fill 0) (2 ^ e), g).
Proof.
  unfold mp_zero_encoding. destruct e as [|e]; [reflexivity|].
  replace (1 <? 2 ^ S e)%nat with true by (symmetry; apply Nat.ltb_lt; cbn [Nat.pow]; pose proof (pow2_pos e); lia).
  unfold mask_pairs. cbn [seq map concat]. rewrite foldM_app, <- round_eq by lia. cbn [Nat.pow Nat.mul Nat.add].
  assert (R : forall st, foldM (fun st i => foldM (zenc_step O fuel (2 ^ S e) 1) (seq i 1) st) (range_step (2 ^ S e) 2) st = foldM (zenc_step O fuel (2 ^ S e) 1) (range_step (2 ^ S e) 2) st).
  { intros st. apply foldM_ext. intros s a _. cbn [seq foldM]. destruct (zenc_step O fuel (2 ^ S e) 1 s a); reflexivity. }
  cbn [Nat.pow Nat.mul Nat.add] in R. rewrite R. destruct (foldM _ (range_step _ 2) _) as [st| |]; cbn [bind]; [|reflexivity..].
  pose proof (while_eq O fuel (S e) (2 ^ S e) 1 st) as W. cbn [Nat.pow Nat.mul Nat.add] in W. rewrite W.
  - rewrite Nat.sub_succ, Nat.sub_0_r. reflexivity.
  - assert (e < 2 ^ e)%nat by (apply Nat.pow_gt_lin_r; lia). lia.
Qed.
Lemma nth_upd_any {A} (i k : nat) (x d : A) l : (i < length l)%nat -> nth k (upd i x l) d = if Nat.eqb k i then x else nth k l d.
Proof.
  revert i k. induction l as [|y l IH]; intros [|i] [|k] H; cbn [length] in H; try lia; try reflexivity. cbn [upd nth Nat.eqb]. apply IH. lia.
Qed.
Lemma network_masks O fuel d : forall ps z0 g z g', mp_ok d z0 -> (forall i j, In (i, j) ps -> (i < j < d)%nat) ->
  foldM (pstep O fuel d) ps (z0, g) = Ok (z, g') ->
  exists rs, length rs = length ps /\ Forall is_poly rs /\ drawn O fuel d ps g rs g' /\ mp_ok d z /\
    forall k c, (k < d)%nat -> (c < 512)%nat -> coef (nth k z []) c == coef (nth k z0 []) c + mask_coef k c (combine ps rs).
Proof.
  induction ps as [|[i j] ps IH]; intros z0 g z g' Hz Hps E.
  - cbn [foldM] in E. inversion E; subst. exists []. repeat split; try constructor; try apply Hz. intros k c _ _. apply cg_refl'. symmetry. apply Z.add_0_r.
  - cbn [foldM] in E. destruct (Hps i j (or_introl eq_refl)) as [H1 H2]. apply bind_ok_inv in E. destruct E as ([z1 g1] & E1 & E).
    unfold pstep in E1. cbn [fst snd] in E1. unfold zenc_step in E1. apply bind_ok_inv in E1. destruct E1 as ([r g2] & Er & E1).
    replace (i + (j - i))%nat with j in E1 by lia. pose proof (proj1 Hz) as Lz. unfold poly, mpoly in *. rewrite Lz in E1.
    replace (j <? d)%nat with true in E1 by (symmetry; apply Nat.ltb_lt; exact H2). injection E1 as <- <-.
    pose proof (wp_Ok _ _ _ (sample_polynomial_poly O fuel d i g) Er) as Pr. cbn [fst] in Pr.
    assert (N1 : is_poly (nth i z0 [])) by (apply (mp_ok_nth d); [exact Hz|lia]).
    assert (N2 : is_poly (nth j z0 [])) by (apply (mp_ok_nth d); [exact Hz|lia]).
    rewrite upd_nth_neq in E by lia.
    destruct (IH _ _ _ _ (mp_ok_upd d _ j _ (mp_ok_upd d z0 i _ Hz (poly_add_c _ _ N1 Pr)) (poly_sub_c _ _ N2 Pr)) (fun i j H => Hps i j (or_intror H)) E) as (rs & Lr & Fr & Dr & Hz' & Sum).
    exists (r :: rs). split; [cbn [length]; lia|]. split; [constructor; assumption|]. split; [cbn [drawn]; exists g2; split; assumption|]. split; [exact Hz'|].
    intros k c Hk Hc. rewrite (Sum k c Hk Hc). cbn [combine mask_coef]. rewrite nth_upd_any by (rewrite upd_length; lia). rewrite nth_upd_any by lia.
    destruct (Nat.eqb_spec k j) as [->|Nj].
    + replace (Nat.eqb j i) with false by (symmetry; apply Nat.eqb_neq; lia). rewrite coef_poly_sub by (try assumption; apply is_poly_wpoly; assumption). apply cg_refl'. ring.
    + destruct (Nat.eqb_spec k i) as [->|Ni].
      * rewrite coef_poly_add by (try assumption; apply is_poly_wpoly; assumption). apply cg_refl'. ring.
      * apply cg_refl'. ring.
Qed.
Lemma pairs_range e i j : In (i, j) (mask_pairs e) -> (i < j < 2 ^ e)%nat.
Proof. intros H. destruct (mask_pairs_in e i j H) as (m & _ & -> & L). pose proof (pow2_pos m). lia. Qed.
(* refresh of a masked polynomial *)
Lemma refresh_masks O fuel e a g a1 g' : masked (2 ^ e) a -> mp_refresh O fuel (2 ^ e) a g = Ok (a1, g') ->
  exists rs, mask_tuple e rs /\ drawn O fuel (2 ^ e) (mask_pairs e) g rs g' /\ a1 = add_masks e a rs.
Proof.
  intros Ha E. unfold mp_refresh in E. apply bind_ok_inv in E. destruct E as ([z g1] & Ez & E). injection E as <- <-.
  rewrite zenc_network in Ez. destruct (network_masks O fuel (2 ^ e) _ _ _ _ _ (proj1 (zero_shares_ok (2 ^ e))) (pairs_range e) Ez) as (rs & Lr & Fr & Dr & Hz & Sum).
  exists rs. split; [split; assumption|]. split; [exact Dr|].
  pose proof (mp_add_ok _ _ _ Ha Hz) as Hs. unfold poly, mpoly in *. apply (nth_ext _ _ [] []).
  - rewrite (proj1 Hs). unfold add_masks. rewrite map_length, seq_length. reflexivity.
  - intros k Hk. rewrite (proj1 Hs) in Hk. unfold add_masks. rewrite nth_map_seq by exact Hk.
    pose proof (mp_ok_nth _ _ k Ha Hk) as Pa. pose proof (mp_ok_nth _ _ k Hz Hk) as Pz.
    assert (N : nth k (mp_add a z) [] = poly_add (nth k a []) (nth k z [])) by (unfold mp_add; apply map2_nth; [exact (eq_ind_r (fun n => (k < n)%nat) Hk (proj1 Ha))|exact (eq_ind_r (fun n => (k < n)%nat) Hk (proj1 Hz))]).
    etransitivity; [exact N|]. rewrite poly_add_ring by assumption. unfold ring_add. apply map_ext_in. intros c Hc. apply in_seq in Hc.
    change (coef (nth k a []) c + coef (nth k z []) c == coef (nth k a []) c + mask_coef k c (combine (mask_pairs e) rs)).
    rewrite (Sum k c Hk (proj2 Hc)).
    assert (Z0 : coef (nth k (repeat (poly_fill 0) (2 ^ e)) []) c = 0).
    { change (poly_fill 0) with poly_zero. rewrite poly_zero_eq. assert (X : nth k (repeat ring_zero (2 ^ e)) [] = ring_zero) by (rewrite (nth_indep _ [] ring_zero) by (rewrite repeat_length; exact Hk); apply nth_repeat). etransitivity; [exact (f_equal (fun p => coef p c) X)|apply coef_ring_zero]. }
    unfold poly, mpoly in *. rewrite Z0. apply cg_refl'. ring.
Qed.

(* refresh of a vector: row after row *)
Fixpoint drawn_rows (O : oracles) (fuel e : nat) (g : mrng) (rss : list (list (list Z))) (g' : mrng) : Prop :=
  match rss with
  | [] => g = g'
  | rs :: rss => exists g1, drawn O fuel (2 ^ e) (mask_pairs e) g rs g1 /\ drawn_rows O fuel e g1 rss g'
  end.
Lemma pv_refresh_masks O fuel e : forall v acc g w g', Forall (masked (2 ^ e)) v ->
  foldM (fun '(acc, m) row => '(z, m) <- mp_refresh O fuel (2 ^ e) row m ;; Ok (acc ++ [z], m)) v (acc, g) = Ok (w, g') ->
  exists rss, length rss = length v /\ Forall (mask_tuple e) rss /\ drawn_rows O fuel e g rss g' /\
    w = acc ++ map (fun '(row, rs) => add_masks e row rs) (combine v rss).
Proof.
  induction v as [|row v IH]; intros acc g w g' F E.
  - cbn [foldM] in E. injection E as <- <-. exists []. repeat split; [constructor|cbn; rewrite app_nil_r; reflexivity].
  - inversion F as [|? ? Hr F']; subst. cbn [foldM] in E. apply bind_ok_inv in E. destruct E as ([acc1 g1] & E1 & E).
    apply bind_ok_inv in E1. destruct E1 as ([z g2] & Er & E1). injection E1 as <- <-.
    destruct (refresh_masks O fuel e row g z g2 Hr Er) as (rs & Mt & Dr & ->). destruct (IH _ _ _ _ F' E) as (rss & L & Fm & D & ->).
    exists (rs :: rss). split; [cbn [length]; lia|]. split; [constructor; assumption|]. split; [exists g2; split; assumption|].
    cbn [combine map]. rewrite <- app_assoc. reflexivity.
Qed.
Lemma zero_tuple e : mask_tuple e (repeat ring_zero (length (mask_pairs e))).
Proof. split; [apply repeat_length|]. apply Forall_forall. intros x Hx. apply repeat_spec in Hx. subst x. apply ring_zero_poly. Qed.
Lemma add_masks_masked e a rs : masked (2 ^ e) (add_masks e a rs).
Proof.
  split; [unfold add_masks; rewrite map_length, seq_length; reflexivity|]. apply Forall_forall. intros x Hx. apply in_map_iff in Hx. destruct Hx as (k & <- & _).
  apply (mod_poly (fun c => coef (nth k a []) c + mask_coef k c (combine (mask_pairs e) rs))).
Qed.
Lemma view_reached e p a v : (p < 2 ^ e)%nat -> masked (2 ^ e) v -> exists rs, mask_tuple e rs /\ agree_except p (2 ^ e) (add_masks e a rs) v.
Proof.
  intros Hp Hv. pose proof (zero_tuple e) as Z0. set (z := repeat ring_zero (length (mask_pairs e))) in *.
  destruct (shift_masks e p a a (add_masks e a z) v Hp (add_masks_masked e a z) Hv) as (delta & Hd & H).
  exists (tuple_add z delta). split; [apply tuple_add_ok; assumption|]. apply (H z Z0). intros k _ _. reflexivity.
Qed.
