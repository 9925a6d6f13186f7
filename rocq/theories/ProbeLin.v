(* The values inside refresh and add_rep_noise are additive; linear forms of the probing lemmas. *)
From Coq Require Import ZArith Lia Bool List Arith.
From Coq Require Import ZifyBool ZifyNat.
From Verif Require Import ModelBase ModelU128 ModelField ModelUtils ModelPoly ModelVec.
From Verif Require Import Spec SpecMask SpecProbe SpecNoiseProbe.
From Verif Require Import Words FieldProofs ArithLemmas PolyProofs NttLayers Cong MaskedProofs PolyLemmas SigEnc MaskUniform MaskProg ProbeCore ProbeProofs ProbeProg ProbeFull NoiseProbe NoiseFull.
Import ListNotations.
Open Scope Z_scope.
Ltac Zify.zify_post_hook ::= idtac.

Definition zshares (e : nat) : list (list Z) := repeat ring_zero (2 ^ e).
Definition zmasks (e : nat) : list (list Z) := repeat ring_zero (length (mask_pairs e)).
Lemma zshares_masked e : masked (2 ^ e) (zshares e).
Proof. split; [apply repeat_length|]. apply Forall_forall. intros y Hy. apply repeat_spec in Hy. subst y. apply ring_zero_poly. Qed.
Lemma zmasks_ok e : mask_tuple e (zmasks e).
Proof. split; [apply repeat_length|]. apply Forall_forall. intros y Hy. apply repeat_spec in Hy. subst y. apply ring_zero_poly. Qed.
Lemma nth_zshares e k : (k < 2 ^ e)%nat -> nth k (zshares e) [] = ring_zero.
Proof. intros Hk. unfold zshares. rewrite (nth_indep _ [] ring_zero) by (rewrite repeat_length; exact Hk). apply nth_repeat. Qed.
Lemma ring_add_zero_l a : is_poly a -> ring_add ring_zero a = a.
Proof.
  intros Ha. apply poly_ext; [apply is_poly_length, ring_add_poly|apply Ha|]. intros i Hi. unfold ring_add. rewrite coef_map_seq by exact Hi. rewrite coef_ring_zero, Z.add_0_l.
  apply mod_q_reduced, is_poly_coef'. exact Ha.
Qed.
Lemma tuple_add_zero_l v : Forall is_poly v -> tuple_add (repeat ring_zero (length v)) v = v.
Proof. induction 1 as [|y v Hy F IH]; [reflexivity|]. unfold tuple_add in *. cbn [length repeat combine map]. rewrite IH, ring_add_zero_l by exact Hy. reflexivity. Qed.
Lemma shares_add_zero e v : masked (2 ^ e) v -> tuple_add (zshares e) v = v.
Proof. intros [L F]. unfold zshares. rewrite <- L. apply tuple_add_zero_l. exact F. Qed.
Lemma masks_add_zero e v : mask_tuple e v -> tuple_add (zmasks e) v = v.
Proof. intros [L F]. unfold zmasks. rewrite <- L. apply tuple_add_zero_l. exact F. Qed.

Lemma accumulator_poly e rs n k : is_poly (accumulator e rs n k).
Proof. apply mod_poly. Qed.
Lemma wire_poly e x rs w : masked (2 ^ e) x -> mask_tuple e rs -> wire_ok e w -> is_poly (wire_value e x rs w).
Proof.
  intros Mx Mr Hw. destruct w as [k|n|n k]; cbn [wire_value wire_ok] in *; [apply (masked_nth_poly (2 ^ e)); assumption| |apply accumulator_poly].
  destruct Mr as [L F]. rewrite Forall_forall in F. apply F, nth_In. lia.
Qed.
Lemma accumulator_add e rs ss n k : mask_tuple e rs -> mask_tuple e ss -> accumulator e (tuple_add rs ss) n k = ring_add (accumulator e rs n k) (accumulator e ss n k).
Proof.
  intros [Lr _] [Ls _]. unfold accumulator, ring_add. apply map_ext_in. intros c Hc. apply in_seq in Hc. rewrite !coef_map_seq by lia. rewrite <- Zplus_mod.
  change (mask_coef k c (firstn n (combine (mask_pairs e) (tuple_add rs ss))) == mask_coef k c (firstn n (combine (mask_pairs e) rs)) + mask_coef k c (firstn n (combine (mask_pairs e) ss))).
  rewrite !combine_firstn, firstn_tuple_add, !mask_coef_esum. rewrite (tuple_add_map c ltac:(lia) (firstn n rs) (firstn n ss)) by (rewrite !firstn_length; lia). reflexivity.
Qed.
Lemma wire_add e x v rs ss w : masked (2 ^ e) x -> masked (2 ^ e) v -> mask_tuple e rs -> mask_tuple e ss -> wire_ok e w ->
  wire_value e (tuple_add x v) (tuple_add rs ss) w = ring_add (wire_value e x rs w) (wire_value e v ss w).
Proof.
  intros [Lx Fx] [Lv Fv] Mr Ms Hw. destruct w as [k|n|n k]; cbn [wire_value wire_ok] in *.
  - apply nth_tuple_add; lia.
  - destruct Mr, Ms. apply nth_tuple_add; lia.
  - apply accumulator_add; assumption.
Qed.
Lemma nwire_add e rep x vx us v rss ds w : masked (2 ^ e) x -> masked (2 ^ e) vx ->
  (forall i, (i < rep)%nat -> masked (2 ^ e) (us i) /\ masked (2 ^ e) (v i) /\ mask_tuple e (rss i) /\ mask_tuple e (ds i)) -> nwire_ok e rep w ->
  nwire_value e (tuple_add x vx) (family_add us v) (family_add rss ds) w = ring_add (nwire_value e x us rss w) (nwire_value e vx v ds w).
Proof.
  intros Mx Mv H Hw. assert (Hi : (idx w < rep)%nat) by (destruct w; apply Hw).
  assert (NS : noise_state e (tuple_add x vx) (family_add us v) (family_add rss ds) (idx w) = tuple_add (noise_state e x us rss (idx w)) (noise_state e vx v ds (idx w))).
  { apply noise_state_add; [exact Mx|exact Mv|]. intros i Hi'. apply H. lia. }
  destruct (H _ Hi) as (Mu & Mv' & Mr & Md). pose proof (noise_state_masked e x us rss (idx w) Mx) as M1. pose proof (noise_state_masked e vx v ds (idx w) Mv) as M2.
  destruct w as [i k|i k|i w]; cbn [nwire_value nwire_ok idx] in *.
  - rewrite NS. destruct M1, M2. apply nth_tuple_add; lia.
  - unfold family_add. destruct Mu, Mv'. apply nth_tuple_add; lia.
  - rewrite NS. unfold family_add at 1 2. rewrite (tuple_add_swap (2 ^ e)) by assumption. apply wire_add; try assumption; try (apply tuple_add_masked; assumption). apply Hw.
Qed.
Lemma nwire_poly e rep x us rss w : masked (2 ^ e) x -> (forall i, (i < rep)%nat -> masked (2 ^ e) (us i) /\ mask_tuple e (rss i)) -> nwire_ok e rep w ->
  is_poly (nwire_value e x us rss w).
Proof.
  intros Mx H Hw. assert (Hi : (idx w < rep)%nat) by (destruct w; apply Hw). destruct (H _ Hi) as (Mu & Mr). pose proof (noise_state_masked e x us rss (idx w) Mx) as M1.
  destruct w as [i k|i k|i w]; cbn [nwire_value nwire_ok idx] in *; [apply (masked_nth_poly (2 ^ e)); [exact M1|apply Hw]|apply (masked_nth_poly (2 ^ e)); [exact Mu|apply Hw]|].
  apply wire_poly; [apply tuple_add_masked; assumption|exact Mr|apply Hw].
Qed.
(* x + y = x only if y = 0 *)
Lemma ring_add_self x y : is_poly x -> is_poly y -> x = ring_add x y -> y = ring_zero.
Proof.
  intros Hx Hy E. apply (ring_add_inj y ring_zero x); [exact Hy|apply ring_zero_poly|]. rewrite ring_add_zero_l by exact Hx.
  rewrite E at 2. apply poly_ext; [apply is_poly_length, ring_add_poly|apply is_poly_length, ring_add_poly|]. intros i Hi. unfold ring_add. rewrite !coef_map_seq by exact Hi. f_equal. ring.
Qed.

Lemma refresh_lin e W Oq : Forall (wire_ok e) W -> Forall (fun k => (k < 2 ^ e)%nat) Oq -> (length W + length Oq < 2 ^ e)%nat ->
  exists K, (length K <= length W)%nat /\ Forall (fun k => (k < 2 ^ e)%nat) K /\
  forall v, masked (2 ^ e) v -> (forall k, In k K -> nth k v [] = ring_zero) ->
  exists delta, mask_tuple e delta /\ (forall w, In w W -> wire_value e v delta w = ring_zero) /\
    (forall k, In k Oq -> nth k (add_masks e v delta) [] = ring_zero).
Proof.
  intros FW FO HL. destruct (probe_shift e W Oq FW FO HL) as (K & LK & FK & H). exists K. split; [exact LK|]. split; [exact FK|]. intros v Mv Zv.
  destruct (H v Mv Zv) as (delta & Md & HD). exists delta. split; [exact Md|]. destruct (HD (zshares e) (zmasks e) (zshares_masked e) (zmasks_ok e)) as [H1 H2]. rewrite Forall_forall in FW, FO. split.
  - intros w Hw. pose proof (H1 w Hw) as E. rewrite (wire_add e _ _ _ _ w (zshares_masked e) Mv (zmasks_ok e) Md (FW w Hw)) in E.
    eapply ring_add_self; [| |exact E]; apply wire_poly; auto using zshares_masked, zmasks_ok.
  - intros k Hk. pose proof (H2 k Hk) as E. rewrite (add_masks_add e _ _ _ _ (zshares_masked e) Mv (zmasks_ok e) Md) in E.
    eapply (zero_change (2 ^ e)); [| |apply FO, Hk|exact E]; apply add_masks_masked.
Qed.
Lemma refresh_lin_full e W : Forall (wire_ok e) W -> (length W < 2 ^ e)%nat ->
  exists K, (length K <= length W)%nat /\ Forall (fun k => (k < 2 ^ e)%nat) K /\
  forall v, masked (2 ^ e) v -> (forall k, In k K -> nth k v [] = ring_zero) -> unmask v = ring_zero ->
  exists delta, mask_tuple e delta /\ (forall w, In w W -> wire_value e v delta w = ring_zero) /\ add_masks e v delta = zshares e.
Proof.
  intros FW HL. destruct (probe_full e W FW HL) as (K & LK & FK & H). exists K. split; [exact LK|]. split; [exact FK|]. intros v Mv Zv TOT.
  destruct (H v Mv Zv TOT) as (delta & Md & HD). exists delta. split; [exact Md|]. destruct (HD (zshares e) (zmasks e) (zshares_masked e) (zmasks_ok e)) as [H1 H2]. rewrite Forall_forall in FW. split.
  - intros w Hw. pose proof (H1 w Hw) as E. rewrite (wire_add e _ _ _ _ w (zshares_masked e) Mv (zmasks_ok e) Md (FW w Hw)) in E.
    eapply ring_add_self; [| |exact E]; apply wire_poly; auto using zshares_masked, zmasks_ok.
  - rewrite (add_masks_add e _ _ _ _ (zshares_masked e) Mv (zmasks_ok e) Md) in H2.
    apply (nth_ext _ _ [] []); [unfold zshares; rewrite repeat_length; apply add_masks_masked|]. intros k Hk. pose proof (add_masks_masked e v delta) as MM. rewrite (proj1 MM) in Hk.
    rewrite nth_zshares by exact Hk.
    eapply (zero_change (2 ^ e)); [| |exact Hk|exact (f_equal (fun y => nth k y []) H2)]; apply add_masks_masked.
Qed.
Lemma noise_lin e n W Oq : (0 < n)%nat -> Forall (nwire_ok e n) W -> Forall (fun k => (k < 2 ^ e)%nat) Oq -> (length W + length Oq < 2 ^ e)%nat ->
  exists (U : list (nat * nat)) (K : list nat), (length U <= length W)%nat /\ (length K <= length W)%nat /\ Forall (fun k => (k < 2 ^ e)%nat) K /\
  forall vx v, masked (2 ^ e) vx -> (forall i, (i < n)%nat -> masked (2 ^ e) (v i)) ->
    (forall k, In k K -> nth k vx [] = ring_zero) -> (forall i k, In (i, k) U -> nth k (v i) [] = ring_zero) ->
  exists delta : nat -> list (list Z), (forall i, (i < n)%nat -> mask_tuple e (delta i)) /\
    (forall w, In w W -> nwire_value e vx v delta w = ring_zero) /\ (forall k, In k Oq -> nth k (noise_state e vx v delta n) [] = ring_zero).
Proof.
  intros Hn FW FO HL. destruct (noise_probe e n W Oq FW FO HL) as (U & K & LU & LK & _ & FK & H). exists U, K. split; [exact LU|].
  split; [destruct n; [lia|]; rewrite Nat.add_0_r in LK; exact LK|]. split; [exact FK|]. intros vx v Mvx Mv Zx Zv.
  destruct (H vx v Mvx Mv Zx Zv) as (delta & Md & HD). exists delta. split; [exact Md|].
  destruct (HD (zshares e) (fun _ => zshares e) (fun _ => zmasks e) (zshares_masked e) (fun _ _ => zshares_masked e) (fun _ _ => zmasks_ok e)) as [H1 H2]. rewrite Forall_forall in FW, FO. split.
  - intros w Hw. pose proof (H1 w Hw) as E. rewrite (nwire_add e n) in E; [|apply zshares_masked|exact Mvx|intros i Hi; split; [apply zshares_masked|split; [apply Mv, Hi|split; [apply zmasks_ok|apply Md, Hi]]]|apply FW, Hw].
    eapply ring_add_self; [| |exact E]; apply (nwire_poly e n); auto using zshares_masked, zmasks_ok.
  - intros k Hk. pose proof (H2 k Hk) as E. rewrite noise_state_add in E; [|apply zshares_masked|exact Mvx|intros i Hi; split; [apply zshares_masked|split; [apply Mv, Hi|split; [apply zmasks_ok|apply Md, Hi]]]].
    eapply (zero_change (2 ^ e)); [| |apply FO, Hk|exact E]; apply noise_state_masked; auto using zshares_masked.
Qed.
Lemma noise_lin_full e n W : (0 < n)%nat -> Forall (nwire_ok e n) W -> (length W < 2 ^ e)%nat ->
  exists (U : list (nat * nat)) (K : list nat), (length U <= length W)%nat /\ (length K <= length W)%nat /\ Forall (fun k => (k < 2 ^ e)%nat) K /\
  forall vx v, masked (2 ^ e) vx -> (forall i, (i < n)%nat -> masked (2 ^ e) (v i)) ->
    (forall k, In k K -> nth k vx [] = ring_zero) -> (forall i k, In (i, k) U -> nth k (v i) [] = ring_zero) ->
    ring_add (unmask vx) (noise_total v n) = ring_zero ->
  exists delta : nat -> list (list Z), (forall i, (i < n)%nat -> mask_tuple e (delta i)) /\
    (forall w, In w W -> nwire_value e vx v delta w = ring_zero) /\ noise_state e vx v delta n = zshares e.
Proof.
  intros Hn FW HL. destruct n as [|n]; [lia|]. destruct (noise_probe_full e n W FW HL) as (U & K & LU & LK & _ & FK & H). exists U, K. split; [exact LU|].
  split; [exact LK|]. split; [exact FK|]. intros vx v Mvx Mv Zx Zv TOT.
  destruct (H vx v Mvx Mv Zx Zv TOT) as (delta & Md & HD). exists delta. split; [exact Md|].
  destruct (HD (zshares e) (fun _ => zshares e) (fun _ => zmasks e) (zshares_masked e) (fun _ _ => zshares_masked e) (fun _ _ => zmasks_ok e)) as [H1 H2]. rewrite Forall_forall in FW. split.
  - intros w Hw. pose proof (H1 w Hw) as E. rewrite (nwire_add e (S n)) in E; [|apply zshares_masked|exact Mvx|intros i Hi; split; [apply zshares_masked|split; [apply Mv, Hi|split; [apply zmasks_ok|apply Md, Hi]]]|apply FW, Hw].
    eapply ring_add_self; [| |exact E]; apply (nwire_poly e (S n)); auto using zshares_masked, zmasks_ok.
  - rewrite noise_state_add in H2; [|apply zshares_masked|exact Mvx|intros i Hi; split; [apply zshares_masked|split; [apply Mv, Hi|split; [apply zmasks_ok|apply Md, Hi]]]].
    pose proof (noise_state_masked e vx v delta (S n) Mvx) as MM.
    apply (nth_ext _ _ [] []); [unfold zshares; rewrite repeat_length; apply MM|]. intros k Hk. rewrite (proj1 MM) in Hk.
    rewrite nth_zshares by exact Hk.
    eapply (zero_change (2 ^ e)); [| |exact Hk|exact (f_equal (fun y => nth k y []) H2)]; apply noise_state_masked; auto using zshares_masked.
Qed.
