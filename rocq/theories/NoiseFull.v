(* add_rep_noise when the shared value does not change: all output shares can be kept. *)
From Coq Require Import ZArith Lia Bool List Arith.
From Coq Require Import ZifyBool ZifyNat.
From Verif Require Import ModelBase ModelU128 ModelField ModelUtils ModelPoly ModelVec.
From Verif Require Import Spec SpecMask SpecProbe SpecNoiseProbe.
From Verif Require Import Words FieldProofs ArithLemmas PolyProofs NttLayers Cong MaskedProofs PolyLemmas SigEnc MaskUniform MaskProg ProbeCore ProbeProofs ProbeProg ProbeFull NoiseProbe.
Import ListNotations.
Open Scope Z_scope.
Ltac Zify.zify_post_hook ::= idtac.

Lemma Zsum_plus n f g : Zsum n (fun k => f k + g k) = Zsum n f + Zsum n g.
Proof. induction n as [|n IH]; [reflexivity|]. cbn [Zsum]. rewrite IH. ring. Qed.
Lemma Zsum_zero n : Zsum n (fun _ => 0) = 0.
Proof. induction n as [|n IH]; [reflexivity|]. cbn [Zsum]. rewrite IH. ring. Qed.
Lemma Zsum_single n i x : (i < n)%nat -> Zsum n (fun k => if Nat.eqb k i then x else 0) = x.
Proof.
  intros Hi. rewrite (Zsum_out n i _ Hi), Nat.eqb_refl.
  assert (E : Zsum n (fun j => if Nat.eqb j i then 0 else if Nat.eqb j i then x else 0) = Zsum n (fun _ => 0)) by (apply Zsum_ext; intros j _; destruct (Nat.eqb j i); reflexivity).
  rewrite E, Zsum_zero. ring.
Qed.
Lemma mask_sum d c : forall ms, (forall i j r, In ((i, j), r) ms -> (i < d /\ j < d)%nat) -> Zsum d (fun k => mask_coef k c ms) = 0.
Proof.
  induction ms as [|[[i j] r] ms IH]; intros H; [apply Zsum_zero|].
  assert (E : Zsum d (fun k => mask_coef k c ((i, j, r) :: ms)) = Zsum d (fun k => ((if Nat.eqb k i then coef r c else 0) + (if Nat.eqb k j then - coef r c else 0)) + mask_coef k c ms)).
  { apply Zsum_ext. intros k _. cbn [mask_coef]. destruct (Nat.eqb k i), (Nat.eqb k j); ring. }
  rewrite E, !Zsum_plus. destruct (H i j r (or_introl eq_refl)) as [Hi Hj]. rewrite (Zsum_single d i _ Hi), (Zsum_single d j _ Hj), IH; [ring|].
  intros i' j' r' Hin. apply (H i' j' r'). right. exact Hin.
Qed.
Lemma unmask_masks e x rs : masked (2 ^ e) x -> unmask (add_masks e x rs) = unmask x.
Proof.
  intros Mx. apply poly_ext; [apply is_poly_length, unmask_poly|apply is_poly_length, unmask_poly|]. intros c Hc. rewrite !coef_unmask by exact Hc.
  rewrite (usum_Zsum (2 ^ e) c (add_masks e x rs)) by apply add_masks_masked. rewrite (usum_Zsum (2 ^ e) c x) by apply Mx.
  change (Zsum (2 ^ e) (fun j => coef (nth j (add_masks e x rs) []) c) == Zsum (2 ^ e) (fun j => coef (nth j x []) c)).
  assert (P : forall n, (n <= 2 ^ e)%nat -> Zsum n (fun j => coef (nth j (add_masks e x rs) []) c) == Zsum n (fun j => coef (nth j x []) c) + Zsum n (fun j => mask_coef j c (combine (mask_pairs e) rs))).
  { induction n as [|n IH]; intros Hn; [reflexivity|]. cbn [Zsum]. rewrite IH by lia. rewrite (add_masks_coef e x rs n c) by (try assumption; lia). apply cg_refl'. ring. }
  rewrite (P (2 ^ e)%nat (le_n _)), mask_sum; [apply cg_refl'; ring|]. intros i j r Hin. apply in_combine_l in Hin. pose proof (pairs_range e i j Hin). lia.
Qed.
Lemma ring_add_assoc' a b c : ring_add (ring_add a b) c = ring_add a (ring_add b c).
Proof.
  apply poly_ext; [apply is_poly_length, ring_add_poly|apply is_poly_length, ring_add_poly|]. intros i Hi. unfold ring_add. rewrite !coef_map_seq by exact Hi.
  rewrite Zplus_mod_idemp_l, Zplus_mod_idemp_r. f_equal. ring.
Qed.
Lemma ring_add_zero_r a : is_poly a -> ring_add a ring_zero = a.
Proof.
  intros Ha. apply poly_ext; [apply is_poly_length, ring_add_poly|apply Ha|]. intros i Hi. unfold ring_add. rewrite coef_map_seq by exact Hi. rewrite coef_ring_zero, Z.add_0_r.
  apply mod_q_reduced, is_poly_coef'. exact Ha.
Qed.
Lemma unmask_state e x us rss n : masked (2 ^ e) x -> (forall i, (i < n)%nat -> masked (2 ^ e) (us i)) ->
  unmask (noise_state e x us rss n) = ring_add (unmask x) (noise_total us n).
Proof.
  intros Mx. induction n as [|n IH]; intros H.
  - cbn [noise_state noise_total]. symmetry. apply ring_add_zero_r, unmask_poly.
  - assert (Mn : masked (2 ^ e) (us n)) by (apply H; lia). pose proof (noise_state_masked e x us rss n Mx) as MS. cbn [noise_state noise_total].
    rewrite unmask_masks by (apply tuple_add_masked; assumption). rewrite (unmask_add (2 ^ e)) by assumption. rewrite IH by (intros i Hi; apply H; lia). apply ring_add_assoc'.
Qed.

Lemma noise_probe_full e n W : Forall (nwire_ok e (S n)) W -> (length W < 2 ^ e)%nat ->
  exists (U : list (nat * nat)) (K : list nat), (length U <= length W)%nat /\ (length K <= length W)%nat /\
  Forall (fun ik => (fst ik < S n /\ snd ik < 2 ^ e)%nat) U /\ Forall (fun k => (k < 2 ^ e)%nat) K /\
  forall vx v, masked (2 ^ e) vx -> (forall i, (i < S n)%nat -> masked (2 ^ e) (v i)) ->
    (forall k, In k K -> nth k vx [] = ring_zero) -> (forall i k, In (i, k) U -> nth k (v i) [] = ring_zero) ->
    ring_add (unmask vx) (noise_total v (S n)) = ring_zero ->
  exists delta : nat -> list (list Z), (forall i, (i < S n)%nat -> mask_tuple e (delta i)) /\
  forall x us rss, masked (2 ^ e) x -> (forall i, (i < S n)%nat -> masked (2 ^ e) (us i)) -> (forall i, (i < S n)%nat -> mask_tuple e (rss i)) ->
    (forall w, In w W -> nwire_value e x us rss w = nwire_value e (tuple_add x vx) (family_add us v) (family_add rss delta) w) /\
    noise_state e x us rss (S n) = noise_state e (tuple_add x vx) (family_add us v) (family_add rss delta) (S n).
Proof.
    intros FW HL.
    pose proof (split_w_spec e n W FW) as SW. destruct (split_w n W) as [[[A SS] UU] R]. destruct SW as (LW & FA & FS & FU & FR & HW).
    destruct (probe_full e R FR ltac:(lia)) as (K & LK & FK & HK).
    destruct (noise_probe e n A (K ++ SS) FA) as (U & X & LU & LX & FUn & FX & HX); [apply Forall_app; split; assumption|rewrite app_length; lia|].
    exists (U ++ map (pair n) (K ++ UU)), X. split; [rewrite app_length, map_length, app_length; lia|].
    split; [rewrite app_length in LX; destruct n; lia|]. split.
    { apply Forall_app. split; [eapply Forall_impl; [|exact FUn]; intros [i k]; cbn [fst snd]; lia|]. apply Forall_map. cbn [fst snd].
      apply Forall_app. split; [eapply Forall_impl; [|exact FK]|eapply Forall_impl; [|exact FU]]; cbn beta; intros; lia. }
    split; [exact FX|]. intros vx v Mvx Mv Zx Zv TOT.
    destruct (HX vx v Mvx) as (delta & Md & HD); [intros i Hi; apply Mv; lia|exact Zx|intros i k Hi; apply Zv, in_or_app; left; exact Hi|].
    set (D := noise_state e vx v delta n).
    assert (MD : masked (2 ^ e) D) by (apply noise_state_masked; exact Mvx).
    assert (Mvn : masked (2 ^ e) (v n)) by (apply Mv; lia).
    assert (ZP : masked (2 ^ e) (repeat ring_zero (2 ^ e))) by (split; [apply repeat_length|]; apply Forall_forall; intros y Hy; apply repeat_spec in Hy; subst y; apply ring_zero_poly).
    assert (ZT : mask_tuple e (repeat ring_zero (length (mask_pairs e)))) by (split; [apply repeat_length|]; apply Forall_forall; intros y Hy; apply repeat_spec in Hy; subst y; apply ring_zero_poly).
    assert (ZD : forall k, In k (K ++ SS) -> nth k D [] = ring_zero).
    { intros k Hk. assert (Hkd : (k < 2 ^ e)%nat) by (apply in_app_or in Hk; rewrite Forall_forall in FK, FS; destruct Hk; auto).
      destruct (HD (repeat ring_zero (2 ^ e)) (fun _ => repeat ring_zero (2 ^ e)) (fun _ => repeat ring_zero (length (mask_pairs e))) ZP (fun _ _ => ZP) (fun _ _ => ZT)) as [_ HO].
      specialize (HO k Hk). rewrite noise_state_add in HO; [|exact ZP|exact Mvx|intros i Hi; split; [exact ZP|split; [apply Mv; lia|split; [exact ZT|apply Md, Hi]]]].
      eapply (zero_change (2 ^ e)); [|exact MD|exact Hkd|exact HO]. apply noise_state_masked. exact ZP. }
    destruct (HK (tuple_add D (v n))) as (dn & Mdn & Hdn); [apply tuple_add_masked; assumption| | |].
    { intros k Hk. assert (Hkd : (k < 2 ^ e)%nat) by (rewrite Forall_forall in FK; auto). rewrite (add_zero (2 ^ e)); [apply ZD, in_or_app; left; exact Hk|exact MD|exact Mvn|exact Hkd|].
      apply Zv, in_or_app. right. apply in_map, in_or_app. left. exact Hk. }
    { rewrite (unmask_add (2 ^ e)) by assumption. unfold D. rewrite unmask_state; [|exact Mvx|intros i Hi; apply Mv; lia]. rewrite ring_add_assoc'. exact TOT. }
    exists (fun i => if (i =? n)%nat then dn else delta i). split.
    { intros i Hi. destruct (Nat.eqb_spec i n) as [->|N]; [exact Mdn|apply Md; lia]. }
    intros x us rss Mx Mu Mr. destruct (HD x us rss Mx) as [HA HO]; [intros i Hi; apply Mu; lia|intros i Hi; apply Mr; lia|].
    set (d' := fun i => if (i =? n)%nat then dn else delta i).
    assert (EX : forall i, (i < n)%nat -> family_add us v i = family_add us v i /\ family_add rss delta i = family_add rss d' i).
    { intros i Hi. split; [reflexivity|]. unfold family_add, d'. replace (i =? n)%nat with false by (symmetry; apply Nat.eqb_neq; lia). reflexivity. }
    assert (NS : noise_state e (tuple_add x vx) (family_add us v) (family_add rss d') n = tuple_add (noise_state e x us rss n) D).
    { rewrite <- (noise_state_ext e (tuple_add x vx) (family_add us v) (family_add rss delta) (family_add us v) (family_add rss d') n EX). apply noise_state_add; [exact Mx|exact Mvx|].
      intros i Hi. split; [apply Mu; lia|]. split; [apply Mv; lia|]. split; [apply Mr; lia|apply Md; exact Hi]. }
    assert (MS : masked (2 ^ e) (noise_state e x us rss n)) by (apply noise_state_masked; exact Mx).
    assert (Mun : masked (2 ^ e) (us n)) by (apply Mu; lia).
    assert (RIN : tuple_add (noise_state e (tuple_add x vx) (family_add us v) (family_add rss d') n) (family_add us v n) = tuple_add (tuple_add (noise_state e x us rss n) (us n)) (tuple_add D (v n))).
    { rewrite NS. unfold family_add. apply (tuple_add_swap (2 ^ e)); assumption. }
    assert (Dn : family_add rss d' n = tuple_add (rss n) dn) by (unfold family_add, d'; rewrite Nat.eqb_refl; reflexivity).
    destruct (Hdn (tuple_add (noise_state e x us rss n) (us n)) (rss n)) as [HR HOut]; [apply tuple_add_masked; assumption|apply Mr; lia|].
    split.
    + intros w Hw. pose proof (HW w Hw) as C. rewrite Forall_forall in FA, FS, FU.
      assert (OLD : In w A -> nwire_value e x us rss w = nwire_value e (tuple_add x vx) (family_add us v) (family_add rss d') w).
      { intros Hi. rewrite (HA w Hi). apply (nwire_value_ext e _ _ _ _ _ n); [apply FA, Hi|exact EX]. }
      destruct w as [i k|i k|i w]; destruct C as [C|[-> C]]; try (apply OLD; exact C); cbn [nwire_value].
      * rewrite NS. symmetry. apply (add_zero (2 ^ e)); [exact MS|exact MD|apply FS, C|apply ZD, in_or_app; right; exact C].
      * unfold family_add. symmetry. apply (add_zero (2 ^ e)); [exact Mun|exact Mvn|apply FU, C|]. apply Zv, in_or_app. right. apply in_map, in_or_app. right. exact C.
      * rewrite RIN, Dn. apply HR. exact C.
    + cbn [noise_state]. rewrite RIN, Dn. exact HOut.
Qed.
