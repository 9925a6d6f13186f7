(* Probing when the shared value does not change: all output shares can be kept. *)
From Coq Require Import ZArith Lia Bool List Arith.
From Coq Require Import ZifyBool ZifyNat.
From Verif Require Import ModelBase ModelU128 ModelField ModelUtils ModelPoly ModelVec.
From Verif Require Import Spec SpecMask SpecProbe.
From Verif Require Import Words FieldProofs ArithLemmas PolyProofs NttLayers Cong MaskedProofs PolyLemmas SigEnc MaskUniform MaskProg ProbeCore ProbeProofs ProbeProg.
Import ListNotations.
Open Scope Z_scope.
Ltac Zify.zify_post_hook ::= idtac.

Lemma Zsum_neg n f : - Zsum n f = Zsum n (fun j => - f j).
Proof. induction n as [|n IH]; [reflexivity|]. cbn [Zsum]. rewrite <- IH. ring. Qed.
Lemma Zsum_out n p f : (p < n)%nat -> Zsum n f = f p + Zsum n (fun j => if Nat.eqb j p then 0 else f j).
Proof.
  induction n as [|n IH]; intros Hp; [lia|]. cbn [Zsum]. destruct (Nat.eqb_spec n p) as [->|N].
  - assert (E : Zsum p (fun j => if Nat.eqb j p then 0 else f j) = Zsum p f); [|rewrite E; ring]. apply Zsum_ext. intros i Hi. replace (i =? p)%nat with false by (symmetry; apply Nat.eqb_neq; lia). reflexivity.
  - rewrite IH by lia. ring.
Qed.
Lemma usum_Zsum d c : forall v, length v = d -> usum c v = Zsum d (fun j => coef (nth j v []) c).
Proof.
  induction d as [|d IH]; intros v L; [destruct v; [reflexivity|discriminate]|].
  destruct (exists_last (l := v)) as (v' & y & ->); [intros ->; discriminate|]. rewrite app_length in L. cbn [length] in L.
  rewrite usum_app, (IH v' ltac:(lia)). cbn [Zsum]. unfold usum. cbn [map fold_right]. rewrite app_nth2 by lia. replace (d - length v')%nat with 0%nat by lia. cbn [nth].
  assert (E : Zsum d (fun j => coef (nth j (v' ++ [y]) []) c) = Zsum d (fun j => coef (nth j v' []) c)) by (apply Zsum_ext; intros i Hi; rewrite app_nth1 by lia; reflexivity). rewrite E. ring.
Qed.
Lemma probe_full e (W : list wire) : Forall (wire_ok e) W -> (length W < 2 ^ e)%nat ->
  exists K, (length K <= length W)%nat /\ Forall (fun k => (k < 2 ^ e)%nat) K /\ forall v, masked (2 ^ e) v -> (forall k, In k K -> nth k v [] = ring_zero) -> unmask v = ring_zero ->
  exists delta, mask_tuple e delta /\ forall x rs, masked (2 ^ e) x -> mask_tuple e rs ->
    (forall w, In w W -> wire_value e x rs w = wire_value e (tuple_add x v) (tuple_add rs delta) w) /\
    add_masks e x rs = add_masks e (tuple_add x v) (tuple_add rs delta).
Proof.
  intros FW HL. destruct (translate e W FW) as (PW & KI & L & FP & FK & HI & HV). destruct (probes_core e PW FP) as (J & LJ & FJ & HJ).
  exists (J ++ KI). split; [rewrite app_length; lia|]. split; [apply Forall_app; split; assumption|]. intros v [Lv Fv] AG TOT.
  destruct (free_position (2 ^ e) J) as (p & Hp & Np); [lia|].
  set (u := fun c k => - coef (nth k v []) c).
  set (D := fun c k => if Nat.eqb k p then - Zsum (2 ^ e) (fun j => if Nat.eqb j p then 0 else u c j) else u c k).
  destruct (list_choice dnull (fun c r => (forall k, (k < 2 ^ e)%nat -> part r e k = D c k) /\ forall w, In w PW -> pval r w = 0) 512) as (rl & Ll & Hl).
  { intros c Hc. apply HJ; [apply Zsum_at; exact Hp|]. intros k Hk. unfold D. destruct (Nat.eqb_spec k p) as [->|_]; [exfalso; apply Np; exact Hk|].
    unfold u. rewrite (AG k) by (apply in_or_app; left; exact Hk). rewrite coef_ring_zero. reflexivity. }
  set (pairs := mask_pairs e). set (R := fun c => nth c rl dnull).
  set (delta := map (fun pr => map (fun c => pf (R c) pr mod q) (seq 0 512)) pairs).
  assert (Hdel : mask_tuple e delta).
  { split; [unfold delta; rewrite map_length; reflexivity|]. apply Forall_forall. intros y Hy. apply in_map_iff in Hy. destruct Hy as (pr & <- & _). apply mod_poly. }
  exists delta. split; [exact Hdel|]. intros x rs [Lx Fx] [Lr Fr].
  assert (CD : forall c, (c < 512)%nat -> map (fun y => coef y c) delta = map (fun pr => pf (R c) pr mod q) pairs).
  { intros c Hc. unfold delta. rewrite map_map. apply map_ext. intros pr. apply coef_map_seq. exact Hc. }
  assert (LD : length delta = length pairs) by apply Hdel.
  assert (PRE : forall c k n, (c < 512)%nat -> mask_coef k c (firstn n (combine pairs (tuple_add rs delta))) == mask_coef k c (firstn n (combine pairs rs)) + lsum (R c) k (firstn n pairs)).
  { intros c k n Hc. rewrite !combine_firstn, firstn_tuple_add, !mask_coef_esum.
    rewrite (tuple_add_map c Hc (firstn n rs) (firstn n delta)) by (rewrite !firstn_length; unfold pairs in *; lia).
    rewrite <- (firstn_map (fun r => coef r c) n delta), (CD c Hc), (firstn_map (fun pr => pf (R c) pr mod q) n pairs), lsum_mod. reflexivity. }
  assert (Z0 : forall c w, (c < 512)%nat -> In w W -> ival e (R c) w = 0).
  { intros c w Hc Hw. apply HV; [|exact Hw]. apply (Hl c Hc). }
  split.
  - intros w Hw. destruct w as [k|n|n k]; cbn [wire_value].
    + rewrite Forall_forall in FW. pose proof (FW _ Hw) as Hn. cbn [wire_ok] in Hn. rewrite nth_tuple_add by lia. rewrite (AG k) by (apply in_or_app; right; apply HI, Hw).
      assert (Pn : is_poly (nth k x [])) by (rewrite Forall_forall in Fx; apply Fx, nth_In; lia).
      apply poly_ext; [apply Pn|apply is_poly_length, ring_add_poly|]. intros c Hc. unfold ring_add. rewrite coef_map_seq by exact Hc.
      rewrite coef_ring_zero, Z.add_0_r. symmetry. apply mod_q_reduced, is_poly_coef'. exact Pn.
    + rewrite Forall_forall in FW. pose proof (FW _ Hw) as Hn. cbn [wire_ok] in Hn. rewrite nth_tuple_add by (unfold pairs in *; lia).
      assert (Pn : is_poly (nth n rs [])) by (rewrite Forall_forall in Fr; apply Fr, nth_In; lia).
      apply poly_ext; [apply Pn|apply is_poly_length, ring_add_poly|]. intros c Hc. unfold ring_add. rewrite coef_map_seq by exact Hc.
      assert (Dn : coef (nth n delta []) c = 0).
      { pose proof (Z0 c _ Hc Hw) as X. cbn [ival] in X. fold pairs in X. unfold delta.
        rewrite (nth_indep _ [] ((fun pr => map (fun c => pf (R c) pr mod q) (seq 0 512)) (0%nat, 0%nat))) by (rewrite map_length; exact Hn).
        rewrite (map_nth (fun pr => map (fun c => pf (R c) pr mod q) (seq 0 512))). rewrite coef_map_seq by exact Hc. rewrite X. apply Z.mod_0_l. rewrite q_Q, Q_val. discriminate. }
      rewrite Dn, Z.add_0_r. symmetry. apply mod_q_reduced, is_poly_coef'. exact Pn.
    + unfold accumulator. apply map_ext_in. intros c Hc. apply in_seq in Hc. pose proof (Z0 c _ ltac:(lia) Hw) as X. cbn [ival] in X. fold pairs in X |- *.
      pose proof (PRE c k n ltac:(lia)) as Y. rewrite X, Z.add_0_r in Y. symmetry. exact Y.
  - unfold add_masks. apply map_ext_in. intros k Hk. apply in_seq in Hk. assert (Bk : (k < 2 ^ e)%nat) by lia.
    apply map_ext_in. intros c Hc. apply in_seq in Hc. assert (Hc' : (c < 512)%nat) by lia.
    pose proof (PRE c k (length pairs) Hc') as Y. rewrite !firstn_all2 in Y; [|apply le_n|rewrite combine_length; apply Nat.le_min_l|rewrite combine_length; apply Nat.le_min_l]. fold pairs.
    assert (S1 : lsum (R c) k pairs == - coef (nth k v []) c).
    { destruct (prefix_part e k (length pairs) Bk e (le_n _)) as (m & _ & Fm & Em). specialize (Fm (le_n _)). subst m.
      pose proof (Em (R c)) as E. unfold pairs, mask_pairs in E. rewrite firstn_all in E. unfold pairs, mask_pairs. rewrite E.
      pose proof (proj1 (Hl c Hc') k Bk) as E3. change (part (R c) e k = D c k) in E3. rewrite E3. unfold D. destruct (Nat.eqb_spec k p) as [->|_]; [|reflexivity].
      assert (T0 : Zsum (2 ^ e) (fun j => coef (nth j v []) c) == 0).
      { assert (X := f_equal (fun y => coef y c) TOT). cbv beta in X. rewrite coef_unmask, coef_ring_zero in X by exact Hc'. rewrite <- (usum_Zsum (2 ^ e) c v Lv). unfold cg. rewrite X. symmetry. apply Z.mod_0_l. rewrite q_Q, Q_val. discriminate. }
      rewrite (Zsum_out (2 ^ e) p _ Hp) in T0. unfold u.
      transitivity (- coef (nth p v []) c + (coef (nth p v []) c + Zsum (2 ^ e) (fun j => if Nat.eqb j p then 0 else coef (nth j v []) c))); [|rewrite T0; apply cg_refl'; ring].
      apply cg_refl'. assert (N : Zsum (2 ^ e) (fun j => if Nat.eqb j p then 0 else - coef (nth j v []) c) = - Zsum (2 ^ e) (fun j => if Nat.eqb j p then 0 else coef (nth j v []) c)).
      { rewrite Zsum_neg. apply Zsum_ext. intros j _. destruct (Nat.eqb j p); reflexivity. }
      rewrite N. ring. }
    change (coef (nth k x []) c + mask_coef k c (combine pairs rs) == coef (nth k (tuple_add x v) []) c + mask_coef k c (combine pairs (tuple_add rs delta))).
    rewrite Y, S1, nth_tuple_add by lia. unfold ring_add at 1. rewrite coef_map_seq by exact Hc'.
    assert (M : (coef (nth k x []) c + coef (nth k v []) c) mod q == coef (nth k x []) c + coef (nth k v []) c) by (unfold cg; apply Zmod_mod).
    rewrite M. apply cg_refl'. ring.
Qed.
