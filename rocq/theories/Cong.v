(* Congruence modulo q and finite sums. *)
From Coq Require Import ZArith Lia Bool List Arith Setoid Morphisms.
From Coq Require Import ZifyBool ZifyNat.
From Verif Require Import FieldProofs ArithLemmas.
From Verif Require Import Spec.
Import ListNotations.
Open Scope Z_scope.
Ltac Zify.zify_post_hook ::= idtac.

Definition cg (a b : Z) : Prop := a mod q = b mod q.
Infix "==" := cg (at level 70, no associativity).
#[global] Instance cg_equiv : Equivalence cg.
Proof.
  split; unfold cg.
  - intros x. reflexivity.
  - intros x y H. symmetry. exact H.
  - intros x y z H1 H2. rewrite H1. exact H2.
Qed.
#[global] Instance cg_add : Proper (cg ==> cg ==> cg) Z.add.
Proof. intros a b H c d H2. unfold cg in *. rewrite Zplus_mod, H, H2, <- Zplus_mod. reflexivity. Qed.
#[global] Instance cg_sub : Proper (cg ==> cg ==> cg) Z.sub.
Proof. intros a b H c d H2. unfold cg in *. rewrite Zminus_mod, H, H2, <- Zminus_mod. reflexivity. Qed.
#[global] Instance cg_mul : Proper (cg ==> cg ==> cg) Z.mul.
Proof. intros a b H c d H2. unfold cg in *. rewrite Zmult_mod, H, H2, <- Zmult_mod. reflexivity. Qed.
#[global] Instance cg_opp : Proper (cg ==> cg) Z.opp.
Proof. intros a b H. rewrite <- !Z.sub_0_l. rewrite H. reflexivity. Qed.
Lemma cg_mod x : x mod q == x.
Proof. unfold cg. apply Zmod_mod. Qed.
Lemma cg_refl' x y : x = y -> x == y.
Proof. intros ->. reflexivity. Qed.
Lemma cg_pow a b n : 0 <= n -> a == b -> a ^ n == b ^ n.
Proof.
  intros Hn H. pattern n. apply natlike_ind; [reflexivity| |exact Hn].
  intros m Hm IH. rewrite !Z.pow_succ_r by exact Hm. rewrite IH, H. reflexivity.
Qed.
Lemma cg_reduced a b : reduced a -> reduced b -> a == b -> a = b.
Proof. unfold cg, reduced. intros Ha Hb H. rewrite !Z.mod_small in H by assumption. exact H. Qed.

Lemma Zsum_ext n f g : (forall i, (i < n)%nat -> f i = g i) -> Zsum n f = Zsum n g.
Proof.
  induction n as [|n IH]; intros H; [reflexivity|]. cbn [Zsum]. rewrite IH, H; [reflexivity|lia|].
  intros i Hi. apply H. lia.
Qed.
Lemma Zsum_cg n f g : (forall i, (i < n)%nat -> f i == g i) -> Zsum n f == Zsum n g.
Proof.
  induction n as [|n IH]; intros H; [reflexivity|]. cbn [Zsum]. rewrite IH, (H n); [reflexivity|lia|].
  intros i Hi. apply H. lia.
Qed.
Lemma Zsum_plus n f g : Zsum n (fun i => f i + g i) = Zsum n f + Zsum n g.
Proof. induction n as [|n IH]; [reflexivity|]. cbn [Zsum]. rewrite IH. ring. Qed.
Lemma Zsum_minus n f g : Zsum n (fun i => f i - g i) = Zsum n f - Zsum n g.
Proof. induction n as [|n IH]; [reflexivity|]. cbn [Zsum]. rewrite IH. ring. Qed.
Lemma Zsum_scal n c f : Zsum n (fun i => c * f i) = c * Zsum n f.
Proof. induction n as [|n IH]; cbn [Zsum]; [ring|]. rewrite IH. ring. Qed.
Lemma Zsum_scal_r n c f : Zsum n (fun i => f i * c) = Zsum n f * c.
Proof. induction n as [|n IH]; cbn [Zsum]; [ring|]. rewrite IH. ring. Qed.
Lemma Zsum_0 n : Zsum n (fun _ => 0) = 0.
Proof. induction n as [|n IH]; [reflexivity|]. cbn [Zsum]. rewrite IH. reflexivity. Qed.
Lemma Zsum_split n m f : Zsum (n + m) f = Zsum n f + Zsum m (fun j => f (n + j)%nat).
Proof.
  induction m as [|m IH].
  - rewrite Nat.add_0_r. cbn [Zsum]. ring.
  - rewrite Nat.add_succ_r. cbn [Zsum]. rewrite IH. ring.
Qed.
Lemma Zsum_swap n m f : Zsum n (fun i => Zsum m (fun j => f i j)) = Zsum m (fun j => Zsum n (fun i => f i j)).
Proof.
  induction n as [|n IH]; cbn [Zsum].
  - symmetry. apply Zsum_0.
  - rewrite IH, <- Zsum_plus. apply Zsum_ext. reflexivity.
Qed.
