(* Facts about the tables of powers of zeta.  The exponents (9-bit reversed indices) are compared by
   evaluation over all 512 indices; everything else follows from zeta^512 = -1. *)
From Coq Require Import ZArith Lia Bool List Arith.
From Coq Require Import ZifyBool ZifyNat.
From Verif Require Import ModelBase ModelU128 ModelField ModelUtils ModelPoly.
From Verif Require Import FieldProofs.
Import ListNotations.
Open Scope Z_scope.
Ltac Zify.zify_post_hook ::= idtac.

#[global] Opaque INV_N.
Lemma forallb_seq (f : nat -> bool) n : forallb f (seq 0 n) = true -> forall k, (k < n)%nat -> f k = true.
Proof. intros H k Hk. rewrite forallb_forall in H. apply H. apply in_seq. lia. Qed.

Definition pz (k : nat) : Z := nth k powers_of_zeta 0.
Definition npz (k : nat) : Z := nth k neg_powers_of_zeta 0.

Lemma powers_of_zeta_eq : powers_of_zeta = map (fun i => zq_pow zeta (bit_rev (Z.of_nat i))) (seq 0 512).
Proof.
  unfold powers_of_zeta, gen_powers. change (PN / 4)%nat with 128%nat.
  rewrite <- !map_app. reflexivity.
Qed.
Lemma pz_length : length powers_of_zeta = 512%nat.
Proof. rewrite powers_of_zeta_eq, map_length, seq_length. reflexivity. Qed.
Lemma npz_length : length neg_powers_of_zeta = 512%nat.
Proof. unfold neg_powers_of_zeta. rewrite map_length. apply pz_length. Qed.

Lemma zeta_canon : canon zeta.
Proof. unfold canon. rewrite Q_val. vm_compute. split; congruence. Qed.
Lemma zeta_512 : zeta ^ 512 mod Q = (-1) mod Q.
Proof.
  rewrite <- zq_pow_spec by (try exact zeta_canon; unfold Words.is64, two64; lia). vm_compute. reflexivity.
Qed.
Lemma INV_N_spec : canon INV_N /\ (512 * INV_N) mod Q = 1.
Proof. split; [unfold canon; rewrite Q_val|]; vm_compute; [split; congruence|reflexivity]. Qed.

Lemma rev_range k : (k < 512)%nat -> 0 <= bit_rev (Z.of_nat k) < 512.
Proof.
  intros Hk.
  assert (C : forallb (fun k => (0 <=? bit_rev (Z.of_nat k)) && (bit_rev (Z.of_nat k) <? 512)) (seq 0 512) = true)
    by (vm_compute; reflexivity).
  pose proof (forallb_seq _ _ C k Hk) as E. cbv beta in E. lia.
Qed.
Lemma pz_pow k : (k < 512)%nat -> pz k = zeta ^ bit_rev (Z.of_nat k) mod Q.
Proof.
  intros Hk. unfold pz. rewrite powers_of_zeta_eq.
  rewrite (nth_indep _ 0 (zq_pow zeta (bit_rev (Z.of_nat 0)))) by (rewrite map_length, seq_length; lia).
  rewrite (map_nth (fun i => zq_pow zeta (bit_rev (Z.of_nat i)))). rewrite seq_nth by lia. cbn [Nat.add].
  apply zq_pow_spec; [exact zeta_canon|]. pose proof (rev_range k Hk). unfold Words.is64, two64. lia.
Qed.
#[global] Opaque powers_of_zeta neg_powers_of_zeta zeta.
Lemma pz_canon k : canon (pz k).
Proof.
  destruct (lt_dec k 512) as [H|H].
  - rewrite pz_pow by exact H. apply Z.mod_pos_bound. rewrite Q_val. lia.
  - unfold pz. rewrite nth_overflow by (rewrite pz_length; lia). apply canon_0.
Qed.
(* zeta ^ a for exponents in 0 .. 512 is a unit *)
Lemma zeta_unit a b : 0 <= a -> 0 <= b -> a + b = 512 ->
  ((zeta ^ a mod Q) * (zeta ^ b mod Q)) mod Q = (-1) mod Q.
Proof.
  intros Ha Hb E. rewrite <- Zmult_mod, <- Z.pow_add_r, E by assumption. exact zeta_512.
Qed.
Lemma pz_pos k : (k < 512)%nat -> 0 < pz k < Q.
Proof.
  intros Hk. pose proof (pz_canon k) as C. unfold canon in C.
  destruct (Z.eq_dec (pz k) 0) as [E|E]; [|lia]. exfalso.
  rewrite pz_pow in E by exact Hk. pose proof (rev_range k Hk) as R.
  pose proof (zeta_unit (bit_rev (Z.of_nat k)) (512 - bit_rev (Z.of_nat k)) ltac:(lia) ltac:(lia) ltac:(lia)) as U.
  rewrite E, Z.mul_0_l, Q_val in U. vm_compute in U. discriminate.
Qed.
Lemma npz_neg k : (k < 512)%nat -> npz k = Q - pz k.
Proof.
  intros Hk. unfold npz, pz. Transparent neg_powers_of_zeta. unfold neg_powers_of_zeta. Opaque neg_powers_of_zeta.
  rewrite (nth_indep _ 0 (zq_neg 0)) by (rewrite map_length, pz_length; lia).
  rewrite (map_nth zq_neg). apply zq_neg_spec. pose proof (pz_pos k Hk) as C. unfold pz in C. lia.
Qed.
Lemma npz_canon k : canon (npz k).
Proof.
  destruct (lt_dec k 512) as [H|H].
  - rewrite npz_neg by exact H. pose proof (pz_pos k H). unfold canon. lia.
  - unfold npz. rewrite nth_overflow by (rewrite npz_length; lia). apply canon_0.
Qed.
(* forward and inverse tables *)
Lemma rev_compl e b : (e <= 8)%nat -> (b < 2 ^ e)%nat ->
  bit_rev (Z.of_nat (2 ^ e + b)) + bit_rev (Z.of_nat (2 * 2 ^ e - 1 - b)) = 512.
Proof.
  intros He Hb.
  assert (C : forallb (fun e => forallb (fun b =>
     bit_rev (2 ^ Z.of_nat e + Z.of_nat b) + bit_rev (2 * 2 ^ Z.of_nat e - 1 - Z.of_nat b) =? 512) (seq 0 (2 ^ e)))
     (seq 0 9) = true) by (vm_compute; reflexivity).
  pose proof (forallb_seq _ _ C e ltac:(lia)) as E. cbv beta in E.
  pose proof (forallb_seq _ _ E b Hb) as E2. cbv beta in E2. apply Z.eqb_eq in E2. rewrite <- E2.
  assert (P : Z.of_nat (2 ^ e) = 2 ^ Z.of_nat e) by (rewrite Nat2Z.inj_pow; reflexivity).
  f_equal; f_equal; [rewrite Nat2Z.inj_add; lia|]. rewrite <- P. clear -Hb. lia.
Qed.
Lemma pz_npz e b : (e <= 8)%nat -> (b < 2 ^ e)%nat ->
  (pz (2 ^ e + b) * npz (2 * 2 ^ e - 1 - b)) mod Q = 1.
Proof.
  intros He Hb. assert (HP : (2 ^ e <= 256)%nat) by (change 256%nat with (2 ^ 8)%nat; apply Nat.pow_le_mono_r; lia).
  rewrite npz_neg by lia. rewrite Z.mul_sub_distr_l.
  rewrite Zminus_mod, Z_mod_mult, Z.sub_0_l.
  pose proof (rev_compl e b He Hb) as R.
  rewrite !pz_pow by lia.
  pose proof (rev_range (2 ^ e + b) ltac:(lia)). pose proof (rev_range (2 * 2 ^ e - 1 - b) ltac:(lia)).
  rewrite zeta_unit by (try lia; exact R). rewrite Q_val. reflexivity.
Qed.
(* squares *)
Definition sgn (k : nat) : Z := if Nat.even k then 1 else -1.
Lemma pz_sq1 : (pz 1 * pz 1) mod Q = (-1) mod Q.
Proof. rewrite pz_pow by lia. apply zeta_unit; vm_compute; congruence. Qed.
Definition hib (k : nat) : Z := if Nat.even k then 0 else 512.
Lemma zeta_sgn k a : 0 <= a -> zeta ^ (a + hib k) mod Q = (sgn k * zeta ^ a) mod Q.
Proof.
  intros Ha. unfold hib, sgn. destruct (Nat.even k).
  - rewrite Z.add_0_r, Z.mul_1_l. reflexivity.
  - rewrite Z.pow_add_r by lia. rewrite Z.mul_comm, Zmult_mod, zeta_512, <- Zmult_mod. reflexivity.
Qed.
Lemma rev_half k : (2 <= k < 512)%nat -> 2 * bit_rev (Z.of_nat k) = bit_rev (Z.of_nat (k / 2)) + hib k.
Proof.
  intros Hk.
  assert (C : forallb (fun k => (k <? 2)%nat ||
     (2 * bit_rev (Z.of_nat k) =? bit_rev (Z.of_nat k / 2) + (if Z.even (Z.of_nat k) then 0 else 512))) (seq 0 512) = true)
    by (vm_compute; reflexivity).
  pose proof (forallb_seq _ _ C k ltac:(lia)) as E. cbv beta in E.
  apply orb_true_iff in E. destruct E as [E|E]; [clear C; apply Nat.ltb_lt in E; lia|].
  apply Z.eqb_eq in E. rewrite E. unfold hib. rewrite Nat2Z.inj_div. change (Z.of_nat 2) with 2.
  f_equal. replace (Nat.even k) with (Z.even (Z.of_nat k)); [reflexivity|].
  rewrite <- Z.negb_odd, <- Nat.negb_odd. f_equal. clear. induction k as [|k IH]; [reflexivity|].
  rewrite Nat2Z.inj_succ, Z.odd_succ, Nat.odd_succ, <- Z.negb_odd, <- Nat.negb_odd, IH. reflexivity.
Qed.
Lemma pz_sq k : (2 <= k < 512)%nat -> (pz k * pz k) mod Q = (sgn k * pz (k / 2)) mod Q.
Proof.
  intros Hk. assert (K2 : (k / 2 < 512)%nat) by (apply Nat.div_lt_upper_bound; lia).
  rewrite !pz_pow by lia. pose proof (rev_range k ltac:(lia)). pose proof (rev_range (k / 2) K2).
  rewrite <- Zmult_mod, <- Z.pow_add_r by lia.
  replace (bit_rev (Z.of_nat k) + bit_rev (Z.of_nat k)) with (bit_rev (Z.of_nat (k / 2)) + hib k)
    by (rewrite <- (rev_half k Hk); ring).
  rewrite zeta_sgn by lia. rewrite Zmult_mod_idemp_r. reflexivity.
Qed.
(* bit reversal of 9-bit numbers *)
Fixpoint bitrev (n : nat) (x : nat) : nat :=
  match n with
  | O => 0%nat
  | S m => ((x mod 2) * 2 ^ m + bitrev m (x / 2))%nat
  end.
Lemma bitrev_rev b : (b < 512)%nat -> Z.of_nat (bitrev 9 b) = bit_rev (Z.of_nat b).
Proof.
  intros Hb.
  assert (C : forallb (fun b => Z.of_nat (bitrev 9 b) =? bit_rev (Z.of_nat b)) (seq 0 512) = true)
    by (vm_compute; reflexivity).
  pose proof (forallb_seq _ _ C b Hb) as E. cbv beta in E. apply Z.eqb_eq in E. exact E.
Qed.
Lemma rev_leaf b : (b < 512)%nat -> bit_rev (Z.of_nat (256 + b / 2)) + hib b = 2 * bit_rev (Z.of_nat b) + 1.
Proof.
  intros Hb. destruct (le_lt_dec 2 b) as [H2|H2].
  - rewrite (rev_half b) by lia.
    assert (C : forallb (fun m => bit_rev (256 + Z.of_nat m) =? bit_rev (Z.of_nat m) + 1) (seq 0 256) = true)
      by (vm_compute; reflexivity).
    assert (K : (b / 2 < 256)%nat) by (apply Nat.div_lt_upper_bound; lia).
    pose proof (forallb_seq _ _ C _ K) as E. cbv beta in E. apply Z.eqb_eq in E.
    rewrite Nat2Z.inj_add. change (Z.of_nat 256) with 256. rewrite E. ring.
  - destruct b as [|[|b]]; [vm_compute; reflexivity|vm_compute; reflexivity|lia].
Qed.
#[global] Opaque bitrev bit_rev.
Lemma pz_root b : (b < 512)%nat ->
  (sgn b * pz (256 + b / 2)) mod Q = zeta ^ (2 * Z.of_nat (bitrev 9 b) + 1) mod Q.
Proof.
  intros Hb. assert (K : (b / 2 < 256)%nat) by (apply Nat.div_lt_upper_bound; lia).
  rewrite pz_pow by lia. rewrite Zmult_mod_idemp_r. pose proof (rev_range (256 + b / 2) ltac:(lia)).
  rewrite <- zeta_sgn by lia. rewrite rev_leaf by exact Hb. rewrite bitrev_rev by exact Hb. reflexivity.
Qed.
