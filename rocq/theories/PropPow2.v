(* Property theorems about the power-of-two helpers of utils.hpp. *)
From Coq Require Import ZArith List Bool Lia.
From Verif Require Import ModelBase ModelUtils.
Import ListNotations.
Open Scope Z_scope.

Lemma land_pred v : 0 < v -> (Z.land v (v - 1) = 0 <-> exists k, 0 <= k /\ v = 2 ^ k).
Proof.
  intros Hv. destruct (Z.log2_spec v Hv) as [L1 L2]. set (k := Z.log2 v) in *. assert (K0 : 0 <= k) by apply Z.log2_nonneg.
  rewrite Z.pow_succ_r in L2 by exact K0. split.
  - intros E. exists k. split; [exact K0|]. destruct (Z.eq_dec v (2 ^ k)) as [X|X]; [exact X|exfalso].
    assert (B : forall x, 2 ^ k <= x < 2 * 2 ^ k -> Z.testbit x k = true).
    { intros x Hx. apply Z.testbit_true; [exact K0|]. replace (x / 2 ^ k) with 1; [reflexivity|]. apply (Z.div_unique x (2 ^ k) 1 (x - 2 ^ k)); lia. }
    assert (T : Z.testbit (Z.land v (v - 1)) k = true) by (rewrite Z.land_spec, !B by lia; reflexivity).
    rewrite E, Z.testbit_0_l in T. discriminate T.
  - intros (j & Hj & ->). replace (2 ^ j - 1) with (Z.ones j) by (rewrite Z.ones_equiv; lia). rewrite Z.land_ones by exact Hj.
    apply Z.mod_same, Z.pow_nonzero; lia.
Qed.
Lemma ctz_pow k : 0 <= k -> ctz64 (2 ^ k) = k.
Proof.
  intros Hk. pattern k. apply natlike_ind; [reflexivity| |exact Hk]. intros x Hx IH. rewrite Z.pow_succ_r by exact Hx.
  assert (P0 : 0 < 2 ^ x) by (apply Z.pow_pos_nonneg; lia). destruct (2 ^ x) as [|p|p] eqn:E; [lia| |lia]. change (2 * Zpos p) with (Zpos (xO p)). cbn [ctz64 ctz_pos] in *. lia.
Qed.
(* C69 is false for one argument: the test calls 0 a power of two *)
Theorem C69_power_of_two_refuted : is_power_of_2 0 = true /\ forall k, 0 <= k -> 0 <> 2 ^ k.
Proof.
  split; [reflexivity|]. intros k Hk E. pose proof (Z.pow_pos_nonneg 2 k ltac:(lia) Hk) as H. rewrite <- E in H. discriminate H.
Qed.
Print Assumptions C69_power_of_two_refuted.
(* C69, what holds: for every other 64-bit number the test is exact, so a share count is accepted exactly if it is one
   of 1, 2, 4, .., 32, and the logarithm of an accepted number is exact.  Missing: 0. *)
Theorem C69_power_of_two_partial :
  (forall v, 0 < v < 2 ^ 64 -> (is_power_of_2 v = true <-> exists k, 0 <= k /\ v = 2 ^ k)) /\
  (forall v, 0 < v < 2 ^ 64 -> is_power_of_2 v = true -> v = 2 ^ log2_pow2 v /\ 0 <= log2_pow2 v < 64) /\
  (forall d, 0 <= d < 2 ^ 64 -> (is_d_valid d = true <-> exists k, 0 <= k <= 5 /\ d = 2 ^ k)).
Proof.
  assert (A : forall v, 0 < v < 2 ^ 64 -> (is_power_of_2 v = true <-> exists k, 0 <= k /\ v = 2 ^ k)).
  { intros v Hv. unfold is_power_of_2, sub64, u64. rewrite Z.eqb_eq.
    replace ((v - 1) mod two64) with (v - 1) by (symmetry; apply Z.mod_small; change two64 with (2 ^ 64); lia). apply land_pred. lia. }
  split; [exact A|]. split.
  - intros v Hv H. apply (proj1 (A v Hv)) in H. destruct H as (k & Hk & ->). unfold log2_pow2. rewrite ctz_pow by exact Hk. split; [reflexivity|]. split; [exact Hk|].
    apply (Z.pow_lt_mono_r_iff 2); lia.
  - intros d Hd. unfold is_d_valid. rewrite !andb_true_iff, Z.ltb_lt, Z.leb_le. split.
    + intros [[H0 H1] H2]. apply (proj1 (A d (conj H0 (proj2 Hd)))) in H1. destruct H1 as (k & Hk & E). exists k. split; [|exact E]. split; [exact Hk|].
      apply (Z.pow_le_mono_r_iff 2); [lia|lia|]. rewrite <- E. exact H2.
    + intros (k & Hk & E). assert (P0 : 0 < 2 ^ k) by (apply Z.pow_pos_nonneg; lia). assert (P5 : 2 ^ k <= 2 ^ 5) by (apply Z.pow_le_mono_r; lia).
      split; [split; [lia|]|rewrite E; exact P5]. apply (A d); [lia|]. exists k. split; [lia|exact E].
Qed.
Print Assumptions C69_power_of_two_partial.
Example C69_nonvacuous : is_power_of_2 (2 ^ 63) = true /\ is_power_of_2 (2 ^ 63 + 1) = false /\ log2_pow2 (2 ^ 63) = 63 /\
  is_d_valid 32 = true /\ is_d_valid 0 = false /\ is_d_valid 64 = false /\ is_d_valid 24 = false.
Proof. vm_compute. repeat split; reflexivity. Qed.
