(* Arithmetic of 64-bit words. *)
From Coq Require Import ZArith Lia Bool List.
From Coq Require Import ZifyBool.
From Verif Require Import ModelBase.
Open Scope Z_scope.

Ltac Zify.zify_post_hook ::= Z.div_mod_to_equations.

Definition is64 (x : Z) : Prop := 0 <= x < two64.

Lemma two64_pow : two64 = 2 ^ 64.
Proof. reflexivity. Qed.
Lemma two63_pow : two63 = 2 ^ 63.
Proof. reflexivity. Qed.

Lemma u64_range x : is64 (u64 x).
Proof. unfold is64, u64. apply Z.mod_pos_bound. reflexivity. Qed.
Lemma u64_small x : is64 x -> u64 x = x.
Proof. intros H. apply Z.mod_small. exact H. Qed.

Lemma shl64_spec a n : 0 <= n -> shl64 a n = (a * 2 ^ n) mod two64.
Proof. intros H. unfold shl64, u64. now rewrite Z.shiftl_mul_pow2. Qed.
Lemma shr64_spec a n : 0 <= n -> shr64 a n = a / 2 ^ n.
Proof. intros H. unfold shr64. now rewrite Z.shiftr_div_pow2. Qed.
Lemma shl_chk_Ok a n : 0 <= n < 64 -> shl_chk a n = Ok ((a * 2 ^ n) mod two64).
Proof.
  intros H. unfold shl_chk. rewrite shl64_spec by lia.
  replace ((0 <=? n) && (n <? 64)) with true by lia. reflexivity.
Qed.
Lemma shr_chk_Ok a n : 0 <= n < 64 -> shr_chk a n = Ok (a / 2 ^ n).
Proof.
  intros H. unfold shr_chk. rewrite shr64_spec by lia.
  replace ((0 <=? n) && (n <? 64)) with true by lia. reflexivity.
Qed.

Lemma land_mask a n m : 0 <= n -> m = 2 ^ n - 1 -> Z.land a m = a mod 2 ^ n.
Proof.
  intros H ->. rewrite <- Z.land_ones by lia. f_equal. rewrite Z.ones_equiv. lia.
Qed.

Lemma land_disjoint a b n : 0 <= n -> 0 <= a < 2 ^ n -> Z.land a (b * 2 ^ n) = 0.
Proof.
  intros Hn Ha. apply Z.bits_inj'. intros i Hi.
  rewrite Z.land_spec, Z.bits_0, <- Z.shiftl_mul_pow2 by lia.
  destruct (Z.lt_ge_cases i n) as [H|H].
  - rewrite Z.shiftl_spec_low by lia. apply andb_false_r.
  - replace (Z.testbit a i) with false; [reflexivity|].
    symmetry. destruct (Z.eq_dec a 0) as [->|Hne]; [apply Z.bits_0|].
    apply Z.bits_above_log2; [lia|].
    assert (Z.log2 a < n) by (apply Z.log2_lt_pow2; lia). lia.
Qed.
Lemma lor_disjoint a b n : 0 <= n -> 0 <= a < 2 ^ n -> Z.lor a (b * 2 ^ n) = a + b * 2 ^ n.
Proof.
  intros Hn Ha. pose proof (land_disjoint a b n Hn Ha) as H.
  rewrite Z.add_nocarry_lxor by exact H. symmetry. apply Z.lxor_lor. exact H.
Qed.
Lemma lor_disjoint' a b n : 0 <= n -> 0 <= a < 2 ^ n -> Z.lor (b * 2 ^ n) a = b * 2 ^ n + a.
Proof. intros. rewrite Z.lor_comm, lor_disjoint by lia. lia. Qed.

Lemma align8_spec x : is64 x -> align8 x = 8 * (x / 8).
Proof.
  intros Hx. unfold align8.
  assert (E : two64 - 8 = Z.ldiff (Z.ones 64) (Z.ones 3)) by reflexivity.
  rewrite E. rewrite Z.land_comm.
  assert (L : Z.land (Z.ldiff (Z.ones 64) (Z.ones 3)) x = Z.ldiff x (Z.ones 3)).
  { apply Z.bits_inj'. intros i Hi.
    rewrite Z.land_spec, !Z.ldiff_spec, !Z.testbit_ones by lia.
    destruct (Z.lt_ge_cases i 64) as [H|H].
    - replace (0 <=? i) with true by lia. replace (i <? 64) with true by lia.
      destruct (i <? 3), (Z.testbit x i); reflexivity.
    - replace (i <? 64) with false by lia. replace (i <? 3) with false by lia.
      rewrite andb_false_r. simpl. symmetry.
      replace (Z.testbit x i) with false; [reflexivity|].
      symmetry. destruct (Z.eq_dec x 0) as [->|Hne]; [apply Z.bits_0|].
      unfold is64 in Hx. rewrite two64_pow in Hx.
      apply Z.bits_above_log2; [lia|].
      assert (Z.log2 x < 64) by (apply Z.log2_lt_pow2; lia). lia. }
  rewrite L. rewrite Z.ldiff_ones_r by lia.
  rewrite Z.shiftl_mul_pow2, Z.shiftr_div_pow2 by lia.
  change (2 ^ 3) with 8. lia.
Qed.

(* the mask trick  t + (q & -(t >> 63))  with t = x - q *)
Lemma mask_reduce x q :
  0 < q <= two63 -> 0 <= x < 2 * q -> x < two64 ->
  add64 (sub64 x q) (Z.land q (neg64 (shr64 (sub64 x q) 63))) = x mod q.
Proof.
  intros Hq Hx Hx2. unfold add64, sub64, neg64, u64.
  rewrite shr64_spec by lia. change (2 ^ 63) with two63.
  destruct (Z.lt_ge_cases x q) as [H|H].
  - assert (E : (x - q) mod two64 = x - q + two64).
    { symmetry. apply Z.mod_unique with (-1); unfold two64, two63 in *; lia. }
    rewrite E.
    replace ((x - q + two64) / two63) with 1 by (unfold two64, two63 in *; lia).
    replace ((- (1)) mod two64) with (Z.ones 64) by reflexivity.
    rewrite Z.land_ones by lia. change (2 ^ 64) with two64. rewrite (Z.mod_small q) by (unfold two63, two64 in *; lia).
    replace (x - q + two64 + q) with (x + 1 * two64) by lia.
    rewrite Z_mod_plus_full. rewrite !Z.mod_small; unfold two64 in *; lia.
  - assert (E : (x - q) mod two64 = x - q) by (apply Z.mod_small; unfold two64 in *; lia).
    rewrite E.
    replace ((x - q) / two63) with 0 by (unfold two63 in *; lia).
    replace ((- (0)) mod two64) with 0 by reflexivity.
    rewrite Z.land_0_r, Z.add_0_r, E.
    apply Z.mod_unique with 1; lia.
Qed.

Lemma byteZ_range b : 0 <= byteZ b < 256.
Proof. unfold byteZ. pose proof (Byte.to_N_bounded b). lia. Qed.
