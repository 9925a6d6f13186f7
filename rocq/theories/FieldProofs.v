(* Field arithmetic. *)
From Coq Require Import ZArith Lia Bool List ZifyBool Znumtheory.
From Verif Require Import ModelBase ModelU128 ModelField Words U128Proofs.
Open Scope Z_scope.
Ltac Zify.zify_post_hook ::= Z.div_mod_to_equations.

Definition canon (x : Z) : Prop := 0 <= x < Q.

Lemma Q_val : Q = 549824583172097. Proof. vm_compute. reflexivity. Qed.
Lemma QBW_val : Q_BIT_WIDTH = 49. Proof. vm_compute. reflexivity. Qed.
Lemma R_val : R = 576388651501714. Proof. vm_compute. reflexivity. Qed.
Lemma Q_pos : 0 < Q. Proof. rewrite Q_val. lia. Qed.
Lemma Q_lt49 : Q < 2 ^ 49. Proof. rewrite Q_val. reflexivity. Qed.
#[global] Opaque Q R Q_BIT_WIDTH.

Lemma canon_mod x : canon (x mod Q).
Proof. unfold canon. apply Z.mod_pos_bound. exact Q_pos. Qed.
Lemma canon_small x : canon x -> x mod Q = x.
Proof. intros H. apply Z.mod_small. exact H. Qed.
Lemma canon_0 : canon 0. Proof. unfold canon. rewrite Q_val. lia. Qed.
Lemma canon_1 : canon 1. Proof. unfold canon. rewrite Q_val. lia. Qed.
Lemma canon_is64 x : canon x -> is64 x.
Proof. unfold canon, is64, two64. rewrite Q_val. lia. Qed.

(* reduction *)
Lemma reduce_once_mod_spec q x : 0 < q <= two63 -> 0 <= x < 2 * q -> x < two64 ->
  add64 (sub64 x q) (Z.land q (neg64 (shr64 (sub64 x q) 63))) = x mod q.
Proof. apply mask_reduce. Qed.

Lemma reduce_once_gen v : 0 <= v < two63 -> reduce_once v = if v <? Q then v else v - Q.
Proof.
  intros H. destruct (v <? Q) eqn:E.
  - unfold reduce_once. rewrite mask_reduce; rewrite ?Q_val in *; unfold two63, two64 in *; try lia.
  - unfold reduce_once, add64, sub64, neg64. rewrite shr64_spec by lia.
    assert (E1 : u64 (v - Q) = v - Q)
      by (apply u64_small; unfold is64; rewrite Q_val in *; unfold two63, two64 in *; lia).
    rewrite E1. change (2 ^ 63) with two63.
    rewrite Z.div_small by (rewrite Q_val in *; unfold two63 in *; lia).
    replace (u64 (- 0)) with 0 by reflexivity. rewrite Z.land_0_r, Z.add_0_r. exact E1.
Qed.
Lemma reduce_once_spec v : 0 <= v < 2 * Q -> reduce_once v = v mod Q.
Proof.
  intros H. unfold reduce_once. apply mask_reduce; rewrite Q_val in *; unfold two63, two64 in *; lia.
Qed.

Lemma barrett_bounds v p : 0 <= v < 2 ^ 98 -> p = v * 576388651501714 / 2 ^ 98 ->
  0 <= v - p * 549824583172097 < 2 * 549824583172097.
Proof.
  change (2 ^ 98) with 316912650057057350374175801344. intros Hv Hp.
  assert (0 <= p) by (subst p; apply Z.div_pos; lia). lia.
Qed.

Lemma barrett_reduce_spec v : wf128 v -> val v < 2 ^ 98 -> barrett_reduce v = val v mod Q.
Proof.
  intros W Hv. pose proof (val_range v W) as Rv.
  unfold barrett_reduce. rewrite QBW_val, R_val. change (2 * 49) with 98.
  set (m64 := u128_from (two64 - 1)).
  assert (Wm : wf128 m64) by (apply wf_from; unfold is64, two64; lia).
  assert (Em : val m64 = 2 ^ 64 - 1) by reflexivity.
  destruct (u128_shr_spec v 64 W ltac:(lia)) as [W1 E1].
  destruct (u128_and_spec v m64 W Wm) as [W2 E2].
  rewrite Em, (land_mask _ 64) in E2 by (try reflexivity; lia).
  assert (Wr : wf128 (u128_from 576388651501714)) by (apply wf_from; unfold is64, two64; lia).
  pose proof (val_from 576388651501714) as Er.
  set (h := u128_shr v 64) in *. set (l := u128_and v m64) in *.
  set (r := u128_from 576388651501714) in *.
  destruct (u128_mul_spec h u128_zero W1 wf_zero) as [W3 E3].
  rewrite val_zero, Z.mul_0_r, Zmod_0_l in E3. set (hi := u128_mul h u128_zero) in *.
  destruct (u128_mul_spec h r W1 Wr) as [W4 E4].
  destruct (u128_mul_spec u128_zero l wf_zero W2) as [W5 E5].
  rewrite val_zero, Z.mul_0_l, Zmod_0_l in E5.
  destruct (u128_add_spec _ _ W4 W5) as [W6 E6].
  destruct (u128_mul_spec l r W2 Wr) as [W7 E7].
  set (mid := u128_add (u128_mul h r) (u128_mul u128_zero l)) in *.
  set (lo := u128_mul l r) in *.
  set (x := val v) in *.
  assert (Hh : 0 <= val h < 2 ^ 34).
  { rewrite E1. change (2 ^ 64) with 18446744073709551616. change (2 ^ 34) with 17179869184.
    change (2 ^ 98) with 316912650057057350374175801344 in Hv. lia. }
  assert (Hl : 0 <= val l < 2 ^ 64) by (rewrite E2; apply Z.mod_pos_bound; reflexivity).
  assert (Ex : x = val h * 2 ^ 64 + val l).
  { rewrite E1, E2. pose proof (Z.div_mod x (2 ^ 64) ltac:(lia)). lia. }
  change (2 ^ 34) with 17179869184 in Hh. change (2 ^ 64) with 18446744073709551616 in *.
  change (2 ^ 98) with 316912650057057350374175801344 in *.
  assert (Em1 : val mid = val h * 576388651501714).
  { rewrite E6, E4, E5, Er, Z.add_0_r, Z.mod_mod by (unfold two128; lia).
    apply Z.mod_small. unfold two128. clear - Hh. lia. }
  assert (Elo : val lo = val l * 576388651501714).
  { rewrite E7, Er. apply Z.mod_small. unfold two128. clear - Hl. lia. }
  clear E1 E2 E4 E5 E6 E7.
  destruct (u128_shr_spec mid 64 W6 ltac:(lia)) as [W8 E8].
  destruct (u128_and_spec mid m64 W6 Wm) as [W9 E9].
  rewrite Em, (land_mask _ 64) in E9 by (try reflexivity; lia).
  destruct (u128_shr_spec lo 64 W7 ltac:(lia)) as [W10 E10].
  set (mh := u128_shr mid 64) in *. set (ml := u128_and mid m64) in *. set (t0 := u128_shr lo 64) in *.
  change (2 ^ 64) with 18446744073709551616 in *.
  destruct (u128_add_spec t0 ml W10 W9) as [W11 E11]. set (t1 := u128_add t0 ml) in *.
  destruct (u128_shr_spec t1 64 W11 ltac:(lia)) as [W12 E12]. set (c := u128_shr t1 64) in *.
  change (2 ^ 64) with 18446744073709551616 in *.
  destruct (u128_add_spec hi mh W3 W8) as [W13 E13].
  destruct (u128_add_spec _ c W13 W12) as [W14 E14]. set (rh := u128_add (u128_add hi mh) c) in *.
  destruct (u128_shl_spec ml 64 W9 ltac:(lia)) as [W15 E15].
  destruct (u128_add_spec lo _ W7 W15) as [W16 E16]. set (rl := u128_add lo (u128_shl ml 64)) in *.
  change (2 ^ 64) with 18446744073709551616 in *.
  assert (Hml : 0 <= val ml < 18446744073709551616) by (rewrite E9; apply Z.mod_pos_bound; lia).
  assert (Hmh : 0 <= val mh < 1048576) by (rewrite E8, Em1; clear - Hh; lia).
  assert (Hmid : val mid = val mh * 18446744073709551616 + val ml) by (rewrite E8, E9; clear; lia).
  assert (Ht0 : 0 <= val t0 < 1152921504606846976) by (rewrite E10, Elo; clear - Hl; lia).
  assert (Et1 : val t1 = val t0 + val ml) by (rewrite E11; apply Z.mod_small; unfold two128; clear - Ht0 Hml; lia).
  assert (Hc : 0 <= val c <= 1) by (rewrite E12, Et1; clear - Ht0 Hml; lia).
  assert (Erh : val rh = val mh + val c).
  { rewrite E14, E13, E3, Z.add_0_l. rewrite (Z.mod_small (val mh)) by (unfold two128; clear - Hmh; lia).
    apply Z.mod_small; unfold two128; clear - Hmh Hc; lia. }
  assert (Erl : val rl = val lo + val ml * 18446744073709551616 - val c * two128).
  { rewrite E16, E15. rewrite (Z.mod_small (val ml * _)) by (unfold two128; clear - Hml; lia).
    symmetry. apply Z.mod_unique with (val c); [|clear; lia]. left.
    rewrite E12, Et1, E10.
    assert (Hlo : 0 <= val lo < 21267647932558653966460912964485513216)
      by (rewrite Elo; clear - Hl; lia).
    unfold two128. clear - Hml Hlo.
    generalize dependent (val lo). generalize dependent (val ml). intros m Hm x Hx. lia. }
  set (P := x * 576388651501714).
  assert (EP : P = val rh * two128 + val rl).
  { rewrite Erh, Erl. subst P. rewrite Ex, Elo.
    assert (H : val mh * 18446744073709551616 + val ml = val h * 576388651501714)
      by (rewrite <- Em1; symmetry; exact Hmid).
    unfold two128. clear - H. lia. }
  clear E8 E9 E10 E11 E12 E13 E14 E15 E16 Et1.
  assert (HP : 0 <= P < 356811923176489970264571492362373784095686656) by (subst P; clear - Hv Rv; lia).
  pose proof (val_range rl W16) as Rrl. pose proof (val_range rh W14) as Rrh.
  assert (Hrh : 0 <= val rh < 1048576) by (unfold two128 in *; clear - EP HP Rrl Rrh; lia).
  assert (Wk : wf128 (u128_from 1048575)) by (apply wf_from; unfold is64, two64; lia).
  destruct (u128_and_spec rh _ W14 Wk) as [W17 E17].
  rewrite val_from, (land_mask _ 20) in E17 by (try reflexivity; lia).
  rewrite Z.mod_small in E17 by (change (2 ^ 20) with 1048576; exact Hrh).
  destruct (u128_shl_spec _ 30 W17 ltac:(lia)) as [W18 E18]. rewrite E17 in E18.
  rewrite Z.mod_small in E18 by (change (2 ^ 30) with 1073741824; unfold two128; clear - Hrh; lia).
  destruct (u128_shr_spec rl 98 W16 ltac:(lia)) as [W19 E19].
  destruct (u128_or_spec _ _ W18 W19) as [W20 E20]. rewrite E18, E19 in E20.
  set (qq := u128_or _ _) in *.
  assert (Hs : 0 <= val rl / 2 ^ 98 < 2 ^ 30).
  { change (2 ^ 98) with 316912650057057350374175801344. change (2 ^ 30) with 1073741824.
    unfold two128 in *. clear - Rrl. lia. }
  rewrite lor_disjoint' in E20 by lia.
  change (2 ^ 98) with 316912650057057350374175801344 in *. change (2 ^ 30) with 1073741824 in *.
  assert (Eq : val qq = P / 316912650057057350374175801344).
  { rewrite E20. apply Z.div_unique with (val rl mod 316912650057057350374175801344);
      [left; apply Z.mod_pos_bound; reflexivity|].
    rewrite EP. clear.
    pose proof (Z.div_mod (val rl) 316912650057057350374175801344 ltac:(discriminate)).
    unfold two128. lia. }
  assert (Wq : wf128 (u128_from Q)).
  { apply wf_from. unfold is64, two64. rewrite Q_val. lia. }
  destruct (u128_mul_spec qq _ W20 Wq) as [W21 E21]. rewrite val_from in E21.
  destruct (u128_sub_spec v _ W W21) as [W22 E22].
  rewrite to64_spec by assumption. rewrite E22, E21. fold x.
  pose proof (barrett_bounds x (val qq) (conj (proj1 Rv) Hv) Eq) as B.
  assert (Hqq : 0 <= val qq).
  { rewrite Eq. apply Z.div_pos; [apply HP | reflexivity]. }
  assert (Hv2 : 0 <= x < 316912650057057350374175801344) by (split; [apply Rv | exact Hv]).
  clear - B Hqq Hv2.
  rewrite Q_val. rewrite (Z.mod_small (val qq * _)) by (unfold two128; lia).
  rewrite (Z.mod_small (x - _)) by (unfold two128; lia).
  rewrite (Z.mod_small (x - _)) by (unfold two64; lia).
  rewrite reduce_once_spec by (rewrite Q_val; lia).
  rewrite Q_val. rewrite <- (Z_mod_plus_full (x - val qq * 549824583172097) (val qq)). f_equal. lia.
Qed.

(* ring operations; [lt49]: 49-bit, not necessarily canonical *)
Definition lt49 (x : Z) : Prop := 0 <= x < 2 ^ 49.
Lemma canon_lt49 x : canon x -> lt49 x.
Proof. unfold canon, lt49. pose proof Q_lt49. lia. Qed.

Lemma zq_add_spec a b : canon a -> canon b -> zq_add a b = (a + b) mod Q.
Proof.
  unfold canon. intros Ha Hb. unfold zq_add, add64.
  rewrite u64_small by (unfold is64, two64; rewrite Q_val in *; lia).
  apply reduce_once_spec. lia.
Qed.
Lemma zq_neg_spec a : 0 <= a <= Q -> zq_neg a = Q - a.
Proof.
  intros Ha. unfold zq_neg, sub64. apply u64_small. unfold is64, two64. rewrite Q_val in *. lia.
Qed.
Lemma zq_sub_spec a b : canon a -> canon b -> zq_sub a b = (a - b) mod Q.
Proof.
  unfold canon. intros Ha Hb. unfold zq_sub, zq_add. rewrite zq_neg_spec by lia. unfold add64.
  rewrite u64_small by (unfold is64, two64; rewrite Q_val in *; lia).
  rewrite reduce_once_spec by lia.
  rewrite <- (Z_mod_plus_full (a - b) 1). f_equal. lia.
Qed.
Lemma mul_lt98 a b : lt49 a -> lt49 b -> 0 <= a * b < 2 ^ 98.
Proof.
  unfold lt49. intros Ha Hb. split; [apply Z.mul_nonneg_nonneg; lia|].
  change (2 ^ 98) with (2 ^ 49 * 2 ^ 49). apply Z.mul_lt_mono_nonneg; lia.
Qed.
Lemma zq_mul_spec49 a b : lt49 a -> lt49 b -> zq_mul a b = (a * b) mod Q.
Proof.
  intros Ha Hb. unfold zq_mul.
  assert (Wa : wf128 (u128_from a)) by (apply wf_from; unfold lt49, is64, two64 in *; lia).
  assert (Wb : wf128 (u128_from b)) by (apply wf_from; unfold lt49, is64, two64 in *; lia).
  destruct (u128_mul_spec _ _ Wa Wb) as [W E]. rewrite !val_from in E.
  pose proof (mul_lt98 a b Ha Hb) as H98.
  assert (L : 2 ^ 98 < two128) by reflexivity.
  rewrite Z.mod_small in E by lia.
  rewrite barrett_reduce_spec by (try assumption; lia). rewrite E. reflexivity.
Qed.
Lemma zq_mul_spec a b : canon a -> canon b -> zq_mul a b = (a * b) mod Q.
Proof. intros. apply zq_mul_spec49; apply canon_lt49; assumption. Qed.
Lemma zq_shl_spec a n : 0 <= n < 64 -> zq_shl a n = ((a * 2 ^ n) mod two64) mod Q.
Proof.
  intros Hn. unfold zq_shl. rewrite shl64_spec by lia.
  assert (H : is64 ((a * 2 ^ n) mod two64)) by apply u64_range.
  rewrite barrett_reduce_spec; [reflexivity | apply wf_from; exact H|].
  rewrite val_from. unfold is64 in H. assert (two64 < 2 ^ 98) by reflexivity. lia.
Qed.
Lemma zq_random_spec w : is64 w -> zq_random_of_word w = w mod Q.
Proof.
  intros H. unfold zq_random_of_word. rewrite barrett_reduce_spec; [reflexivity | apply wf_from; exact H|].
  rewrite val_from. unfold is64 in H. assert (two64 < 2 ^ 98) by reflexivity. lia.
Qed.

(* addition of a canonical value to a 49-bit value *)
Lemma zq_add_49 a b : lt49 a -> canon b -> lt49 (zq_add a b) /\ (zq_add a b) mod Q = (a + b) mod Q.
Proof.
  unfold lt49, canon. change (2 ^ 49) with 562949953421312. intros Ha Hb. unfold zq_add, add64.
  rewrite u64_small by (unfold is64, two64; rewrite Q_val in *; lia).
  rewrite reduce_once_gen by (unfold two63; rewrite Q_val in *; lia).
  destruct (a + b <? Q) eqn:E.
  - split; [rewrite Q_val in *; lia | reflexivity].
  - split; [rewrite Q_val in *; lia|].
    rewrite <- (Z_mod_plus_full (a + b - Q) 1). f_equal. lia.
Qed.
Lemma zq_sub_49 a b : lt49 a -> canon b -> lt49 (zq_sub a b) /\ (zq_sub a b) mod Q = (a - b) mod Q.
Proof.
  unfold lt49, canon. change (2 ^ 49) with 562949953421312. intros Ha Hb. unfold zq_sub, zq_add, add64.
  rewrite zq_neg_spec by lia.
  rewrite u64_small by (unfold is64, two64; rewrite Q_val in *; lia).
  rewrite reduce_once_gen by (unfold two63; rewrite Q_val in *; lia).
  destruct (a + (Q - b) <? Q) eqn:E.
  - split; [rewrite Q_val in *; lia |].
    rewrite <- (Z_mod_plus_full (a - b) 1). f_equal. lia.
  - split; [rewrite Q_val in *; lia|].
    f_equal. lia.
Qed.

(* ---- exponentiation ---- *)
Ltac Zify.zify_post_hook ::= idtac.
Lemma zq_pow_loop_unf :
  zq_pow_loop = ltac:(let t := eval unfold zq_pow_loop in zq_pow_loop in exact t).
Proof. reflexivity. Qed.
Lemma zq_pow_loop_S n c i base res :
  zq_pow_loop n (S c) i base res
  = zq_pow_loop n c (i + 1) (zq_mul base base)
      (zq_mul res (if Z.land (shr64 n i) 1 =? 0 then 1 else zq_mul base base)).
Proof. rewrite zq_pow_loop_unf. reflexivity. Qed.
Lemma zq_pow_loop_spec n b : is64 n -> canon b -> forall cnt i base res,
  0 < i -> base = b ^ (2 ^ (i - 1)) mod Q -> res = b ^ (n mod 2 ^ i) mod Q ->
  n < 2 ^ (i + Z.of_nat cnt) ->
  zq_pow_loop n cnt i base res = b ^ n mod Q.
Proof.
  intros Hn Hb. induction cnt as [|c IH]; intros i base r Hi Eb Er Hlt.
  - cbn [zq_pow_loop]. rewrite Er. rewrite (Z.mod_small n); [reflexivity|]. unfold is64 in Hn.
    replace (i + Z.of_nat 0) with i in Hlt by lia. lia.
  - rewrite zq_pow_loop_S.
    assert (Hcb : canon base) by (rewrite Eb; apply canon_mod).
    assert (Hcr : canon r) by (rewrite Er; apply canon_mod).
    assert (Ebb : zq_mul base base = b ^ (2 ^ i) mod Q).
    { rewrite zq_mul_spec by assumption. rewrite Eb, <- Zmult_mod.
      replace (2 ^ i) with (2 ^ (i - 1) + 2 ^ (i - 1))
        by (replace i with (i - 1 + 1) at 3 by lia; rewrite Z.pow_add_r by lia; lia).
      rewrite Z.pow_add_r by (apply Z.pow_nonneg; lia). reflexivity. }
    rewrite (land_mask _ 1) by (try reflexivity; lia). rewrite shr64_spec by lia.
    change (2 ^ 1) with 2.
    assert (Dec : n mod 2 ^ (i + 1) = n mod 2 ^ i + 2 ^ i * ((n / 2 ^ i) mod 2)).
    { rewrite Z.pow_add_r by lia. change (2 ^ 1) with 2.
      rewrite Z.rem_mul_r by (try lia; apply Z.pow_nonzero; lia). reflexivity. }
    apply IH; [lia| replace (i + 1 - 1) with i by lia; exact Ebb | |].
    + pose proof (Z.mod_pos_bound (n / 2 ^ i) 2 ltac:(lia)) as B2.
      pose proof (Z.mod_pos_bound n (2 ^ i) ltac:(apply Z.pow_pos_nonneg; lia)) as B3.
      destruct ((n / 2 ^ i) mod 2 =? 0) eqn:E.
      * rewrite zq_mul_spec by (try assumption; apply canon_1). rewrite Dec.
        replace ((n / 2 ^ i) mod 2) with 0 by lia.
        rewrite Z.mul_1_r, Er, Z.mod_mod by (pose proof Q_pos; lia).
        replace (n mod 2 ^ i + 2 ^ i * 0) with (n mod 2 ^ i) by lia. reflexivity.
      * rewrite zq_mul_spec by (try assumption; rewrite Ebb; apply canon_mod).
        rewrite Ebb, Er, <- Zmult_mod, Dec.
        replace ((n / 2 ^ i) mod 2) with 1 by lia. rewrite Z.mul_1_r.
        rewrite Z.pow_add_r by (try lia; apply Z.pow_nonneg; lia). reflexivity.
    + replace (i + 1 + Z.of_nat c) with (i + Z.of_nat (S c)) by lia. exact Hlt.
Qed.
Lemma zq_pow_spec b n : canon b -> is64 n -> zq_pow b n = b ^ n mod Q.
Proof.
  intros Hb Hn. unfold zq_pow. rewrite (land_mask _ 1) by (try reflexivity; lia). change (2 ^ 1) with 2.
  assert (E0 : (if n mod 2 =? 0 then 1 else b) = b ^ (n mod 2 ^ 1) mod Q).
  { change (2 ^ 1) with 2. destruct (n mod 2 =? 0) eqn:E.
    - replace (n mod 2) with 0 by lia. rewrite Z.pow_0_r, Z.mod_small; [reflexivity|apply canon_1].
    - replace (n mod 2) with 1 by (pose proof (Z.mod_pos_bound n 2); lia).
      rewrite Z.pow_1_r, Z.mod_small; [reflexivity|exact Hb]. }
  apply zq_pow_loop_spec; [assumption..| lia | | exact E0 |].
  - change (2 ^ (1 - 1)) with 1. rewrite Z.pow_1_r, Z.mod_small; [reflexivity|exact Hb].
  - unfold is64 in Hn. unfold clz64. destruct (n =? 0) eqn:E.
    + replace n with 0 by lia. change (Z.to_nat (64 - 64 - 1)) with 0%nat. reflexivity.
    + pose proof (Z.log2_spec n ltac:(lia)) as [L1 L2]. pose proof (Z.log2_nonneg n).
      assert (L : Z.log2 n < 64) by (apply Z.log2_lt_pow2; rewrite ?two64_pow in *; lia).
      apply Z.lt_le_trans with (1 := L2). apply Z.pow_le_mono_r; lia.
Qed.

(* ---- extended Euclid ---- *)
Definition xinv (x y sg oa a ob b og g : Z) : Prop :=
  (sg = 1 \/ sg = -1) /\
  0 <= sg * oa /\ sg * a <= 0 /\ sg * ob <= 0 /\ 0 <= sg * b /\
  0 < og /\ 0 <= g /\
  oa * x + ob * y = og /\ a * x + b * y = g /\
  (- a * sg) * og + (sg * oa) * g = y /\
  (b * sg) * og + (- sg * ob) * g = x /\
  sg * oa < y /\ (- a * sg < y \/ g = 0) /\
  Z.gcd og g = Z.gcd x y.

Lemma s64_ok v : - two63 <= v < two63 -> s64_chk v = Ok v.
Proof. intros H. unfold s64_chk. replace ((- two63 <=? v) && (v <? two63)) with true by lia. reflexivity. Qed.

Lemma abs_bound_mul m g y : 0 <= m -> 1 <= g -> m * g <= y -> m <= y.
Proof. intros. assert (m * 1 <= m * g) by (apply Z.mul_le_mono_nonneg_l; lia). lia. Qed.

Lemma xgcd_step x y sg oa a ob b og g :
  1 <= x < two63 -> 1 < y < two63 -> og < two63 -> g < two63 -> 0 < g ->
  xinv x y sg oa a ob b og g ->
  let q := Z.quot og g in
  s64_chk (q * a) = Ok (q * a) /\ s64_chk (oa - q * a) = Ok (oa - q * a) /\
  s64_chk (q * b) = Ok (q * b) /\ s64_chk (ob - q * b) = Ok (ob - q * b) /\
  s64_chk (q * g) = Ok (q * g) /\ s64_chk (og - q * g) = Ok (og mod g) /\
  xinv x y (- sg) a (oa - q * a) b (ob - q * b) g (og mod g).
Proof.
  intros Hx Hy Hog Hg Hg0 (Hs & I1 & I2 & I3 & I4 & I5 & I6 & I7 & I8 & I9 & I10 & I11 & I12 & I13).
  cbv zeta. rewrite Z.quot_div_nonneg by lia.
  pose proof (Z.div_mod og g ltac:(lia)) as D. pose proof (Z.mod_pos_bound og g Hg0) as M.
  set (q := og / g) in *. set (r := og mod g) in *.
  assert (Hq : 0 <= q) by (subst q; apply Z.div_pos; lia).
  clearbody q r.
  assert (Er : r = og - q * g) by lia.
  set (A := - a * sg) in *. set (OA := sg * oa) in *. set (B := b * sg) in *. set (OB := - sg * ob) in *.
  assert (HA : 0 <= A) by (subst A; lia). assert (HOA : 0 <= OA) by lia.
  assert (HB : 0 <= B) by (subst B; lia). assert (HOB : 0 <= OB) by (subst OB; lia).
  assert (N9 : (OA + q * A) * g + A * r = y) by (rewrite Er, <- I9; ring).
  assert (N10 : (OB + q * B) * g + B * r = x) by (rewrite Er, <- I10; ring).
  assert (qA : 0 <= q * A) by (apply Z.mul_nonneg_nonneg; assumption).
  assert (qB : 0 <= q * B) by (apply Z.mul_nonneg_nonneg; assumption).
  assert (qg : 0 <= q * g) by (apply Z.mul_nonneg_nonneg; lia).
  assert (Ar : 0 <= A * r) by (apply Z.mul_nonneg_nonneg; lia).
  assert (Br : 0 <= B * r) by (apply Z.mul_nonneg_nonneg; lia).
  assert (BA : OA + q * A <= y) by (apply abs_bound_mul with g; clear - HOA qA Hg0 N9 Ar; lia).
  assert (BB : OB + q * B <= x) by (apply abs_bound_mul with g; clear - HOB qB Hg0 N10 Br; lia).
  assert (Ea : q * a = - sg * (q * A)) by (subst A; destruct Hs as [-> | ->]; ring).
  assert (Eoa : oa = sg * OA) by (subst OA; destruct Hs as [-> | ->]; ring).
  assert (Eb : q * b = sg * (q * B)) by (subst B; destruct Hs as [-> | ->]; ring).
  assert (Eob : ob = - sg * OB) by (subst OB; destruct Hs as [-> | ->]; ring).
  rewrite Er. unfold two63 in *.
  assert (Hfin : xinv x y (- sg) a (oa - q * a) b (ob - q * b) g r).
  { unfold xinv. rewrite Ea, Eb.
    assert (Ea1 : a = - sg * A) by (subst A; destruct Hs as [-> | ->]; ring).
    assert (Eb1 : b = sg * B) by (subst B; destruct Hs as [-> | ->]; ring).
    assert (NA : - (oa - - sg * (q * A)) * - sg = OA + q * A)
      by (rewrite Eoa; destruct Hs as [-> | ->]; ring).
    assert (NB : (ob - sg * (q * B)) * - sg = OB + q * B)
      by (rewrite Eob; destruct Hs as [-> | ->]; ring).
    assert (SA : - sg * a = A) by (subst A; ring).
    assert (SB : - - sg * b = B) by (subst B; ring).
    rewrite NA, NB, SA.
    assert (X1 : - sg * (oa - - sg * (q * A)) = - (OA + q * A)) by (rewrite <- NA; ring).
    assert (X2 : - sg * b = - B) by (subst B; ring).
    assert (X3 : - sg * (ob - sg * (q * B)) = OB + q * B) by (rewrite <- NB; ring).
    rewrite X1, X2, X3.
    split; [clear - Hs; lia|]. split; [exact HA|]. split; [clear - HOA qA; lia|].
    split; [clear - HB; lia|]. split; [clear - HOB qB; lia|]. split; [exact Hg0|].
    split; [apply M|].
    split; [exact I8|].
    split; [rewrite <- Ea, <- Eb, Er, <- I7, <- I8; ring|].
    split; [exact N9|].
    split; [rewrite SB; exact N10|].
    split; [| split].
    - destruct I12 as [I12|I12]; [exact I12 | clear - I12 Hg0; lia].
    - destruct (Z.eq_dec r 0) as [H0|H0]; [now right|left].
      destruct (Z.eq_dec A 0) as [HA0|HA0].
      + rewrite HA0, Z.mul_0_r, Z.add_0_r. exact I11.
      + assert (P1 : 1 * 1 <= A * r) by (apply Z.mul_le_mono_nonneg; clear - HA HA0 H0 M; lia).
        assert (P2 : OA + q * A <= y - 1)
          by (apply abs_bound_mul with g; clear - HOA qA Hg0 N9 P1; lia).
        clear - P2. lia.
    - rewrite <- I13. rewrite (Z.gcd_comm og g). rewrite Er.
      replace (og - q * g) with (og + (- q) * g) by ring. apply Z.gcd_add_mult_diag_r. }
  rewrite <- Er.
  assert (K1 : oa - q * a = sg * (OA + q * A)) by (rewrite Ea, Eoa; ring).
  assert (K2 : ob - q * b = - sg * (OB + q * B)) by (rewrite Eb, Eob; ring).
  assert (Sg : forall w, 0 <= w < 9223372036854775808 -> forall t, t = sg * w \/ t = - sg * w ->
               s64_chk t = Ok t).
  { clear - Hs. intros w Hw t Ht. apply s64_ok. unfold two63. destruct Hs as [-> | ->]; lia. }
  split; [apply (Sg (q * A)); [clear - qA HOA BA Hy; lia | right; exact Ea]|].
  split; [apply (Sg (OA + q * A)); [clear - qA HOA BA Hy; lia | left; exact K1]|].
  split; [apply (Sg (q * B)); [clear - qB HOB BB Hx; lia | left; exact Eb]|].
  split; [apply (Sg (OB + q * B)); [clear - qB HOB BB Hx; lia | right; exact K2]|].
  split; [apply s64_ok; unfold two63; clear - qg D M Hog; lia|].
  split; [apply s64_ok; unfold two63; clear - M Hg; lia|].
  exact Hfin.
Qed.

Lemma xgcd_loop_ok x y : 1 <= x < two63 -> 1 < y < two63 -> forall (m : nat) fuel sg oa a ob b og g,
  g < 2 ^ Z.of_nat m -> og < two63 -> g < two63 -> (2 * m <= fuel)%nat ->
  xinv x y sg oa a ob b og g ->
  exists sg' oa' a' ob' b' og', xgcd_loop fuel oa a ob b og g = Ok (oa', ob', og') /\
     xinv x y sg' oa' a' ob' b' og' 0.
Proof.
  intros Hx Hy. induction m as [|m IH]; intros fuel sg oa a ob b og g Hg Hog Hg3 Hf I.
  - assert (g = 0) by (destruct I as (_&_&_&_&_&_&Hg0&_); change (2 ^ Z.of_nat 0) with 1 in Hg; lia).
    subst g. exists sg, oa, a, ob, b, og. split; [|exact I]. destruct fuel; reflexivity.
  - destruct (Z.eq_dec g 0) as [->|Hne].
    { exists sg, oa, a, ob, b, og. split; [|exact I]. destruct fuel; reflexivity. }
    assert (Hg0 : 0 < g) by (destruct I as (_&_&_&_&_&_&Hg0&_); lia).
    destruct fuel as [|fuel]; [lia|].
    destruct (xgcd_step x y sg oa a ob b og g Hx Hy Hog Hg3 Hg0 I) as (S1&S2&S3&S4&S5&S6&I').
    cbn [xgcd_loop]. replace (g =? 0) with false by lia.
    rewrite S1; cbn [bind]; rewrite S2; cbn [bind]; rewrite S3; cbn [bind]; rewrite S4; cbn [bind];
      rewrite S5; cbn [bind]; rewrite S6; cbn [bind].
    pose proof (Z.mod_pos_bound og g Hg0) as M.
    set (a1 := oa - Z.quot og g * a) in *. set (b1 := ob - Z.quot og g * b) in *.
    set (g1 := og mod g) in *.
    clear S1 S2 S3 S4 S5 S6.
    destruct (Z.eq_dec g1 0) as [E0|Hne1].
    { rewrite E0 in *. exists (- sg), a, a1, b, b1, g. split; [|exact I']. destruct fuel; reflexivity. }
    assert (Hg1 : 0 < g1) by lia.
    destruct fuel as [|fuel]; [lia|].
    destruct (xgcd_step x y (- sg) a a1 b b1 g g1 Hx Hy Hg3 ltac:(lia) Hg1 I') as (S1&S2&S3&S4&S5&S6&I'').
    cbn [xgcd_loop]. replace (g1 =? 0) with false by lia.
    rewrite S1; cbn [bind]; rewrite S2; cbn [bind]; rewrite S3; cbn [bind]; rewrite S4; cbn [bind];
      rewrite S5; cbn [bind]; rewrite S6; cbn [bind].
    apply IH with (sg := - - sg); try lia; try assumption.
    + pose proof (Z.mod_pos_bound g g1 Hg1) as M2.
      pose proof (Z.div_mod g g1 ltac:(lia)) as D2.
      assert (1 <= g / g1) by (apply Z.div_le_lower_bound; lia).
      assert (g1 * 1 <= g1 * (g / g1)) by (apply Z.mul_le_mono_nonneg_l; lia).
      replace (Z.of_nat (S m)) with (Z.of_nat m + 1) in Hg by lia.
      rewrite Z.pow_add_r in Hg by lia. change (2 ^ 1) with 2 in Hg. lia.
    + pose proof (Z.mod_pos_bound g g1 Hg1). lia.
Qed.

Lemma xgcd_spec v : 0 < v < Q ->
  exists a b, xgcd v Q = Ok (a, b, Z.gcd v Q) /\ a * v + b * Q = Z.gcd v Q /\ - Q < a < Q.
Proof.
  intros Hv. unfold xgcd, s64_of_u64.
  replace (v <? two63) with true by (rewrite Q_val in *; unfold two63; lia).
  replace (Q <? two63) with true by (rewrite Q_val in *; unfold two63; lia).
  assert (Hv' : 1 <= v < two63) by (rewrite Q_val in *; unfold two63; lia).
  assert (HQ' : 1 < Q < two63) by (rewrite Q_val in *; unfold two63; lia).
  assert (I0 : xinv v Q 1 1 0 0 1 v Q).
  { unfold xinv. repeat split; try lia. }
  destruct (xgcd_loop_ok v Q Hv' HQ' 49 XGCD_FUEL 1 1 0 0 1 v Q) as (sg & oa & a & ob & b & og & E & I);
    try lia; try exact I0.
  - apply Q_lt49.
  - unfold XGCD_FUEL. lia.
  - destruct I as (Hs & I1 & I2 & I3 & I4 & I5 & I6 & I7 & I8 & I9 & I10 & I11 & I12 & I13).
    rewrite Z.gcd_0_r, Z.abs_eq in I13 by lia.
    exists oa, ob. rewrite E, I13. split; [reflexivity|]. split; [lia|].
    destruct Hs as [-> | ->]; lia.
Qed.

Lemma zq_inv_spec v : canon v ->
  (Z.gcd v Q = 1 -> exists i, zq_inv v = Ok (i, true) /\ canon i /\ (v * i) mod Q = 1) /\
  (Z.gcd v Q <> 1 -> zq_inv v = Ok (0, false)).
Proof.
  intros Hv. unfold canon in Hv. unfold zq_inv. destruct (v =? 0) eqn:E0.
  { assert (v = 0) by lia. subst v. split; [|reflexivity].
    intros H. rewrite Z.gcd_0_l, Q_val in H. discriminate. }
  destruct (xgcd_spec v ltac:(lia)) as (a & b & E & L & B). rewrite E. cbn [bind].
  split; intros Hg.
  - rewrite Hg. change (negb (1 =? 1)) with false. cbv iota.
    rewrite Hg in L. set (a1 := a + (if a <? 0 then Q else 0)).
    assert (Ha1 : 0 <= a1 < Q) by (subst a1; destruct (a <? 0) eqn:Ea; lia).
    replace (if Q <=? a1 then Q else 0) with 0 by (destruct (Q <=? a1) eqn:Eq; lia).
    rewrite Z.sub_0_r. unfold u64_of_s64.
    rewrite u64_small by (unfold is64, two64; rewrite Q_val in *; lia).
    exists a1. split; [reflexivity|]. split; [exact Ha1|].
    assert (Em : exists k, a1 = a + k * Q).
    { subst a1. destruct (a <? 0); [exists 1|exists 0]; lia. }
    destruct Em as [k Ek]. rewrite Ek.
    replace (v * (a + k * Q)) with (1 + (v * k - b) * Q) by (rewrite <- L; ring).
    rewrite Z_mod_plus_full. apply Z.mod_small. rewrite Q_val. lia.
  - replace (Z.gcd v Q =? 1) with false by lia. reflexivity.
Qed.

Lemma zq_div_spec a v : canon a -> canon v ->
  (Z.gcd v Q = 1 -> exists r, zq_div a v = Ok (r, true) /\ canon r /\ (r * v) mod Q = a) /\
  (Z.gcd v Q <> 1 -> zq_div a v = Ok (0, false)).
Proof.
  intros Ha Hv. destruct (zq_inv_spec v Hv) as [I1 I2]. split; intros Hg.
  - destruct (I1 Hg) as (i & E & Hc & Em). unfold zq_div. rewrite E. cbn [bind].
    rewrite zq_mul_spec by assumption. eexists. split; [reflexivity|]. split; [apply canon_mod|].
    rewrite Z.mul_mod_idemp_l by (pose proof Q_pos; lia).
    replace (a * i * v) with (a * (v * i)) by ring.
    rewrite Z.mul_mod, Em, Z.mul_1_r, Z.mod_mod by (pose proof Q_pos; lia). apply canon_small. exact Ha.
  - unfold zq_div. rewrite (I2 Hg). cbn [bind].
    rewrite zq_mul_spec by (try assumption; apply canon_0). rewrite Z.mul_0_r, Zmod_0_l. reflexivity.
Qed.

#[global] Opaque zq_add zq_sub zq_mul zq_neg barrett_reduce reduce_once.
