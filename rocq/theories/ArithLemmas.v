(* Restatements of the arithmetic lemmas in terms of Spec.v. *)
From Coq Require Import ZArith Lia Bool List.
From Coq Require Import ZifyBool.
From Verif Require Import ModelBase ModelU128 ModelField Words U128Proofs FieldProofs.
From Verif Require Spec.
Open Scope Z_scope.
Ltac Zify.zify_post_hook ::= idtac.

Lemma q_Q : Spec.q = Q.
Proof. rewrite Q_val. reflexivity. Qed.
Lemma reduced_canon x : Spec.reduced x <-> canon x.
Proof. unfold Spec.reduced, canon. rewrite q_Q. reflexivity. Qed.

Lemma arith_field :
  (forall a b, Spec.reduced a -> Spec.reduced b ->
     zq_add a b = (a + b) mod Spec.q /\
     zq_sub a b = (a - b) mod Spec.q /\
     zq_mul a b = (a * b) mod Spec.q) /\
  (forall a n, Spec.reduced a -> 0 <= n < 2 ^ 64 -> zq_pow a n = a ^ n mod Spec.q) /\
  (forall hi lo, 0 <= hi < 2 ^ 64 -> 0 <= lo < 2 ^ 64 -> hi * 2 ^ 64 + lo < 2 ^ 98 ->
     barrett_reduce (U128 hi lo) = (hi * 2 ^ 64 + lo) mod Spec.q) /\
  (forall v, 0 <= v < 2 ^ 64 -> zq_random_of_word v = v mod Spec.q).
Proof.
  rewrite q_Q. split; [|split; [|split]].
  - intros a b Ha Hb. rewrite reduced_canon in Ha. rewrite reduced_canon in Hb.
    split; [|split]; [apply zq_add_spec|apply zq_sub_spec|apply zq_mul_spec]; assumption.
  - intros a n Ha Hn. rewrite reduced_canon in Ha. apply zq_pow_spec; assumption.
  - intros hi lo Hh Hl Hv.
    apply (barrett_reduce_spec (U128 hi lo)); [split; assumption|exact Hv].
  - intros v Hv. apply zq_random_spec. exact Hv.
Qed.

Lemma arith_inverse :
  (forall v, Spec.reduced v ->
     (Z.gcd v Spec.q = 1 -> exists i, zq_inv v = Ok (i, true) /\ Spec.reduced i /\
                                     (v * i) mod Spec.q = 1) /\
     (Z.gcd v Spec.q <> 1 -> zq_inv v = Ok (0, false))) /\
  (forall a v, Spec.reduced a -> Spec.reduced v ->
     (Z.gcd v Spec.q = 1 -> exists r, zq_div a v = Ok (r, true) /\ Spec.reduced r /\
                                     (r * v) mod Spec.q = a) /\
     (Z.gcd v Spec.q <> 1 -> zq_div a v = Ok (0, false))).
Proof.
  rewrite q_Q. split.
  - intros v Hv. rewrite reduced_canon in Hv. destruct (zq_inv_spec v Hv) as [A B].
    split; [|exact B]. intros G. destruct (A G) as (i & E & C & M).
    exists i. split; [exact E|]. split; [apply reduced_canon; exact C|exact M].
  - intros a v Ha Hv. rewrite reduced_canon in Hv. rewrite reduced_canon in Ha.
    destruct (zq_div_spec a v Ha Hv) as [A B].
    split; [|exact B]. intros G. destruct (A G) as (i & E & C & M).
    exists i. split; [exact E|]. split; [apply reduced_canon; exact C|exact M].
Qed.

Lemma arith_neg : forall v, Spec.reduced v ->
  (v <> 0 -> zq_neg v = (- v) mod Spec.q) /\ (v = 0 -> zq_neg v = Spec.q).
Proof.
  intros v Hv. rewrite reduced_canon in Hv. rewrite q_Q. unfold canon in Hv.
  rewrite zq_neg_spec by lia. split; intros H; [|lia].
  apply Z.mod_unique with (-1); lia.
Qed.
Lemma arith_neg_refuted : exists v, Spec.reduced v /\ ~ Spec.reduced (zq_neg v).
Proof.
  exists 0. split; [split; reflexivity || (intros; discriminate)|].
  assert (Spec.reduced 0) as H by (split; [intros E; discriminate|reflexivity]).
  destruct (arith_neg 0 H) as [_ E]. rewrite (E eq_refl).
  unfold Spec.reduced. lia.
Qed.

Definition represents r v := 0 <= u_hi r < 2 ^ 64 /\ 0 <= u_lo r < 2 ^ 64 /\
                        u_hi r * 2 ^ 64 + u_lo r = v.
Lemma rep_val r v : wf128 r -> val r = v -> represents r v.
Proof. intros [H L] E. split; [exact H|]. split; [exact L|exact E]. Qed.

Lemma arith_u128 : forall ah al bh bl n,
  0 <= ah < 2 ^ 64 -> 0 <= al < 2 ^ 64 -> 0 <= bh < 2 ^ 64 -> 0 <= bl < 2 ^ 64 -> 0 <= n < 128 ->
  let a := U128 ah al in let b := U128 bh bl in
  let va := ah * 2 ^ 64 + al in let vb := bh * 2 ^ 64 + bl in
  let represents r v := 0 <= u_hi r < 2 ^ 64 /\ 0 <= u_lo r < 2 ^ 64 /\
                        u_hi r * 2 ^ 64 + u_lo r = v in
  represents (u128_add a b) (n128_add va vb) /\ n128_add va vb = (va + vb) mod 2 ^ 128 /\
  represents (u128_sub a b) (n128_sub va vb) /\ n128_sub va vb = (va - vb) mod 2 ^ 128 /\
  represents (u128_neg a) (n128_neg va) /\ n128_neg va = (- va) mod 2 ^ 128 /\
  represents (u128_mul a b) (n128_mul va vb) /\ n128_mul va vb = (va * vb) mod 2 ^ 128 /\
  represents (u128_or a b) (Z.lor va vb) /\ represents (u128_and a b) (Z.land va vb) /\
  (exists r, u128_shl_chk a n = Ok r /\ represents r ((va * 2 ^ n) mod 2 ^ 128) /\
             n128_shl va n = Ok ((va * 2 ^ n) mod 2 ^ 128)) /\
  (exists r, u128_shr_chk a n = Ok r /\ represents r (va / 2 ^ n) /\
             n128_shr va n = Ok (va / 2 ^ n)) /\
  u128_shl_chk a 128 = Ok (U128 0 0) /\ u128_shr_chk a 128 = Ok (U128 0 0) /\
  u128_gt a b = (vb <? va) /\ u128_lt a b = (va <? vb) /\ u128_eq a b = (va =? vb) /\
  u128_ge a b = (vb <=? va) /\ u128_le a b = (va <=? vb) /\
  (forall w, 0 <= w <= 64 -> u128_to w a = va mod 2 ^ w) /\
  mul_full_u64 al bl = (al * bl / 2 ^ 64, (al * bl) mod 2 ^ 64).
Proof.
  intros ah al bh bl n Hah Hal Hbh Hbl Hn a b va vb represents.
  assert (Wa : wf128 a) by (split; assumption).
  assert (Wb : wf128 b) by (split; assumption).
  change va with (val a). change vb with (val b). clearbody a b. clear va vb Hah Hbh.
  change (2 ^ 128) with two128.
  destruct (u128_add_spec a b Wa Wb) as [A1 A2].
  destruct (u128_sub_spec a b Wa Wb) as [B1 B2].
  destruct (u128_neg_spec a Wa) as [C1 C2].
  destruct (u128_mul_spec a b Wa Wb) as [D1 D2].
  destruct (u128_or_spec a b Wa Wb) as [E1 E2].
  destruct (u128_and_spec a b Wa Wb) as [F1 F2].
  assert (ES : n128_sub (val a) (val b) = (val a - val b) mod two128).
  { unfold n128_sub, n128_add, n128_neg. rewrite Zplus_mod_idemp_r. reflexivity. }
  repeat match goal with |- _ /\ _ => split end;
    try (rewrite ?ES; apply rep_val; assumption); try reflexivity; try exact ES.
  - destruct (u128_shl_spec a n Wa ltac:(lia)) as [W E]. exists (u128_shl a n).
    unfold u128_shl_chk. replace ((0 <=? n) && (n <=? 128)) with true by lia.
    split; [reflexivity|]. split; [apply rep_val; assumption|].
    unfold n128_shl. replace ((0 <=? n) && (n <? 128)) with true by lia.
    rewrite Z.shiftl_mul_pow2 by lia. reflexivity.
  - destruct (u128_shr_spec a n Wa ltac:(lia)) as [W E]. exists (u128_shr a n).
    unfold u128_shr_chk. replace ((0 <=? n) && (n <=? 128)) with true by lia.
    split; [reflexivity|]. split; [apply rep_val; assumption|].
    unfold n128_shr. replace ((0 <=? n) && (n <? 128)) with true by lia.
    rewrite Z.shiftr_div_pow2 by lia. reflexivity.
  - apply u128_gt_spec; assumption.
  - apply u128_lt_spec; assumption.
  - apply u128_eq_spec; assumption.
  - apply u128_ge_spec; assumption.
  - apply u128_le_spec; assumption.
  - intros w Hw. apply to_spec; assumption.
  - pose proof (mul_full_u64_spec al bl Hal Hbl) as M. destruct (mul_full_u64 al bl) as [h l].
    destruct M as (Hh & Hl & E). unfold is64 in *. change (2 ^ 64) with two64 in *.
    f_equal.
    + apply Z.div_unique with l; lia.
    + apply Z.mod_unique with h; lia.
Qed.

Lemma arith_div : forall ah al bh bl,
  0 <= ah < 2 ^ 64 -> 0 <= al < 2 ^ 64 -> 0 <= bh < 2 ^ 64 -> 0 <= bl < 2 ^ 64 ->
  0 < bh * 2 ^ 64 + bl ->
  let a := U128 ah al in let b := U128 bh bl in
  let va := ah * 2 ^ 64 + al in let vb := bh * 2 ^ 64 + bl in
  let represents r v := 0 <= u_hi r < 2 ^ 64 /\ 0 <= u_lo r < 2 ^ 64 /\
                        u_hi r * 2 ^ 64 + u_lo r = v in
  represents (u128_div a b) (va / vb) /\ represents (u128_mod a b) (va mod vb) /\
  (vb < va -> 0 <= sub64 (u128_msb a) (u128_msb b) < 128).
Proof.
  intros ah al bh bl Hah Hal Hbh Hbl Hb a b va vb represents.
  assert (Wa : wf128 a) by (split; assumption).
  assert (Wb : wf128 b) by (split; assumption).
  change va with (val a). change vb with (val b). change (0 < val b) in Hb. clearbody a b.
  clear va vb Hah Hbh Hal Hbl.
  pose proof (u128_divmod_spec a b Wa Wb Hb) as M. unfold u128_div, u128_mod.
  destruct (u128_divmod a b) as [x y]. cbn [fst snd]. destruct M as (W1 & W2 & E1 & E2).
  split; [apply rep_val; assumption|]. split; [apply rep_val; assumption|].
  intros H. rewrite !u128_msb_spec by assumption.
  pose proof (val_range a Wa) as Ra.
  assert (Z.log2 (val b) <= Z.log2 (val a)) by (apply Z.log2_le_mono; lia).
  assert (0 <= Z.log2 (val b)) by apply Z.log2_nonneg.
  assert (Z.log2 (val a) < 128) by (apply Z.log2_lt_pow2; [lia|exact (proj2 Ra)]).
  unfold sub64. rewrite u64_small by (unfold is64, two64; lia). lia.
Qed.

Lemma arith_rot : forall ah al n,
  0 <= ah < 2 ^ 64 -> 0 <= al < 2 ^ 64 -> 0 <= n <= 128 ->
  let a := U128 ah al in
  bind (u128_rotl a n) (fun r => u128_rotr r n) = Ok a /\
  (exists r, u128_rotl a n = Ok r /\ forall i, 0 <= i < 128 ->
     Z.testbit (u_hi r * 2 ^ 64 + u_lo r) i = Z.testbit (ah * 2 ^ 64 + al) ((i - n) mod 128)) /\
  (exists r, u128_rotr a n = Ok r /\ forall i, 0 <= i < 128 ->
     Z.testbit (u_hi r * 2 ^ 64 + u_lo r) i = Z.testbit (ah * 2 ^ 64 + al) ((i + n) mod 128)).
Proof.
  intros ah al n Hah Hal Hn a.
  assert (Wa : wf128 a) by (split; assumption).
  split; [apply u128_rotl_rotr; assumption|]. split.
  - destruct (u128_rotl_spec a n Wa Hn) as (r & E & W & B). exists r. split; [exact E|exact B].
  - destruct (u128_rotr_spec a n Wa Hn) as (r & E & W & B). exists r. split; [exact E|exact B].
Qed.

Lemma rot_range x n : 0 <= x < two128 -> 0 <= n <= 128 ->
  0 <= Z.lor ((x * 2 ^ n) mod two128) (x / 2 ^ (128 - n)) < two128.
Proof.
  intros Hx Hn. apply (lor_range_pow 128); [lia| |].
  - apply Z.mod_pos_bound. reflexivity.
  - split; [apply Z.div_pos; [lia|apply Z.pow_pos_nonneg; lia]|].
    apply Z.le_lt_trans with x; [|exact (proj2 Hx)].
    apply Z.div_le_upper_bound; [apply Z.pow_pos_nonneg; lia|].
    apply mul_ge1; [|lia]. assert (0 < 2 ^ (128 - n)) by (apply Z.pow_pos_nonneg; lia). lia.
Qed.
Lemma n128_rotl_ok v n : 0 < n < 128 ->
  n128_rotl v n = Ok (Z.lor ((v * 2 ^ n) mod two128) (v / 2 ^ (128 - n))).
Proof.
  intros Hn. unfold n128_rotl, n128_shl, n128_shr, sub64, u64.
  rewrite (Z.mod_small (128 - n)) by (unfold two64; lia).
  replace ((0 <=? n) && (n <? 128)) with true by lia.
  replace ((0 <=? 128 - n) && (128 - n <? 128)) with true by lia. cbn [bind].
  rewrite Z.shiftl_mul_pow2, Z.shiftr_div_pow2 by lia. reflexivity.
Qed.
Lemma n128_rotr_ok v n : 0 < n < 128 ->
  n128_rotr v n = Ok (Z.lor ((v * 2 ^ (128 - n)) mod two128) (v / 2 ^ (128 - (128 - n)))).
Proof.
  intros Hn. unfold n128_rotr, n128_shl, n128_shr, sub64, u64.
  rewrite (Z.mod_small (128 - n)) by (unfold two64; lia).
  replace ((0 <=? n) && (n <? 128)) with true by lia.
  replace ((0 <=? 128 - n) && (128 - n <? 128)) with true by lia. cbn [bind].
  rewrite Z.shiftl_mul_pow2, Z.shiftr_div_pow2 by lia.
  replace (128 - (128 - n)) with n by lia. rewrite Z.lor_comm. reflexivity.
Qed.
Lemma arith_rot_native : forall v n,
  0 <= v < 2 ^ 128 -> 0 < n < 128 ->
  bind (n128_rotl v n) (fun r => n128_rotr r n) = Ok v /\
  (exists r, n128_rotl v n = Ok r /\ 0 <= r < 2 ^ 128 /\ forall i, 0 <= i < 128 ->
     Z.testbit r i = Z.testbit v ((i - n) mod 128)) /\
  (exists r, n128_rotr v n = Ok r /\ 0 <= r < 2 ^ 128 /\ forall i, 0 <= i < 128 ->
     Z.testbit r i = Z.testbit v ((i + n) mod 128)).
Proof.
  intros v n Hv Hn. change (2 ^ 128) with two128 in *.
  assert (L : exists r, n128_rotl v n = Ok r /\ 0 <= r < two128 /\ forall i, 0 <= i < 128 ->
     Z.testbit r i = Z.testbit v ((i - n) mod 128)).
  { eexists. split; [apply n128_rotl_ok; lia|]. split; [apply rot_range; lia|].
    intros i Hi. apply rot_bits; lia. }
  assert (R : forall v, 0 <= v < two128 -> exists r, n128_rotr v n = Ok r /\ 0 <= r < two128 /\
     forall i, 0 <= i < 128 -> Z.testbit r i = Z.testbit v ((i + n) mod 128)).
  { intros u Hu. eexists. split; [apply n128_rotr_ok; lia|]. split; [apply rot_range; lia|].
    intros i Hi. rewrite rot_bits by lia. f_equal.
    rewrite <- (Z_mod_plus_full (i - (128 - n)) 1 128). f_equal. lia. }
  split; [|split; [exact L|exact (R v Hv)]].
  destruct L as (r & -> & Hr & B). cbn [bind]. destruct (R r Hr) as (r2 & -> & Hr2 & B2).
  f_equal. apply bits128_inj; [assumption..|]. intros i Hi. rewrite B2 by lia.
  rewrite B by (apply Z.mod_pos_bound; lia).
  rewrite Zminus_mod_idemp_l. replace (i + n - n) with i by lia. rewrite Z.mod_small by lia. reflexivity.
Qed.
Lemma arith_rot_refuted : forall v n, n = 0 \/ n = 128 ->
  n128_rotl v n = UB /\ n128_rotr v n = UB.
Proof. intros v n [-> | ->]; split; reflexivity. Qed.
