(* The two builds of u128.hpp and field.hpp step for step. *)
From Coq Require Import ZArith Lia Bool List ZifyBool.
From Verif Require Import ModelBase ModelU128 ModelField ModelNative Words U128Proofs FieldProofs.
Open Scope Z_scope.
Ltac Zify.zify_post_hook ::= idtac.

(* x (native) and a (two words) hold the same 128-bit number *)
Definition same (x : Z) (a : u128) : Prop := wf128 a /\ val a = x.

Lemma s_from v : is64 v -> same (n128_from v) (u128_from v).
Proof. intros H. split; [apply wf_from; exact H|reflexivity]. Qed.
Lemma s_zero : same n128_zero u128_zero.
Proof. split; [exact wf_zero|reflexivity]. Qed.
Lemma s_add x y a b : same x a -> same y b -> same (n128_add x y) (u128_add a b).
Proof. intros [A <-] [B <-]. exact (u128_add_spec a b A B). Qed.
Lemma s_mul x y a b : same x a -> same y b -> same (n128_mul x y) (u128_mul a b).
Proof. intros [A <-] [B <-]. exact (u128_mul_spec a b A B). Qed.
Lemma s_neg x a : same x a -> same (n128_neg x) (u128_neg a).
Proof. intros [A <-]. exact (u128_neg_spec a A). Qed.
Lemma s_sub x y a b : same x a -> same y b -> same (n128_sub x y) (u128_sub a b).
Proof. intros A B. unfold n128_sub, u128_sub. apply s_add; [exact A|apply s_neg; exact B]. Qed.
Lemma s_or x y a b : same x a -> same y b -> same (n128_or x y) (u128_or a b).
Proof. intros [A <-] [B <-]. exact (u128_or_spec a b A B). Qed.
Lemma s_and x y a b : same x a -> same y b -> same (n128_and x y) (u128_and a b).
Proof. intros [A <-] [B <-]. exact (u128_and_spec a b A B). Qed.
Lemma s_shl x a n : same x a -> 0 <= n < 128 -> exists y, n128_shl x n = Ok y /\ same y (u128_shl a n).
Proof.
  intros [A <-] H. destruct (u128_shl_spec a n A ltac:(lia)) as [W E]. exists (val (u128_shl a n)).
  split; [|split; [exact W|reflexivity]]. unfold n128_shl. replace ((0 <=? n) && (n <? 128)) with true by lia.
  rewrite Z.shiftl_mul_pow2 by lia. rewrite E. reflexivity.
Qed.
Lemma s_shr x a n : same x a -> 0 <= n < 128 -> exists y, n128_shr x n = Ok y /\ same y (u128_shr a n).
Proof.
  intros [A <-] H. destruct (u128_shr_spec a n A ltac:(lia)) as [W E]. exists (val (u128_shr a n)).
  split; [|split; [exact W|reflexivity]]. unfold n128_shr. replace ((0 <=? n) && (n <? 128)) with true by lia.
  rewrite Z.shiftr_div_pow2 by lia. rewrite E. reflexivity.
Qed.
Lemma s_to bits x a : 0 <= bits <= 64 -> same x a -> n128_to bits x = u128_to bits a.
Proof. intros H [A <-]. symmetry. apply to_spec; assumption. Qed.
Lemma s_gt x y a b : same x a -> same y b -> n128_gt x y = u128_gt a b.
Proof. intros [A <-] [B <-]. symmetry. apply u128_gt_spec; assumption. Qed.
Lemma s_lt x y a b : same x a -> same y b -> n128_lt x y = u128_lt a b.
Proof. intros A B. unfold n128_lt, u128_lt. apply s_gt; assumption. Qed.
Lemma s_eq x y a b : same x a -> same y b -> n128_eq x y = u128_eq a b.
Proof. intros [A <-] [B <-]. symmetry. apply u128_eq_spec; assumption. Qed.
Lemma s_ge x y a b : same x a -> same y b -> n128_ge x y = u128_ge a b.
Proof. intros A B. unfold n128_ge, u128_ge. rewrite (s_gt x y a b A B), (s_eq x y a b A B). reflexivity. Qed.
Lemma s_le x y a b : same x a -> same y b -> n128_le x y = u128_le a b.
Proof. intros A B. unfold n128_le, u128_le. rewrite (s_lt x y a b A B), (s_eq x y a b A B). reflexivity. Qed.

Lemma s_words x a : same x a -> x / two64 = u_hi a /\ x mod two64 = u_lo a.
Proof.
  intros [[H L] <-]. unfold val, is64 in *. split.
  - symmetry. apply Z.div_unique with (u_lo a); [left; exact L|lia].
  - symmetry. apply Z.mod_unique with (u_hi a); [left; exact L|lia].
Qed.
Lemma s_msb x a : same x a -> n128_msb x = Ok (u128_msb a).
Proof.
  intros S. pose proof (s_words x a S) as [H L]. destruct S as [[Wh Wl] _].
  unfold n128_msb, n128_shr.
  change ((0 <=? 64) && (64 <? 128)) with true. change ((0 <=? 0) && (0 <? 128)) with true. cbv iota. cbn [bind].
  rewrite Z.shiftr_0_r, Z.shiftr_div_pow2 by lia. change (2 ^ 64) with two64. rewrite H, L.
  rewrite (Z.mod_small (u_hi a)) by exact Wh. reflexivity.
Qed.

Lemma s_loop n : forall q r d q' r' d', same q q' -> same r r' -> same d d' ->
  exists x y, n128_div_loop n q r d = Ok (x, y) /\
    same x (fst (u128_div_loop n q' r' d')) /\ same y (snd (u128_div_loop n q' r' d')).
Proof.
  induction n as [|n IH]; intros q r d q' r' d' Sq Sr Sd.
  - exists q, r. split; [reflexivity|]. split; assumption.
  - cbn [n128_div_loop u128_div_loop].
    destruct (s_shl q q' 1 Sq ltac:(lia)) as (q1 & -> & Sq1).
    destruct (s_shr d d' 1 Sd ltac:(lia)) as (d1 & E & Sd1). cbn [bind].
    rewrite (s_ge r d r' d' Sr Sd). destruct (u128_ge r' d'); rewrite E; cbn [bind].
    + apply IH; [|apply s_sub; assumption|exact Sd1].
      apply s_or; [exact Sq1|]. apply s_from. unfold is64, two64. lia.
    + apply IH; assumption.
Qed.
Lemma msb_range a : wf128 a -> 0 <= u128_msb a < 128.
Proof.
  intros W. rewrite u128_msb_spec by exact W. split; [apply Z.log2_nonneg|].
  pose proof (val_range a W) as R. destruct (Z.eq_dec (val a) 0) as [->|N]; [reflexivity|].
  apply Z.log2_lt_pow2; [lia|]. rewrite <- two128_pow. apply R.
Qed.
Lemma s_divmod x y a b : same x a -> same y b -> exists q r, n128_divmod x y = Ok (q, r) /\
  same q (fst (u128_divmod a b)) /\ same r (snd (u128_divmod a b)).
Proof.
  intros A B. unfold n128_divmod, u128_divmod. rewrite (s_gt y x b a B A).
  destruct (u128_gt b a) eqn:G.
  { exists n128_zero, x. split; [reflexivity|]. split; [exact s_zero|exact A]. }
  rewrite (s_eq y x b a B A). destruct (u128_eq b a).
  { exists (n128_from 1), n128_zero. split; [reflexivity|]. split; [apply s_from; unfold is64, two64; lia|exact s_zero]. }
  rewrite (s_msb x a A), (s_msb y b B). cbn [bind].
  assert (D : 0 <= sub64 (u128_msb a) (u128_msb b) < 128).
  { destruct A as [Wa _], B as [Wb _]. pose proof (msb_range a Wa) as Ra. pose proof (msb_range b Wb) as Rb.
    assert (L : u128_msb b <= u128_msb a).
    { rewrite !u128_msb_spec by assumption. apply Z.log2_le_mono.
      rewrite u128_gt_spec in G by assumption. lia. }
    unfold sub64, u64. rewrite Z.mod_small by (unfold two64; lia). lia. }
  set (s := sub64 (u128_msb a) (u128_msb b)) in *. clearbody s.
  destruct (s_shl y b s B D) as (d & -> & Sd). cbn [bind].
  exact (s_loop (S (Z.to_nat s)) n128_zero x d u128_zero a (u128_shl b s) s_zero A Sd).
Qed.
Lemma s_div x y a b : same x a -> same y b -> exists q, n128_div x y = Ok q /\ same q (u128_div a b).
Proof.
  intros A B. destruct (s_divmod x y a b A B) as (q & r & E & P & _). exists q. unfold n128_div. rewrite E. split; [reflexivity|exact P].
Qed.
Lemma s_mod x y a b : same x a -> same y b -> exists r, n128_mod x y = Ok r /\ same r (u128_mod a b).
Proof.
  intros A B. destruct (s_divmod x y a b A B) as (q & r & E & _ & P). exists r. unfold n128_mod. rewrite E. split; [reflexivity|exact P].
Qed.

Lemma is64_max : is64 (two64 - 1). Proof. unfold is64, two64. lia. Qed.
Lemma is64_20 : is64 1048575. Proof. unfold is64, two64. lia. Qed.
Lemma is64_R : is64 R. Proof. rewrite R_val. unfold is64, two64. lia. Qed.
Lemma E98 : 2 * Q_BIT_WIDTH = 98. Proof. rewrite QBW_val. reflexivity. Qed.
Lemma R98 : 0 <= 2 * Q_BIT_WIDTH < 128. Proof. rewrite E98. lia. Qed.
Lemma is64_Q : is64 Q. Proof. rewrite Q_val. unfold is64, two64. lia. Qed.
Lemma is64_1 : is64 1. Proof. unfold is64, two64. lia. Qed.
Lemma s_R : R_n = Ok R.
Proof.
  unfold R_n. rewrite QBW_val. change (2 * 49) with 98.
  destruct (s_shl _ _ 98 (s_from 1 is64_1) ltac:(lia)) as (s & -> & Ss). cbn [bind].
  destruct (s_div _ _ _ _ Ss (s_from Q is64_Q)) as (d & -> & Sd). cbn [bind].
  rewrite (s_to 64 d _ ltac:(lia) Sd). Transparent R. unfold R. Opaque R. rewrite QBW_val. reflexivity.
Qed.


Lemma bind_ok {A B} (x : A) (f : A -> res B) : bind (Ok x) f = f x. Proof. reflexivity. Qed.
Transparent barrett_reduce.
Lemma s_barrett x a : same x a -> barrett_reduce_n x = Ok (barrett_reduce a).
Proof.
  intros A. unfold barrett_reduce_n, barrett_reduce. cbv zeta.
  assert (M : same (n128_from (two64 - 1)) (u128_from (two64 - 1))) by (apply s_from; exact is64_max).
  assert (K : same (n128_from 1048575) (u128_from 1048575)) by (apply s_from; exact is64_20).
  assert (Sr : same (n128_from R) (u128_from R)) by (apply s_from; exact is64_R).
  pose proof (s_from Q is64_Q) as Sq. pose proof s_zero as S0.
  destruct (s_shr x a 64 A ltac:(lia)) as (h & -> & Sh). rewrite bind_ok. rewrite s_R. rewrite bind_ok.
  pose proof (s_and _ _ _ _ A M) as Sl.
  pose proof (s_mul _ _ _ _ Sh S0) as Shi.
  pose proof (s_add _ _ _ _ (s_mul _ _ _ _ Sh Sr) (s_mul _ _ _ _ S0 Sl)) as Smid.
  pose proof (s_mul _ _ _ _ Sl Sr) as Slo.
  destruct (s_shr _ _ 64 Smid ltac:(lia)) as (mh & -> & Smh). rewrite bind_ok.
  pose proof (s_and _ _ _ _ Smid M) as Sml.
  destruct (s_shr _ _ 64 Slo ltac:(lia)) as (t0 & -> & St0). rewrite bind_ok.
  pose proof (s_add _ _ _ _ St0 Sml) as St1.
  destruct (s_shr _ _ 64 St1 ltac:(lia)) as (c & -> & Sc). rewrite bind_ok.
  pose proof (s_add _ _ _ _ (s_add _ _ _ _ Shi Smh) Sc) as Srh.
  destruct (s_shl _ _ 64 Sml ltac:(lia)) as (up & -> & Sup). rewrite bind_ok.
  pose proof (s_add _ _ _ _ Slo Sup) as Srl.
  destruct (s_shl _ _ 30 (s_and _ _ _ _ Srh K) ltac:(lia)) as (top & -> & Stop). rewrite bind_ok.
  destruct (s_shr _ _ (2 * Q_BIT_WIDTH) Srl R98) as (bot & -> & Sbot). rewrite bind_ok.
  pose proof (s_sub _ _ _ _ A (s_mul _ _ _ _ (s_or _ _ _ _ Stop Sbot) Sq)) as St3.
  rewrite (s_to 64 _ _ ltac:(lia) St3). reflexivity.
Qed.
Opaque barrett_reduce.

Lemma is64_reduce_once v : is64 (reduce_once v).
Proof. Transparent reduce_once. unfold reduce_once, add64, u64. Opaque reduce_once. apply Z.mod_pos_bound. reflexivity. Qed.
Lemma is64_barrett a : is64 (barrett_reduce a).
Proof. Transparent barrett_reduce. unfold barrett_reduce. Opaque barrett_reduce. apply is64_reduce_once. Qed.

Lemma s_zq_mul a b : is64 a -> is64 b -> zq_mul_n a b = Ok (zq_mul a b).
Proof.
  intros A B. Transparent zq_mul. unfold zq_mul_n, zq_mul. Opaque zq_mul.
  apply s_barrett. apply s_mul; apply s_from; assumption.
Qed.
Lemma is64_zq_mul a b : is64 (zq_mul a b).
Proof. Transparent zq_mul. unfold zq_mul. Opaque zq_mul. apply is64_barrett. Qed.
Lemma s_zq_shl a n : 0 <= n < 64 -> zq_shl_n a n = Ok (zq_shl a n).
Proof.
  intros N. unfold zq_shl_n, zq_shl. apply s_barrett. apply s_from. unfold shl64, u64. apply Z.mod_pos_bound. reflexivity.
Qed.
Lemma s_random v : is64 v -> zq_random_of_word_n v = Ok (zq_random_of_word v).
Proof. intros V. unfold zq_random_of_word_n, zq_random_of_word. apply s_barrett. apply s_from. exact V. Qed.
Lemma is64_inv v i f : zq_inv v = Ok (i, f) -> is64 i.
Proof.
  unfold zq_inv. destruct (v =? 0). { intros [= <- _]. unfold is64, two64. lia. }
  destruct (xgcd v Q) as [[[a b] g]| |]; cbn [bind]; try discriminate.
  destruct (negb (g =? 1)). { intros [= <- _]. unfold is64, two64. lia. }
  cbv zeta. intros [= <- _]. unfold u64_of_s64, is64. unfold two64. apply Z.mod_pos_bound. lia.
Qed.
Lemma s_zq_div a b : is64 a -> zq_div_n a b = zq_div a b.
Proof.
  intros A. unfold zq_div_n, zq_div. destruct (zq_inv b) as [[i f]| |] eqn:E; cbn [bind]; [|reflexivity|reflexivity].
  rewrite (s_zq_mul a i A (is64_inv b i f E)). reflexivity.
Qed.
Opaque zq_mul_n zq_mul barrett_reduce_n R_n bind shr64.
Lemma pow_step_n n c i base r : zq_pow_loop_n n (S c) i base r =
  bind (zq_mul_n base base) (fun base' =>
    bind (zq_mul_n r (if Z.land (shr64 n i) 1 =? 0 then 1 else base')) (fun r' => zq_pow_loop_n n c (i + 1) base' r')).
Proof. reflexivity. Qed.
Lemma s_pow_loop n c : forall i base r, is64 base -> is64 r -> zq_pow_loop_n n c i base r = Ok (zq_pow_loop n c i base r).
Proof.
  induction c as [|c IH]; intros i base r B P; [reflexivity|]. rewrite pow_step_n, zq_pow_loop_S.
  rewrite (s_zq_mul base base B B), bind_ok.
  assert (I : is64 (if Z.land (shr64 n i) 1 =? 0 then 1 else zq_mul base base)).
  { destruct (_ =? 0); [exact is64_1|apply is64_zq_mul]. }
  rewrite (s_zq_mul r _ P I), bind_ok. apply IH; apply is64_zq_mul.
Qed.
Lemma s_zq_pow a n : is64 a -> zq_pow_n a n = Ok (zq_pow a n).
Proof.
  intros A. unfold zq_pow_n, zq_pow. cbv zeta. apply s_pow_loop; [exact A|]. destruct (_ =? 0); [exact is64_1|exact A].
Qed.
Lemma s_mul_full a b : is64 a -> is64 b -> mul_full_u64_n a b = Ok (mul_full_u64 a b).
Proof.
  intros A B. pose proof (mul_full_u64_spec a b A B) as M. destruct (mul_full_u64 a b) as [h l]. destruct M as (H & L & E).
  unfold mul_full_u64_n, n128_mul. assert (S : same ((a * b) mod two128) (U128 h l)).
  { split; [split; assumption|]. unfold val. cbn [u_hi u_lo].
    assert (0 <= h * two64 + l < two128). { apply (val_range (U128 h l)). split; assumption. }
    rewrite E. symmetry. apply Z.mod_small. rewrite <- E. assumption. }
  destruct (s_words _ _ S) as [Eh El]. cbn [u_hi u_lo] in Eh, El.
  unfold n128_shr. change ((0 <=? 64) && (64 <? 128)) with true. cbv iota. cbn [bind].
  rewrite Z.shiftr_div_pow2 by lia. change (2 ^ 64) with two64. rewrite Eh, El. rewrite (Z.mod_small h) by exact H. reflexivity.
Qed.
