(* Coefficient-wise operations of poly.hpp. *)
From Coq Require Import ZArith Lia Bool List Arith.
From Coq Require Import ZifyBool ZifyNat.
From Verif Require Import ModelBase ModelU128 ModelField ModelUtils ModelPoly.
From Verif Require Import Words U128Proofs FieldProofs ArithLemmas BytesProofs.
From Verif Require Import Spec.
Import ListNotations.
Open Scope Z_scope.
Ltac Zify.zify_post_hook ::= idtac.

(* ---------- generic list facts ---------- *)
Lemma map2_length {A B C} (f : A -> B -> C) a b : length (map2 f a b) = Nat.min (length a) (length b).
Proof. revert b. induction a as [|x a IH]; intros [|y b]; cbn [map2 length]; try reflexivity. rewrite IH. lia. Qed.
Lemma map2_nth {A B C} (f : A -> B -> C) a b i da db dc :
  (i < length a)%nat -> (i < length b)%nat -> nth i (map2 f a b) dc = f (nth i a da) (nth i b db).
Proof.
  revert b i. induction a as [|x a IH]; intros [|y b] i Ha Hb; cbn [length] in *; try lia.
  destruct i as [|i]; cbn [map2 nth]; [reflexivity|]. apply IH; lia.
Qed.
Lemma map2_map_combine {A B C} (f : A -> B -> C) a b : map2 f a b = map (fun '(x, y) => f x y) (combine a b).
Proof. revert b. induction a as [|x a IH]; intros [|y b]; cbn [map2 combine map]; try reflexivity. now rewrite IH. Qed.
Lemma map2_ext {A B C} (f g : A -> B -> C) (P : A -> Prop) (R : B -> Prop) a b :
  (forall x y, P x -> R y -> f x y = g x y) -> Forall P a -> Forall R b -> map2 f a b = map2 g a b.
Proof.
  intros H Ha. revert b. induction Ha as [|x a Hx Ha IH]; intros b Hb; [reflexivity|].
  destruct Hb as [|y b Hy Hb]; [reflexivity|]. cbn [map2]. rewrite H, IH by assumption. reflexivity.
Qed.
Lemma map2_Forall {A B C} (f : A -> B -> C) (P : A -> Prop) (R : B -> Prop) (S : C -> Prop) a b :
  (forall x y, P x -> R y -> S (f x y)) -> Forall P a -> Forall R b -> Forall S (map2 f a b).
Proof.
  intros H Ha. revert b. induction Ha as [|x a Hx Ha IH]; intros b Hb; [constructor|].
  destruct Hb as [|y b Hy Hb]; [constructor|]. cbn [map2]. constructor; auto.
Qed.
Lemma nth_map_seq {A} (f : nat -> A) n i d : (i < n)%nat -> nth i (map f (seq 0 n)) d = f i.
Proof.
  intros H. rewrite (nth_indep _ _ (f 0%nat)) by (rewrite map_length, seq_length; lia).
  rewrite map_nth, seq_nth by lia. reflexivity.
Qed.
Lemma map_seq_nth {A} (l : list A) n d : length l = n -> map (fun i => nth i l d) (seq 0 n) = l.
Proof.
  intros <-. induction l as [|x l IH]; [reflexivity|]. cbn [length seq map nth]. f_equal.
  rewrite <- seq_shift, map_map. exact IH.
Qed.
Lemma map2_seq {A B C} (f : A -> B -> C) a b n da db : length a = n -> length b = n ->
  map2 f a b = map (fun i => f (nth i a da) (nth i b db)) (seq 0 n).
Proof.
  intros Ha Hb. apply (nth_ext _ _ (f da db) (f da db)).
  - rewrite map2_length, map_length, seq_length. lia.
  - intros i Hi. rewrite map2_length in Hi. rewrite nth_map_seq by lia. apply map2_nth; lia.
Qed.
Lemma map_seq_map {A B} (f : A -> B) a n da : length a = n ->
  map f a = map (fun i => f (nth i a da)) (seq 0 n).
Proof. intros H. rewrite <- (map_seq_nth a n da H) at 1. rewrite map_map. reflexivity. Qed.

(* ---------- polynomials ---------- *)
Lemma is_poly_length p : is_poly p -> length p = 512%nat.
Proof. intros [H _]. exact H. Qed.
Lemma is_poly_coef p k : is_poly p -> canon (coef p k).
Proof.
  intros [_ H]. apply reduced_canon. unfold coef. apply Forall_nth_d; [exact H|].
  apply reduced_canon. apply canon_0.
Qed.
Lemma reduced_mod x : reduced (x mod q).
Proof. apply reduced_canon. rewrite q_Q. apply canon_mod. Qed.
Lemma is_poly_map f : is_poly (map (fun k => f k mod q) (seq 0 512)).
Proof.
  split; [rewrite map_length, seq_length; reflexivity|].
  rewrite Forall_forall. intros x Hx. apply in_map_iff in Hx. destruct Hx as (k & <- & _).
  apply reduced_mod.
Qed.
Lemma ring_mul_poly a b : is_poly (ring_mul a b).
Proof. apply is_poly_map. Qed.
Lemma ring_add_poly a b : is_poly (ring_add a b).
Proof. apply is_poly_map. Qed.
Lemma ring_sub_poly a b : is_poly (ring_sub a b).
Proof. apply is_poly_map. Qed.
Lemma ring_scale_poly a b : is_poly (ring_scale a b).
Proof. apply is_poly_map. Qed.
Lemma ring_zero_poly : is_poly ring_zero.
Proof.
  split; [apply repeat_length|]. apply Forall_forall. intros x Hx. apply repeat_spec in Hx. subst.
  apply reduced_canon. apply canon_0.
Qed.
Lemma poly_ext a b : length a = 512%nat -> length b = 512%nat ->
  (forall k, (k < 512)%nat -> coef a k = coef b k) -> a = b.
Proof. intros Ha Hb H. apply (nth_ext _ _ 0 0); [lia|]. intros k Hk. apply H. lia. Qed.
Lemma coef_map f k : (k < 512)%nat -> coef (map f (seq 0 512)) k = f k.
Proof. apply nth_map_seq. Qed.
Lemma coef_ring_zero k : coef ring_zero k = 0.
Proof. unfold coef, ring_zero. apply nth_repeat. Qed.
Lemma mod_q_reduced x : reduced x -> x mod q = x.
Proof. intros H. apply Z.mod_small. exact H. Qed.
Lemma is_poly_coef' p k : is_poly p -> reduced (coef p k).
Proof. intros H. apply reduced_canon. apply is_poly_coef. exact H. Qed.

Lemma poly_add_ring a b : is_poly a -> is_poly b -> poly_add a b = ring_add a b.
Proof.
  intros Ha Hb. unfold poly_add, ring_add.
  rewrite (map2_seq _ a b 512 0 0) by (apply is_poly_length; assumption).
  apply map_ext. intros k. rewrite q_Q. apply zq_add_spec; apply is_poly_coef; assumption.
Qed.
Lemma poly_sub_ring a b : is_poly a -> is_poly b -> poly_sub a b = ring_sub a b.
Proof.
  intros Ha Hb. unfold poly_sub, ring_sub.
  rewrite (map2_seq _ a b 512 0 0) by (apply is_poly_length; assumption).
  apply map_ext. intros k. rewrite q_Q. apply zq_sub_spec; apply is_poly_coef; assumption.
Qed.
(* pointwise product *)
Definition pw_mul (a b : list Z) : list Z := map (fun k => (coef a k * coef b k) mod q) (seq 0 512).
Lemma poly_mul_pw a b : is_poly a -> is_poly b -> poly_mul a b = pw_mul a b.
Proof.
  intros Ha Hb. unfold poly_mul, pw_mul.
  rewrite (map2_seq _ a b 512 0 0) by (apply is_poly_length; assumption).
  apply map_ext. intros k. rewrite q_Q. apply zq_mul_spec; apply is_poly_coef; assumption.
Qed.
Lemma pw_mul_poly a b : is_poly (pw_mul a b).
Proof. apply is_poly_map. Qed.
Lemma poly_zero_eq : poly_zero = ring_zero.
Proof. reflexivity. Qed.

(* ---------- reduction modulo a small modulus ---------- *)
Lemma reduce_once_mod_ok m x : 0 < m <= two63 -> 0 <= x < 2 * m -> x < two64 ->
  reduce_once_mod m x = x mod m.
Proof. apply mask_reduce. Qed.
Lemma add_mod_coeff m x y : 0 < m <= 2 ^ 62 -> 0 <= x < m -> 0 <= y < m ->
  reduce_once_mod m (add64 x y) = (x + y) mod m.
Proof.
  change (2 ^ 62) with 4611686018427387904. intros Hm Hx Hy.
  unfold add64. rewrite u64_small by (unfold is64, two64; lia).
  apply reduce_once_mod_ok; unfold two63, two64; lia.
Qed.
Lemma sub_mod_coeff m x y : 0 < m <= 2 ^ 62 -> 0 <= x < m -> 0 <= y < m ->
  reduce_once_mod m (add64 x (sub64 m y)) = (x - y) mod m.
Proof.
  change (2 ^ 62) with 4611686018427387904. intros Hm Hx Hy.
  unfold add64, sub64. rewrite (u64_small (m - y)) by (unfold is64, two64; lia).
  rewrite u64_small by (unfold is64, two64; lia).
  rewrite reduce_once_mod_ok by (unfold two63, two64; lia).
  rewrite <- (Z_mod_plus_full (x - y) 1 m). f_equal. lia.
Qed.

(* ---------- rounding ---------- *)
Lemma rounding_coeff nu x : 1 <= nu <= 47 -> canon x ->
  reduce_once_mod (shr64 Q nu) (shr64 (add64 x (shl64 1 (nu - 1))) nu) = round_shift nu x.
Proof.
  intros Hnu Hx. unfold round_shift, add64. rewrite q_Q.
  rewrite !shr64_spec by lia. rewrite shl64_spec by lia. rewrite Z.mul_1_l.
  unfold canon in Hx.
  assert (P : 0 < 2 ^ (nu - 1)) by (apply Z.pow_pos_nonneg; lia).
  assert (P2 : 2 ^ nu = 2 * 2 ^ (nu - 1)) by (rewrite <- Z.pow_succ_r by lia; f_equal; lia).
  assert (PB : 2 ^ (nu - 1) <= 2 ^ 46) by (apply Z.pow_le_mono_r; lia).
  change (2 ^ 46) with 70368744177664 in PB.
  rewrite (Z.mod_small (2 ^ (nu - 1))) by (unfold two64; lia).
  rewrite u64_small by (unfold is64, two64; rewrite Q_val in *; lia).
  rewrite P2. set (p := 2 ^ (nu - 1)) in *. clearbody p.
  assert (M : 2 <= Q / (2 * p)).
  { apply Z.div_le_lower_bound; [lia|]. rewrite Q_val. lia. }
  assert (D : Q = 2 * p * (Q / (2 * p)) + Q mod (2 * p)) by (apply Z.div_mod; lia).
  assert (D2 : 0 <= Q mod (2 * p) < 2 * p) by (apply Z.mod_pos_bound; lia).
  set (m := Q / (2 * p)) in *. set (rr := Q mod (2 * p)) in *. clearbody m rr.
  assert (X : 0 <= (x + p) / (2 * p) < 2 * m).
  { split; [apply Z.div_pos; lia|]. apply Z.div_lt_upper_bound; [lia|].
    replace (2 * p * (2 * m)) with (2 * p * m + 2 * p * m) by ring.
    assert (2 * p * 2 <= 2 * p * m) by (apply Z.mul_le_mono_nonneg_l; lia). lia. }
  assert (m <= Q). { apply Z.le_trans with (2 * p * m); [|lia]. rewrite <- (Z.mul_1_l m) at 1. apply Z.mul_le_mono_nonneg_r; lia. }
  apply reduce_once_mod_ok; unfold two63, two64; rewrite ?Q_val in *; lia.
Qed.
Definition poly_round (nu : Z) (a : list Z) : list Z := map (fun k => round_shift nu (coef a k)) (seq 0 512).
Lemma poly_rounding_shr_spec nu a : 1 <= nu <= 47 -> is_poly a ->
  poly_rounding_shr nu a = map (round_shift nu) a.
Proof.
  intros Hnu [_ Ha]. unfold poly_rounding_shr. apply map_ext_in. intros x Hx.
  apply rounding_coeff; [exact Hnu|]. apply reduced_canon.
  rewrite Forall_forall in Ha. apply Ha. exact Hx.
Qed.
Lemma round_shift_range nu x : 1 <= nu <= 47 -> 0 <= round_shift nu x < q / 2 ^ nu.
Proof.
  intros Hnu. apply Z.mod_pos_bound.
  assert (P : 0 < 2 ^ nu) by (apply Z.pow_pos_nonneg; lia).
  assert (PB : 2 ^ nu <= 2 ^ 48) by (apply Z.pow_le_mono_r; lia).
  apply Z.div_str_pos. split; [exact P|]. apply Z.le_trans with (1 := PB). discriminate.
Qed.

(* ---------- centering ---------- *)
Lemma s64_small x : 0 <= x < two63 -> s64_of_u64 x = x.
Proof. intros H. unfold s64_of_u64. destruct (x <? two63) eqn:E; lia. Qed.
Lemma center_coeff_spec m x : 0 < m <= 2 ^ 62 -> 0 <= x < m -> center_coeff m x = centered m x.
Proof.
  change (2 ^ 62) with 4611686018427387904. intros Hm Hx. unfold center_coeff, centered.
  rewrite (Z.mod_small x m) by lia.
  assert (D : m = 2 * (m / 2) + m mod 2) by (apply Z.div_mod; lia).
  assert (D2 : 0 <= m mod 2 < 2) by (apply Z.mod_pos_bound; lia).
  assert (H : (m - 1) / 2 = m - 1 - m / 2).
  { symmetry. apply Z.div_unique with (m - 1 - 2 * (m - 1 - m / 2)); lia. }
  rewrite H.
  assert (A : add64 x (m / 2) = x + m / 2) by (unfold add64; apply u64_small; unfold is64, two64; lia).
  rewrite A. rewrite (Z.land_comm _ m). rewrite mask_reduce by (unfold two63, two64; lia).
  rewrite (s64_small (m / 2)) by (unfold two63; lia).
  destruct (x <=? m - 1 - m / 2) eqn:E.
  - rewrite (Z.mod_small (x + m / 2)) by lia. rewrite s64_small by (unfold two63; lia). lia.
  - replace ((x + m / 2) mod m) with (x + m / 2 - m)
      by (apply Z.mod_unique with 1; lia).
    rewrite s64_small by (unfold two63; lia). lia.
Qed.
Lemma centered_range m x : 0 < m -> - (m / 2) <= centered m x <= (m - 1) / 2.
Proof.
  intros Hm. unfold centered. pose proof (Z.mod_pos_bound x m Hm).
  assert (D : m = 2 * (m / 2) + m mod 2) by (apply Z.div_mod; lia).
  assert (D2 : 0 <= m mod 2 < 2) by (apply Z.mod_pos_bound; lia).
  assert (H' : (m - 1) / 2 = m - 1 - m / 2).
  { symmetry. apply Z.div_unique with (m - 1 - 2 * (m - 1 - m / 2)); lia. }
  rewrite H'. destruct (_ <=? _) eqn:E; lia.
Qed.
Lemma centered_mod m x : 0 < m -> centered m x mod m = x mod m.
Proof.
  intros Hm. unfold centered. destruct (_ <=? _).
  - apply Zmod_mod.
  - rewrite Zminus_mod, Z_mod_same_full, Z.sub_0_r, !Zmod_mod. reflexivity.
Qed.
Lemma centered_unique m x y : 0 < m -> - (m / 2) <= y <= (m - 1) / 2 -> y mod m = x mod m ->
  centered m x = y.
Proof.
  intros Hm Hy E. unfold centered. rewrite <- E.
  assert (D : m = 2 * (m / 2) + m mod 2) by (apply Z.div_mod; lia).
  assert (D2 : 0 <= m mod 2 < 2) by (apply Z.mod_pos_bound; lia).
  assert (H' : (m - 1) / 2 = m - 1 - m / 2).
  { symmetry. apply Z.div_unique with (m - 1 - 2 * (m - 1 - m / 2)); lia. }
  rewrite H' in *. destruct (Z.lt_ge_cases y 0).
  - replace (y mod m) with (y + m) by (apply Z.mod_unique with (-1); lia).
    destruct (_ <=? _) eqn:E2; lia.
  - rewrite (Z.mod_small y) by lia. destruct (_ <=? _) eqn:E2; lia.
Qed.
Lemma from_centered_coeff_spec m x : 0 < m <= 2 ^ 62 -> - m <= x < m ->
  from_centered_coeff m x = x mod m.
Proof.
  change (2 ^ 62) with 4611686018427387904. intros Hm Hx. unfold from_centered_coeff.
  rewrite Z.shiftr_div_pow2 by lia. change (2 ^ 63) with two63. unfold u64_of_s64.
  destruct (Z.lt_ge_cases x 0) as [H|H].
  - replace (x / two63) with (-1)
      by (apply Z.div_unique with (x + two63); unfold two63; lia).
    replace (u64 (-1)) with (Z.ones 64) by reflexivity.
    rewrite Z.land_comm, Z.land_ones by lia. change (2 ^ 64) with two64.
    rewrite (Z.mod_small m) by (unfold two64; lia).
    rewrite s64_small by (unfold two63; lia).
    rewrite u64_small by (unfold is64, two64; lia).
    apply Z.mod_unique with (-1); lia.
  - replace (x / two63) with 0 by (symmetry; apply Z.div_small; unfold two63; lia).
    replace (u64 0) with 0 by reflexivity. rewrite Z.land_0_l.
    rewrite s64_small by (unfold two63; lia). rewrite u64_small by (unfold is64, two64; lia).
    rewrite Z.mod_small by lia. lia.
Qed.
Lemma from_center m x : 0 < m <= 2 ^ 62 -> 0 <= x < m -> from_centered_coeff m (center_coeff m x) = x.
Proof.
  intros Hm Hx. rewrite center_coeff_spec by lia.
  pose proof (centered_range m x ltac:(lia)) as R.
  assert (D : m = 2 * (m / 2) + m mod 2) by (apply Z.div_mod; lia).
  assert (D2 : 0 <= m mod 2 < 2) by (apply Z.mod_pos_bound; lia).
  assert (H' : (m - 1) / 2 = m - 1 - m / 2).
  { symmetry. apply Z.div_unique with (m - 1 - 2 * (m - 1 - m / 2)); lia. }
  rewrite from_centered_coeff_spec by lia.
  rewrite centered_mod by lia. apply Z.mod_small. lia.
Qed.
Lemma center_from m y : 0 < m <= 2 ^ 62 -> - (m / 2) <= y <= (m - 1) / 2 ->
  0 <= from_centered_coeff m y < m /\ center_coeff m (from_centered_coeff m y) = y.
Proof.
  intros Hm R.
  assert (D : m = 2 * (m / 2) + m mod 2) by (apply Z.div_mod; lia).
  assert (D2 : 0 <= m mod 2 < 2) by (apply Z.mod_pos_bound; lia).
  assert (H' : (m - 1) / 2 = m - 1 - m / 2).
  { symmetry. apply Z.div_unique with (m - 1 - 2 * (m - 1 - m / 2)); lia. }
  rewrite from_centered_coeff_spec by lia.
  pose proof (Z.mod_pos_bound y m ltac:(lia)) as B. split; [exact B|].
  rewrite center_coeff_spec by lia. apply centered_unique; [lia|exact R|].
  rewrite Zmod_mod. reflexivity.
Qed.

(* ---------- left shift ---------- *)
Lemma shl_coeff x n : 0 <= n < 64 -> 0 <= x * 2 ^ n < 2 ^ 64 -> zq_shl x n = (2 ^ n * x) mod q.
Proof.
  intros Hn Hx. rewrite zq_shl_spec by lia. rewrite (Z.mod_small _ two64) by exact Hx.
  rewrite q_Q. f_equal. ring.
Qed.
Lemma poly_shl_ring n a : 0 <= n < 57 -> length a = 512%nat -> Forall (fun x => 0 <= x < 128) a ->
  poly_shl n a = ring_scale (2 ^ n) a.
Proof.
  intros Hn L Ha. unfold poly_shl, ring_scale. rewrite (map_seq_map _ a 512 0 L).
  apply map_ext. intros k. apply shl_coeff; [lia|].
  pose proof (Forall_nth_d (fun x => 0 <= x < 128) a 0 k Ha ltac:(cbv beta; lia)) as H. cbv beta in H.
  assert (P : 0 < 2 ^ n) by (apply Z.pow_pos_nonneg; lia).
  assert (PB : 2 ^ n <= 2 ^ 56) by (apply Z.pow_le_mono_r; lia).
  change (2 ^ 56) with 72057594037927936 in PB. change (2 ^ 64) with 18446744073709551616.
  unfold coef. set (p := 2 ^ n) in *. clearbody p. set (c := nth k a 0) in *. clearbody c.
  split; [apply Z.mul_nonneg_nonneg; lia|].
  apply Z.le_lt_trans with (127 * 72057594037927936); [apply Z.mul_le_mono_nonneg; lia|lia].
Qed.

(* ---------- equality ---------- *)
Lemma fold_and_false {A} (f : A -> bool) l : fold_left (fun r i => r && f i) l false = false.
Proof. induction l as [|x l IH]; [reflexivity|exact IH]. Qed.
Lemma fold_and {A} (f : A -> bool) l : fold_left (fun r i => r && f i) l true = forallb f l.
Proof.
  induction l as [|x l IH]; [reflexivity|]. cbn [fold_left forallb andb].
  destruct (f x); [exact IH|apply fold_and_false].
Qed.
Lemma forallb_seq_nth {A} (e : A -> A -> bool) (P : A -> Prop) da a b n :
  (forall x y, P x -> P y -> (e x y = true <-> x = y)) -> P da -> Forall P a -> Forall P b ->
  length a = n -> length b = n ->
  (forallb (fun i => e (nth i a da) (nth i b da)) (seq 0 n) = true <-> a = b).
Proof.
  intros He Hd Fa Fb Ha Hb. rewrite forallb_forall. split.
  - intros H. apply (nth_ext _ _ da da); [lia|]. intros i Hi.
    apply He; [apply Forall_nth_d; assumption..|]. apply H. apply in_seq. lia.
  - intros -> i Hi. apply He; [apply Forall_nth_d; assumption..|reflexivity].
Qed.
Lemma poly_eqb_spec a b : length a = 512%nat -> length b = 512%nat -> (poly_eqb a b = true <-> a = b).
Proof.
  intros Ha Hb. unfold poly_eqb. rewrite fold_and.
  apply (forallb_seq_nth Z.eqb (fun _ => True)); try assumption; try exact I;
    try (apply Forall_forall; trivial).
  intros x y _ _. lia.
Qed.
