(* Laws of the field and polynomial operators. *)
From Coq Require Import ZArith Lia Bool List Arith Znumtheory Zpow_facts.
From Verif Require Import ModelBase ModelU128 ModelField ModelUtils ModelPoly.
From Verif Require Import Spec.
From Verif Require Import Words FieldProofs ArithLemmas PolyProofs Cong NttEval NttProofs LinProofs PolyLemmas MaskedProofs.
Import ListNotations.
Open Scope Z_scope.
Ltac Zify.zify_post_hook ::= idtac.

Lemma q_pos : 0 < q.
Proof. reflexivity. Qed.
Lemma red_mod x : reduced (x mod q).
Proof. apply Z.mod_pos_bound, q_pos. Qed.
Lemma add_val a b : reduced a -> reduced b -> zq_add a b = (a + b) mod q.
Proof. intros A B. apply (proj1 arith_field a b A B). Qed.
Lemma sub_val a b : reduced a -> reduced b -> zq_sub a b = (a - b) mod q.
Proof. intros A B. apply (proj1 arith_field a b A B). Qed.
Lemma mul_val a b : reduced a -> reduced b -> zq_mul a b = (a * b) mod q.
Proof. intros A B. apply (proj1 arith_field a b A B). Qed.
Lemma pow_val a n : reduced a -> 0 <= n < 2 ^ 64 -> zq_pow a n = a ^ n mod q.
Proof. apply (proj1 (proj2 arith_field)). Qed.

Lemma add_red a b : reduced a -> reduced b -> reduced (zq_add a b).
Proof. intros A B. rewrite add_val by assumption. apply red_mod. Qed.
Lemma sub_red a b : reduced a -> reduced b -> reduced (zq_sub a b).
Proof. intros A B. rewrite sub_val by assumption. apply red_mod. Qed.
Lemma mul_red a b : reduced a -> reduced b -> reduced (zq_mul a b).
Proof. intros A B. rewrite mul_val by assumption. apply red_mod. Qed.
Ltac reds := repeat first [assumption|apply red_mod|apply add_red|apply sub_red|apply mul_red].
Ltac to_mod := repeat first [rewrite add_val by reds|rewrite sub_val by reds|rewrite mul_val by reds].
Ltac mod_ring := rewrite ?Zplus_mod_idemp_l, ?Zplus_mod_idemp_r, ?Zminus_mod_idemp_l, ?Zminus_mod_idemp_r, ?Zmult_mod_idemp_l, ?Zmult_mod_idemp_r; apply (f_equal (fun x => x mod q)); ring.
Section Field.
Variables a b c : Z.
Hypotheses (A : reduced a) (B : reduced b) (C : reduced c).
Lemma f_closed : reduced (zq_add a b) /\ reduced (zq_sub a b) /\ reduced (zq_mul a b).
Proof. split; [|split]; reds. Qed.
Lemma f_add_comm : zq_add a b = zq_add b a. Proof. to_mod. mod_ring. Qed.
Lemma f_add_assoc : zq_add (zq_add a b) c = zq_add a (zq_add b c). Proof. to_mod. mod_ring. Qed.
Lemma f_add_0 : zq_add a 0 = a.
Proof. rewrite add_val by (first [assumption|split; [discriminate|reflexivity]]). rewrite Z.add_0_r. apply Z.mod_small, A. Qed.
Lemma f_sub_add : zq_add (zq_sub a b) b = a.
Proof. to_mod. rewrite Zplus_mod_idemp_l. replace (a - b + b) with a by ring. apply Z.mod_small, A. Qed.
Lemma f_add_sub : zq_sub (zq_add a b) b = a.
Proof. to_mod. rewrite Zminus_mod_idemp_l. replace (a + b - b) with a by ring. apply Z.mod_small, A. Qed.
Lemma f_mul_comm : zq_mul a b = zq_mul b a. Proof. to_mod. mod_ring. Qed.
Lemma f_mul_assoc : zq_mul (zq_mul a b) c = zq_mul a (zq_mul b c). Proof. to_mod. mod_ring. Qed.
Lemma f_mul_1 : zq_mul a 1 = a.
Proof. rewrite mul_val by (first [assumption|split; [discriminate|reflexivity]]). rewrite Z.mul_1_r. apply Z.mod_small, A. Qed.
Lemma f_mul_0 : zq_mul a 0 = 0.
Proof. rewrite mul_val by (first [assumption|split; [discriminate|reflexivity]]). rewrite Z.mul_0_r. reflexivity. Qed.
Lemma f_distr : zq_mul a (zq_add b c) = zq_add (zq_mul a b) (zq_mul a c). Proof. to_mod. mod_ring. Qed.
Lemma f_distr_sub : zq_mul a (zq_sub b c) = zq_sub (zq_mul a b) (zq_mul a c). Proof. to_mod. mod_ring. Qed.
End Field.
Lemma f_pow_add a m n : reduced a -> 0 <= m -> 0 <= n -> m + n < 2 ^ 64 -> zq_pow a (m + n) = zq_mul (zq_pow a m) (zq_pow a n).
Proof.
  intros A M N H. rewrite !pow_val by (try assumption; lia). rewrite mul_val by apply red_mod. rewrite Zmult_mod_idemp_l, Zmult_mod_idemp_r, <- Z.pow_add_r by assumption. reflexivity.
Qed.
Lemma f_pow_mul a b n : reduced a -> reduced b -> 0 <= n < 2 ^ 64 -> zq_pow (zq_mul a b) n = zq_mul (zq_pow a n) (zq_pow b n).
Proof.
  intros A B H. rewrite mul_val by assumption. rewrite !pow_val by (try assumption; apply red_mod). rewrite mul_val by apply red_mod.
  rewrite Zmult_mod_idemp_l, Zmult_mod_idemp_r, <- Z.pow_mul_l. symmetry. apply Zpower_mod. exact q_pos.
Qed.
Lemma f_cancel a b v : reduced a -> reduced b -> Z.gcd v q = 1 -> (a * v) mod q = (b * v) mod q -> a = b.
Proof.
  intros A B G E. assert (D : (q | (a - b) * v)).
  { apply Z.mod_divide; [discriminate|]. rewrite Z.mul_sub_distr_r, Zminus_mod, E, Z.sub_diag. reflexivity. }
  rewrite Z.mul_comm in D. apply Gauss in D; [|apply Zgcd_1_rel_prime; rewrite Z.gcd_comm; exact G].
  destruct D as [k D]. unfold reduced in *. assert (k = 0) by nia. subst k. lia.
Qed.
Lemma f_div_mul a b : reduced a -> reduced b -> Z.gcd b q = 1 -> zq_div (zq_mul a b) b = Ok (a, true).
Proof.
  intros A B G. destruct (proj2 arith_inverse (zq_mul a b) b) as [H _]; [rewrite mul_val by assumption; apply red_mod|exact B|].
  destruct (H G) as (r & E & R & M). rewrite E. f_equal. f_equal. rewrite mul_val in M by assumption. exact (f_cancel r a b R A G M).
Qed.
Lemma f_mul_div a b r ok : reduced a -> reduced b -> zq_div a b = Ok (r, ok) -> ok = true -> zq_mul r b = a.
Proof.
  intros A B E ->. destruct (proj2 arith_inverse a b A B) as [H1 H2]. destruct (Z.eq_dec (Z.gcd b q) 1) as [G|G].
  - destruct (H1 G) as (r' & E' & R & M). rewrite E in E'. injection E' as ->. rewrite mul_val by assumption. exact M.
  - rewrite (H2 G) in E. discriminate E.
Qed.

(* ---------- polynomials ---------- *)
Definition one : list Z := 1 :: repeat 0 511.
Lemma one_poly : is_poly one.
Proof.
  split; [cbn [one length]; rewrite repeat_length; reflexivity|]. constructor; [split; [discriminate|reflexivity]|].
  apply Forall_forall. intros x Hx. apply repeat_spec in Hx. subst x. split; [discriminate|reflexivity].
Qed.
Lemma coef_one i : coef one i = if (i =? 0)%nat then 1 else 0.
Proof.
  destruct i as [|i]; [reflexivity|]. unfold coef, one. cbn [nth Nat.eqb]. revert i. generalize 511%nat as n. clear. induction n as [|n IH]; intros [|i]; cbn [repeat nth]; try reflexivity. apply IH.
Qed.
Lemma Zsum_first n f : (forall i, (i < n)%nat -> f (S i) = 0) -> Zsum (S n) f = f 0%nat.
Proof. induction n as [|n IH]; intros H; [cbn [Zsum]; ring|]. change (Zsum (S (S n)) f) with (Zsum (S n) f + f (S n)). rewrite IH by (intros; apply H; lia). rewrite (H n) by lia. ring. Qed.
Lemma eval_one x : eval one x = 1.
Proof.
  unfold eval. etransitivity; [apply (Zsum_first 511)|].
  - intros i _. rewrite coef_one. cbn [Nat.eqb]. ring.
  - rewrite coef_one. cbn [Nat.eqb Z.of_nat]. rewrite Z.pow_0_r. reflexivity.
Qed.
Lemma p_closed a b : is_poly a -> is_poly b -> is_poly (poly_add a b) /\ is_poly (poly_sub a b) /\ is_poly (intt (poly_mul (ntt a) (ntt b))).
Proof.
  intros A B. rewrite poly_add_ring, poly_sub_ring by assumption. rewrite (proj1 transform_products) by assumption.
  split; [apply ring_add_poly|]. split; [apply ring_sub_poly|apply ring_mul_poly].
Qed.
Lemma map2_ext (f : Z -> Z -> Z) (g : Z -> Z -> Z) : (forall x y, reduced x -> reduced y -> f x y = g x y) -> forall a b, Forall reduced a -> Forall reduced b -> map2 f a b = map2 g a b.
Proof.
  intros H. induction a as [|x a IH]; intros [|y b] A B; cbn [map2]; try reflexivity. inversion A; subst. inversion B; subst. rewrite H by assumption. rewrite IH by assumption. reflexivity.
Qed.
Lemma map2_flip (f : Z -> Z -> Z) : forall a b, map2 f a b = map2 (fun x y => f y x) b a.
Proof. induction a as [|x a IH]; intros [|y b]; cbn [map2]; try reflexivity. rewrite IH. reflexivity. Qed.
Lemma map2_assoc (f : Z -> Z -> Z) : (forall x y z, reduced x -> reduced y -> reduced z -> f (f x y) z = f x (f y z)) ->
  forall a b c, Forall reduced a -> Forall reduced b -> Forall reduced c -> map2 f (map2 f a b) c = map2 f a (map2 f b c).
Proof.
  intros H. induction a as [|x a IH]; intros [|y b] [|z c] A B C; cbn [map2]; try reflexivity. inversion A; subst. inversion B; subst. inversion C; subst.
  rewrite H by assumption. rewrite IH by assumption. reflexivity.
Qed.
Lemma map2_distr (f g : Z -> Z -> Z) : (forall x y z, reduced x -> reduced y -> reduced z -> f x (g y z) = g (f x y) (f x z)) ->
  forall a b c, Forall reduced a -> Forall reduced b -> Forall reduced c -> map2 f a (map2 g b c) = map2 g (map2 f a b) (map2 f a c).
Proof.
  intros H. induction a as [|x a IH]; intros [|y b] [|z c] A B C; cbn [map2]; try reflexivity. inversion A; subst. inversion B; subst. inversion C; subst.
  rewrite H by assumption. rewrite IH by assumption. reflexivity.
Qed.
Lemma map2_undo (f g : Z -> Z -> Z) : (forall x y, reduced x -> reduced y -> g (f x y) y = x) ->
  forall a b, length a = length b -> Forall reduced a -> Forall reduced b -> map2 g (map2 f a b) b = a.
Proof.
  intros H. induction a as [|x a IH]; intros [|y b] L A B; cbn [map2 length] in *; try reflexivity; try discriminate L. inversion A; subst. inversion B; subst.
  rewrite H by assumption. rewrite IH by (try assumption; injection L as L; exact L). reflexivity.
Qed.
Lemma poly_len a b : is_poly a -> is_poly b -> length a = length b.
Proof. intros [L _] [L' _]. congruence. Qed.
Lemma p_add_comm a b : is_poly a -> is_poly b -> poly_add a b = poly_add b a.
Proof. intros [_ A] [_ B]. unfold poly_add. rewrite map2_flip. apply map2_ext; try assumption. intros x y X Y. apply f_add_comm; assumption. Qed.
Lemma p_add_assoc a b c : is_poly a -> is_poly b -> is_poly c -> poly_add (poly_add a b) c = poly_add a (poly_add b c).
Proof. intros [_ A] [_ B] [_ C]. apply map2_assoc; try assumption. apply f_add_assoc. Qed.
Lemma p_sub_add a b : is_poly a -> is_poly b -> poly_add (poly_sub a b) b = a.
Proof. intros A B. apply map2_undo; [apply f_sub_add|apply poly_len; assumption|apply A|apply B]. Qed.
Lemma p_add_sub a b : is_poly a -> is_poly b -> poly_sub (poly_add a b) b = a.
Proof. intros A B. apply map2_undo; [apply f_add_sub|apply poly_len; assumption|apply A|apply B]. Qed.

Definition pmul (a b : list Z) : list Z := intt (poly_mul (ntt a) (ntt b)).
Lemma pmul_ring a b : is_poly a -> is_poly b -> pmul a b = ring_mul a b.
Proof. apply (proj1 transform_products). Qed.
Lemma pmul_poly a b : is_poly a -> is_poly b -> is_poly (pmul a b).
Proof. intros A B. rewrite pmul_ring by assumption. apply ring_mul_poly. Qed.
Lemma ntt_pmul a b : is_poly a -> is_poly b -> ntt (pmul a b) = poly_mul (ntt a) (ntt b).
Proof. intros A B. rewrite pmul_ring, ntt_ring_mul by assumption. symmetry. apply poly_mul_pw; apply ntt_poly; assumption. Qed.
Lemma ntt_poly_add a b : is_poly a -> is_poly b -> ntt (poly_add a b) = poly_add (ntt a) (ntt b).
Proof. intros A B. rewrite !poly_add_ring by (try assumption; apply ntt_poly; assumption). apply ntt_ring_add; assumption. Qed.
Lemma ntt_poly_sub a b : is_poly a -> is_poly b -> ntt (poly_sub a b) = poly_sub (ntt a) (ntt b).
Proof. intros A B. rewrite !poly_sub_ring by (try assumption; apply ntt_poly; assumption). apply ntt_ring_sub; assumption. Qed.
Lemma ntt_red a : is_poly a -> Forall reduced (ntt a).
Proof. intros A. exact (proj2 (ntt_poly a A)). Qed.
Lemma p_mul_comm a b : is_poly a -> is_poly b -> pmul a b = pmul b a.
Proof.
  intros A B. unfold pmul. f_equal. unfold poly_mul. rewrite map2_flip. apply map2_ext; try (apply ntt_red; assumption). intros x y X Y. apply f_mul_comm; assumption.
Qed.
Lemma p_mul_assoc a b c : is_poly a -> is_poly b -> is_poly c -> pmul (pmul a b) c = pmul a (pmul b c).
Proof.
  intros A B C. unfold pmul at 1 3. rewrite !ntt_pmul by assumption. f_equal. apply map2_assoc; try (apply ntt_red; assumption). apply f_mul_assoc.
Qed.
Lemma ntt_inj' a b : is_poly a -> is_poly b -> ntt a = ntt b -> a = b.
Proof. intros Ha Hb E. rewrite <- (intt_ntt a Ha), <- (intt_ntt b Hb), E. reflexivity. Qed.
Lemma p_distr a b c : is_poly a -> is_poly b -> is_poly c -> pmul a (poly_add b c) = poly_add (pmul a b) (pmul a c).
Proof.
  intros A B C. assert (BC : is_poly (poly_add b c)) by (apply poly_add_c; [exact B|exact C]).
  assert (N : ntt (pmul a (poly_add b c)) = ntt (poly_add (pmul a b) (pmul a c))).
  { rewrite (ntt_poly_add (pmul a b) (pmul a c) (pmul_poly a b A B) (pmul_poly a c A C)).
    rewrite (ntt_pmul a (poly_add b c) A BC), (ntt_pmul a b A B), (ntt_pmul a c A C), (ntt_poly_add b c B C).
    exact (map2_distr zq_mul zq_add f_distr (ntt a) (ntt b) (ntt c) (ntt_red a A) (ntt_red b B) (ntt_red c C)). }
  exact (ntt_inj' _ _ (pmul_poly a _ A BC) (poly_add_c _ _ (pmul_poly a b A B) (pmul_poly a c A C)) N).
Qed.
Lemma p_distr_sub a b c : is_poly a -> is_poly b -> is_poly c -> pmul a (poly_sub b c) = poly_sub (pmul a b) (pmul a c).
Proof.
  intros A B C. assert (BC : is_poly (poly_sub b c)) by (apply poly_sub_c; [exact B|exact C]).
  assert (N : ntt (pmul a (poly_sub b c)) = ntt (poly_sub (pmul a b) (pmul a c))).
  { rewrite (ntt_poly_sub (pmul a b) (pmul a c) (pmul_poly a b A B) (pmul_poly a c A C)).
    rewrite (ntt_pmul a (poly_sub b c) A BC), (ntt_pmul a b A B), (ntt_pmul a c A C), (ntt_poly_sub b c B C).
    exact (map2_distr zq_mul zq_sub f_distr_sub (ntt a) (ntt b) (ntt c) (ntt_red a A) (ntt_red b B) (ntt_red c C)). }
  exact (ntt_inj' _ _ (pmul_poly a _ A BC) (poly_sub_c _ _ (pmul_poly a b A B) (pmul_poly a c A C)) N).
Qed.
Lemma ntt_one : ntt one = repeat 1 512.
Proof.
  assert (L : length (ntt one) = 512%nat) by apply (ntt_poly one one_poly).
  apply (nth_ext _ _ 0 0); [rewrite repeat_length; exact L|]. rewrite L. intros i Hi.
  pose proof (proj1 (proj2 transform_products) one i one_poly Hi) as E. unfold coef in E. rewrite E, eval_one.
  rewrite (nth_indep _ 0 1) by (rewrite repeat_length; exact Hi). rewrite nth_repeat. reflexivity.
Qed.
Lemma map2_unit (f : Z -> Z -> Z) u : (forall x, reduced x -> f x u = x) -> forall a n, length a = n -> Forall reduced a -> map2 f a (repeat u n) = a.
Proof.
  intros H. induction a as [|x a IH]; intros [|n] L A; cbn [map2 repeat length] in *; try reflexivity; try discriminate L. inversion A; subst.
  rewrite H by assumption. rewrite IH by (try assumption; injection L as L; exact L). reflexivity.
Qed.
Lemma p_mul_one a : is_poly a -> pmul a one = a.
Proof.
  intros A. unfold pmul. rewrite ntt_one. unfold poly_mul. rewrite (map2_unit zq_mul 1 f_mul_1 (ntt a) 512); [apply intt_ntt, A|apply (ntt_poly a A)|apply ntt_red, A].
Qed.
Lemma p_add_zero a : is_poly a -> poly_add a poly_zero = a.
Proof. apply poly_add_zero. Qed.
Lemma f_neg_sub a b : zq_sub a b = zq_add a (zq_neg b).
Proof. reflexivity. Qed.
Lemma f_add_neg a : reduced a -> zq_add a (zq_neg a) = 0.
Proof. intros A. rewrite <- f_neg_sub, sub_val by assumption. rewrite Z.sub_diag. reflexivity. Qed.
