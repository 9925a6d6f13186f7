(* The transform evaluates at the roots of X^512+1; products. *)
From Coq Require Import ZArith Lia Bool List Arith Setoid Morphisms.
From Coq Require Import ZifyBool ZifyNat.
From Verif Require Import ModelBase ModelU128 ModelField ModelUtils ModelPoly.
From Verif Require Import Words FieldProofs ArithLemmas BytesProofs PolyProofs NttLayers NttTable NttProofs Cong.
From Verif Require Import Spec.
Import ListNotations.
Open Scope Z_scope.
Ltac Zify.zify_post_hook ::= idtac.

Definition root (c : nat) : Z := if (c <? 2)%nat then -1 else sgn c * pz (c / 2).

Lemma sgn_sq c : sgn c * sgn c = 1.
Proof. unfold sgn. destruct (Nat.even c); reflexivity. Qed.
Lemma div2_div2 c : (c / 2 / 2 = c / 4)%nat.
Proof. rewrite Nat.div_div by lia. reflexivity. Qed.
Lemma root_sq c : (2 <= c < 1024)%nat -> root c * root c == root (c / 2).
Proof.
  intros Hc. unfold root at 1 2. replace (c <? 2)%nat with false by lia.
  replace (sgn c * pz (c / 2) * (sgn c * pz (c / 2))) with (sgn c * sgn c * (pz (c / 2) * pz (c / 2))) by ring.
  rewrite sgn_sq, Z.mul_1_l.
  assert (D : (c / 2 < 512)%nat) by (apply Nat.div_lt_upper_bound; lia).
  assert (D1 : (1 <= c / 2)%nat) by (apply Nat.div_le_lower_bound; lia).
  unfold root. destruct (c / 2 <? 2)%nat eqn:E.
  - replace (c / 2)%nat with 1%nat by lia. unfold cg. rewrite q_Q. exact pz_sq1.
  - unfold cg. rewrite q_Q. apply pz_sq. lia.
Qed.
Lemma root_pow c l : (512 <= c < 1024)%nat -> (l <= 9)%nat ->
  root c ^ (2 ^ Z.of_nat l) == root (c / 2 ^ l).
Proof.
  intros Hc. induction l as [|l IH]; intros Hl.
  - change (2 ^ Z.of_nat 0) with 1. rewrite Z.pow_1_r. change (2 ^ 0)%nat with 1%nat. rewrite Nat.div_1_r. reflexivity.
  - rewrite pow2_S, Z.mul_comm, Z.pow_mul_r by (pose proof (pow_pos2 l); lia).
    rewrite (cg_pow _ (root (c / 2 ^ l)) 2) by (try lia; apply IH; lia).
    rewrite Z.pow_2_r. pose proof (pow2_nat_pos l).
    rewrite root_sq.
    + rewrite Nat.div_div by lia. replace (2 ^ S l)%nat with (2 ^ l * 2)%nat by (cbn [Nat.pow]; lia). reflexivity.
    + assert (2 ^ l <= 2 ^ 8)%nat by (apply Nat.pow_le_mono_r; lia). change (2 ^ 8)%nat with 256%nat in *.
      split.
      * apply Nat.div_le_lower_bound; lia.
      * apply Nat.le_lt_trans with c; [|lia]. apply Nat.div_le_upper_bound; [lia|].
        rewrite <- (Nat.mul_1_l c) at 1. apply Nat.mul_le_mono_r. lia.
Qed.

Lemma NT_eval l : (l <= 9)%nat -> forall p b i, is_poly p -> (b < 2 ^ (9 - l))%nat -> (i < 2 ^ l)%nat ->
  coef (NT l p) (b * 2 ^ l + i) ==
  Zsum (2 ^ l) (fun j => coef p (b * 2 ^ l + j) * root (512 + b * 2 ^ l + i) ^ Z.of_nat j).
Proof.
  induction l as [|l IH]; intros Hl p b i Hp Hb Hi.
  - change (2 ^ 0)%nat with 1%nat in *. cbn [Zsum]. change (NT 0 p) with p.
    replace i with 0%nat by lia. change (Z.of_nat 0) with 0. rewrite Z.pow_0_r.
    apply cg_refl'. ring.
  - rewrite NT_S. pose proof (ntt_layer_poly l p ltac:(lia) Hp) as Hn.
    pose proof (pow2_nat_pos l) as PP.
    assert (Hb' : (b < nblk l)%nat) by (unfold nblk; replace (8 - l)%nat with (9 - S l)%nat by lia; exact Hb).
    assert (N2 : (2 ^ (9 - l) = 2 * nblk l)%nat).
    { unfold nblk. replace (9 - l)%nat with (S (8 - l)) by lia. reflexivity. }
    assert (N3 : (2 ^ l * (2 * nblk l) = 512)%nat) by (rewrite <- (nblk_len l ltac:(lia)); lia).
    assert (RP : forall k, (k < 2 ^ l)%nat -> forall h, (h < 2)%nat ->
       root (512 + (2 * b + h) * 2 ^ l + k) ^ Z.of_nat (2 ^ l) == root (2 * (nblk l + b) + h)).
    { intros k Hk h Hh. replace (Z.of_nat (2 ^ l)) with (2 ^ Z.of_nat l) by (rewrite Nat2Z.inj_pow; reflexivity).
      assert (HH : (512 + (2 * b + h) * 2 ^ l + k < 1024)%nat).
      { assert ((2 * b + h + 1) * 2 ^ l <= (2 * nblk l) * 2 ^ l)%nat by (apply Nat.mul_le_mono_r; lia). lia. }
      rewrite root_pow by lia.
      replace ((512 + (2 * b + h) * 2 ^ l + k) / 2 ^ l)%nat with (2 * (nblk l + b) + h)%nat; [reflexivity|].
      apply Nat.div_unique with k; [exact Hk|]. rewrite <- N3. ring. }
    assert (RT : forall h, (h < 2)%nat -> root (2 * (nblk l + b) + h) = if (h =? 0)%nat then pz (nblk l + b) else - pz (nblk l + b)).
    { intros h Hh. unfold root. assert (1 <= nblk l)%nat by (unfold nblk; pose proof (pow2_nat_pos (8 - l)); lia).
      replace (2 * (nblk l + b) + h <? 2)%nat with false by lia.
      replace ((2 * (nblk l + b) + h) / 2)%nat with (nblk l + b)%nat by (apply Nat.div_unique with h; lia).
      unfold sgn. replace (2 * (nblk l + b) + h)%nat with (h + 2 * (nblk l + b))%nat by lia.
      rewrite Nat.even_add_mul_2. destruct h as [|[|h]]; cbn [Nat.even Nat.eqb]; [ring|ring|lia]. }
    replace (2 ^ S l)%nat with (2 ^ l + 2 ^ l)%nat in * by (cbn [Nat.pow]; lia).
    rewrite (Zsum_split (2 ^ l)).
    destruct (lt_dec i (2 ^ l)) as [Hlo|Hhi].
    + replace (b * (2 ^ l + 2 ^ l) + i)%nat with ((2 * b + 0) * 2 ^ l + i)%nat by lia.
      rewrite IH by (try assumption; lia).
      specialize (RP i Hlo 0%nat ltac:(lia)). rewrite (RT 0%nat ltac:(lia)) in RP. cbn [Nat.eqb] in RP.
      replace (512 + b * (2 ^ l + 2 ^ l) + i)%nat with (512 + (2 * b + 0) * 2 ^ l + i)%nat by lia.
      set (x := root (512 + (2 * b + 0) * 2 ^ l + i)) in *. clearbody x.
      rewrite <- Zsum_plus. apply Zsum_cg. intros j Hj.
      replace ((2 * b + 0) * 2 ^ l + j)%nat with (b * (2 * 2 ^ l) + j)%nat by lia.
      replace (b * (2 ^ l + 2 ^ l) + j)%nat with (b * (2 * 2 ^ l) + j)%nat by lia.
      replace (b * (2 ^ l + 2 ^ l) + (2 ^ l + j))%nat with (b * (2 * 2 ^ l) + 2 ^ l + j)%nat by lia.
      rewrite ntt_layer_lo by (try assumption; lia). rewrite cg_mod. rewrite <- RP.
      rewrite (Nat2Z.inj_add (2 ^ l) j), Z.pow_add_r by lia. apply cg_refl'. ring.
    + replace (b * (2 ^ l + 2 ^ l) + i)%nat with ((2 * b + 1) * 2 ^ l + (i - 2 ^ l))%nat by lia.
      rewrite IH by (try assumption; lia).
      specialize (RP (i - 2 ^ l)%nat ltac:(lia) 1%nat ltac:(lia)). rewrite (RT 1%nat ltac:(lia)) in RP. cbn [Nat.eqb] in RP.
      replace (512 + b * (2 ^ l + 2 ^ l) + i)%nat with (512 + (2 * b + 1) * 2 ^ l + (i - 2 ^ l))%nat by lia.
      set (x := root (512 + (2 * b + 1) * 2 ^ l + (i - 2 ^ l))) in *. clearbody x.
      rewrite <- Zsum_plus. apply Zsum_cg. intros j Hj.
      replace ((2 * b + 1) * 2 ^ l + j)%nat with (b * (2 * 2 ^ l) + 2 ^ l + j)%nat by lia.
      replace (b * (2 ^ l + 2 ^ l) + j)%nat with (b * (2 * 2 ^ l) + j)%nat by lia.
      replace (b * (2 ^ l + 2 ^ l) + (2 ^ l + j))%nat with (b * (2 * 2 ^ l) + 2 ^ l + j)%nat by lia.
      rewrite ntt_layer_hi by (try assumption; lia). rewrite cg_mod.
      rewrite <- Z.add_opp_r, <- Z.mul_opp_l. rewrite <- RP.
      rewrite (Nat2Z.inj_add (2 ^ l) j), Z.pow_add_r by lia. apply cg_refl'. ring.
Qed.

Lemma ntt_eval p i : is_poly p -> (i < 512)%nat -> coef (ntt p) i = eval p (root (512 + i)) mod q.
Proof.
  intros Hp Hi. apply cg_reduced; [apply is_poly_coef', ntt_poly, Hp|apply reduced_mod|].
  rewrite cg_mod, ntt_NT. pose proof (NT_eval 9 ltac:(lia) p 0 i Hp) as H.
  change (2 ^ 9)%nat with 512%nat in H. cbn [Nat.mul Nat.add] in H. unfold eval.
  apply H; [|exact Hi]. change (2 ^ (9 - 9))%nat with 1%nat. lia.
Qed.
Lemma root_leaf i : (i < 512)%nat -> root (512 + i) == zeta ^ (2 * Z.of_nat (bitrev 9 i) + 1).
Proof.
  intros Hi. unfold root. replace (512 + i <? 2)%nat with false by lia.
  replace ((512 + i) / 2)%nat with (256 + i / 2)%nat.
  - replace (sgn (512 + i)) with (sgn i).
    + unfold cg. rewrite q_Q. apply pz_root. exact Hi.
    + unfold sgn. rewrite Nat.even_add. change (Nat.even 512) with true. destruct (Nat.even i); reflexivity.
  - change (512 + i)%nat with (256 * 2 + i)%nat. rewrite Nat.div_add_l by lia. reflexivity.
Qed.
Lemma root_leaf_512 i : (i < 512)%nat -> root (512 + i) ^ 512 == -1.
Proof.
  intros Hi. pose proof (root_pow (512 + i) 9 ltac:(lia) ltac:(lia)) as H.
  change (2 ^ Z.of_nat 9) with 512 in H. rewrite H.
  replace ((512 + i) / 2 ^ 9)%nat with 1%nat; [reflexivity|].
  apply Nat.div_unique with i; [exact Hi|reflexivity].
Qed.
Lemma eval_cg p x y : x == y -> eval p x == eval p y.
Proof.
  intros H. unfold eval. apply Zsum_cg. intros i _. rewrite (cg_pow x y) by (try lia; exact H). reflexivity.
Qed.

Lemma eval_ring_mul a b x : x ^ 512 == -1 -> eval (ring_mul a b) x == eval a x * eval b x.
Proof.
  intros Hx. unfold eval.
  set (F := fun k i => (if (i <=? k)%nat then coef a i * coef b (k - i)
               else - (coef a i * coef b (512 + k - i))) * x ^ Z.of_nat k).
  transitivity (Zsum 512 (fun k => Zsum 512 (fun i => F k i))).
  { apply Zsum_cg. intros k Hk. unfold ring_mul. rewrite coef_map by exact Hk. rewrite cg_mod.
    unfold negacyclic_coef. rewrite <- Zsum_scal_r. reflexivity. }
  rewrite Zsum_swap. rewrite <- Zsum_scal_r. apply Zsum_cg. intros i Hi.
  rewrite <- Z.mul_assoc.
  transitivity (Zsum (i + (512 - i)) (fun k => F k i));
    [apply cg_refl'; f_equal; lia|].
  transitivity (coef a i * (x ^ Z.of_nat i * Zsum ((512 - i) + i) (fun j => coef b j * x ^ Z.of_nat j)));
    [|apply cg_refl'; do 3 f_equal; lia].
  rewrite (Zsum_split i), (Zsum_split (512 - i)).
  rewrite !Z.mul_add_distr_l, Z.add_comm. rewrite <- !Zsum_scal. unfold F.
  assert (L : forall n f g f' g', n = Zsum (512 - i) f -> n = n -> (forall j, (j < 512 - i)%nat -> f j == g j) ->
     (forall j, (j < i)%nat -> f' j == g' j) ->
     Zsum (512 - i) f + Zsum i f' == Zsum (512 - i) g + Zsum i g').
  { intros n f g f' g' _ _ H1 H2. rewrite (Zsum_cg _ _ _ H1), (Zsum_cg _ _ _ H2). reflexivity. }
  eapply L; [reflexivity|reflexivity| |].
  - intros j Hj. cbv beta. replace (i <=? i + j)%nat with true by lia.
    replace (i + j - i)%nat with j by lia. rewrite Nat2Z.inj_add, Z.pow_add_r by lia. apply cg_refl'. ring.
  - intros j Hj. cbv beta. replace (i <=? j)%nat with false by lia.
    replace (512 + j - i)%nat with (512 - i + j)%nat by lia.
    replace (x ^ Z.of_nat (512 - i + j)) with (x ^ (Z.of_nat (512 - i + j))) by reflexivity.
    assert (E : x ^ Z.of_nat i * x ^ Z.of_nat (512 - i + j) == - x ^ Z.of_nat j).
    { rewrite <- Z.pow_add_r by lia. replace (Z.of_nat i + Z.of_nat (512 - i + j)) with (512 + Z.of_nat j) by lia.
      rewrite Z.pow_add_r by lia. rewrite Hx. apply cg_refl'. ring. }
    transitivity (coef a i * coef b (512 - i + j) * - x ^ Z.of_nat j); [apply cg_refl'; ring|].
    rewrite <- E. apply cg_refl'. ring.
Qed.

Lemma coef_add a b k : (k < 512)%nat -> coef (ring_add a b) k = (coef a k + coef b k) mod q.
Proof. intros H. unfold ring_add. rewrite coef_map by exact H. reflexivity. Qed.
Lemma coef_sub a b k : (k < 512)%nat -> coef (ring_sub a b) k = (coef a k - coef b k) mod q.
Proof. intros H. unfold ring_sub. rewrite coef_map by exact H. reflexivity. Qed.
Lemma coef_pw a b k : (k < 512)%nat -> coef (pw_mul a b) k = (coef a k * coef b k) mod q.
Proof. intros H. unfold pw_mul. rewrite coef_map by exact H. reflexivity. Qed.

Lemma ntt_ring_mul a b : is_poly a -> is_poly b -> ntt (ring_mul a b) = pw_mul (ntt a) (ntt b).
Proof.
  intros Ha Hb. apply poly_ext; [apply is_poly_length, ntt_poly, ring_mul_poly|apply is_poly_length, pw_mul_poly|].
  intros k Hk. rewrite ntt_eval by (try apply ring_mul_poly; exact Hk). rewrite coef_pw by exact Hk.
  rewrite !ntt_eval by assumption. rewrite <- Zmult_mod. apply eval_ring_mul. apply root_leaf_512. exact Hk.
Qed.
Lemma ntt_ring_add a b : is_poly a -> is_poly b -> ntt (ring_add a b) = ring_add (ntt a) (ntt b).
Proof.
  intros Ha Hb. apply poly_ext; [apply is_poly_length, ntt_poly, ring_add_poly|apply is_poly_length, ring_add_poly|].
  intros k Hk. rewrite ntt_eval by (try apply ring_add_poly; exact Hk). rewrite coef_add by exact Hk.
  rewrite !ntt_eval by assumption. rewrite <- Zplus_mod. unfold eval. rewrite <- Zsum_plus.
  apply Zsum_cg. intros i Hi. rewrite coef_add by exact Hi. rewrite cg_mod. apply cg_refl'. ring.
Qed.
Lemma ntt_ring_sub a b : is_poly a -> is_poly b -> ntt (ring_sub a b) = ring_sub (ntt a) (ntt b).
Proof.
  intros Ha Hb. apply poly_ext; [apply is_poly_length, ntt_poly, ring_sub_poly|apply is_poly_length, ring_sub_poly|].
  intros k Hk. rewrite ntt_eval by (try apply ring_sub_poly; exact Hk). rewrite coef_sub by exact Hk.
  rewrite !ntt_eval by assumption. rewrite <- Zminus_mod. unfold eval. rewrite <- Zsum_minus.
  apply Zsum_cg. intros i Hi. rewrite coef_sub by exact Hi. rewrite cg_mod. apply cg_refl'. ring.
Qed.
Lemma intt_pw_mul a b : is_poly a -> is_poly b -> intt (pw_mul a b) = ring_mul (intt a) (intt b).
Proof.
  intros Ha Hb. rewrite <- (intt_ntt (ring_mul (intt a) (intt b))) by apply ring_mul_poly. f_equal.
  rewrite ntt_ring_mul by (apply intt_poly; assumption). rewrite !ntt_intt by assumption. reflexivity.
Qed.
Lemma intt_ring_add a b : is_poly a -> is_poly b -> intt (ring_add a b) = ring_add (intt a) (intt b).
Proof.
  intros Ha Hb. rewrite <- (intt_ntt (ring_add (intt a) (intt b))) by apply ring_add_poly. f_equal.
  rewrite ntt_ring_add by (apply intt_poly; assumption). rewrite !ntt_intt by assumption. reflexivity.
Qed.
Lemma intt_ring_sub a b : is_poly a -> is_poly b -> intt (ring_sub a b) = ring_sub (intt a) (intt b).
Proof.
  intros Ha Hb. rewrite <- (intt_ntt (ring_sub (intt a) (intt b))) by apply ring_sub_poly. f_equal.
  rewrite ntt_ring_sub by (apply intt_poly; assumption). rewrite !ntt_intt by assumption. reflexivity.
Qed.
Lemma ntt_mul_intt a b : is_poly a -> is_poly b -> intt (poly_mul (ntt a) (ntt b)) = ring_mul a b.
Proof.
  intros Ha Hb. rewrite poly_mul_pw by (apply ntt_poly; assumption).
  rewrite intt_pw_mul by (apply ntt_poly; assumption). rewrite !intt_ntt by assumption. reflexivity.
Qed.
Lemma ntt_zero : ntt ring_zero = ring_zero.
Proof.
  apply poly_ext; [apply is_poly_length, ntt_poly, ring_zero_poly|apply is_poly_length, ring_zero_poly|].
  intros k Hk. rewrite ntt_eval by (try apply ring_zero_poly; exact Hk).
  unfold eval. rewrite (Zsum_ext _ _ (fun _ => 0)) by (intros; rewrite coef_ring_zero; ring).
  rewrite Zsum_0, coef_ring_zero. reflexivity.
Qed.
Lemma intt_zero : intt ring_zero = ring_zero.
Proof. rewrite <- ntt_zero at 1. apply intt_ntt. apply ring_zero_poly. Qed.
