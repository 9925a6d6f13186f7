(* Statements assembled for PropPoly.v. *)
From Coq Require Import ZArith Lia Bool List Arith.
From Coq Require Import ZifyBool ZifyNat.
From Verif Require Import ModelBase ModelU128 ModelField ModelUtils ModelPoly ModelVec ModelPolyChk.
From Verif Require Import Spec.
From Verif Require Import Words FieldProofs ArithLemmas BytesProofs PolyProofs NttLayers NttTable NttProofs Cong NttEval NttBounds.
Import ListNotations.
Open Scope Z_scope.
Ltac Zify.zify_post_hook ::= idtac.

Lemma is_poly_forall (P : Z -> Prop) : (forall x, reduced x -> P x) -> forall p, is_poly p -> Forall P p.
Proof. intros H p [_ F]. apply (Forall_impl _ H F). Qed.

Lemma transforms_inverse p : is_poly p ->
  is_poly (ntt p) /\ is_poly (intt p) /\ intt (ntt p) = p /\ ntt (intt p) = p.
Proof. intros H. exact (conj (ntt_poly p H) (conj (intt_poly p H) (conj (intt_ntt p H) (ntt_intt p H)))). Qed.

Lemma bitrev_eq : bitrev = bit_reverse.
Proof. Transparent bitrev. reflexivity. Opaque bitrev. Qed.
Lemma transform_products :
  (forall a b, is_poly a -> is_poly b -> intt (poly_mul (ntt a) (ntt b)) = ring_mul a b) /\
  (forall a i, is_poly a -> (i < 512)%nat ->
     coef (ntt a) i = eval a (zeta ^ (2 * Z.of_nat (bit_reverse 9 i) + 1)) mod q) /\
  (zeta ^ 512) mod q = (-1) mod q.
Proof.
  repeat apply conj.
  - apply ntt_mul_intt.
  - intros a i Ha Hi. rewrite ntt_eval by assumption. rewrite <- bitrev_eq. apply eval_cg. apply root_leaf. exact Hi.
  - rewrite q_Q. apply zeta_512.
Qed.

Lemma centering m : 0 < m <= 2 ^ 62 ->
  (forall a, Forall (fun x => 0 <= x < m) a ->
     poly_center m a = map (centered m) a /\
     Forall (fun y => - (m / 2) <= y <= (m - 1) / 2) (poly_center m a) /\
     poly_from_centered m (poly_center m a) = a) /\
  (forall c, Forall (fun y => - (m / 2) <= y <= (m - 1) / 2) c ->
     poly_from_centered m c = map (fun y => y mod m) c /\
     Forall (fun x => 0 <= x < m) (poly_from_centered m c) /\
     poly_center m (poly_from_centered m c) = c) /\
  (forall x, centered m x mod m = x mod m).
Proof.
  intros Hm. split; [intros a H; split; [|split]|split; [intros c H; split; [|split]|]].
  - unfold poly_center. apply map_ext_in. intros x Hx. rewrite Forall_forall in H.
    apply center_coeff_spec; [exact Hm|apply H, Hx].
  - unfold poly_center. rewrite Forall_forall in *. intros y Hy. apply in_map_iff in Hy.
    destruct Hy as (x & <- & Hx). rewrite center_coeff_spec by (try exact Hm; apply H, Hx).
    apply centered_range. lia.
  - unfold poly_from_centered, poly_center. rewrite map_map. rewrite <- (map_id a) at 2.
    apply map_ext_in. intros x Hx. rewrite Forall_forall in H. apply from_center; [exact Hm|apply H, Hx].
  - unfold poly_from_centered. apply map_ext_in. intros y Hy. rewrite Forall_forall in H.
    specialize (H y Hy). apply from_centered_coeff_spec; [exact Hm|].
    assert (m / 2 <= m) by (apply Z.div_le_upper_bound; lia).
    assert ((m - 1) / 2 <= m - 1) by (apply Z.div_le_upper_bound; lia). lia.
  - unfold poly_from_centered. rewrite Forall_forall in *. intros x Hx. apply in_map_iff in Hx.
    destruct Hx as (y & <- & Hy). specialize (H y Hy). cbv beta in H.
    assert (m / 2 <= m) by (apply Z.div_le_upper_bound; lia).
    assert ((m - 1) / 2 <= m - 1) by (apply Z.div_le_upper_bound; lia).
    rewrite from_centered_coeff_spec by lia. apply Z.mod_pos_bound. lia.
  - unfold poly_from_centered, poly_center. rewrite map_map. rewrite <- (map_id c) at 2.
    apply map_ext_in. intros y Hy. rewrite Forall_forall in H. apply center_from; [exact Hm|apply H, Hy].
  - intros x. apply centered_mod. lia.
Qed.

Lemma rounding nu a : 1 <= nu <= 47 -> is_poly a ->
  poly_rounding_shr nu a = map (fun x => ((x + 2 ^ (nu - 1)) / 2 ^ nu) mod (q / 2 ^ nu)) a /\
  Forall (fun x => 0 <= x < q / 2 ^ nu) (poly_rounding_shr nu a).
Proof.
  intros Hn Ha. rewrite poly_rounding_shr_spec by assumption.
  split; [reflexivity|]. rewrite Forall_forall. intros y Hy. apply in_map_iff in Hy.
  destruct Hy as (x & <- & _). apply round_shift_range. exact Hn.
Qed.

Lemma byte_eq a b : length a = length b ->
  (a = b -> ct_eq_byte_array a b = 2 ^ 32 - 1) /\ (a <> b -> ct_eq_byte_array a b = 0).
Proof.
  intros L. rewrite ct_eq_byte_array_spec by exact L. destruct (list_eq_dec _ _ _) as [E|E]; split; intros H; try reflexivity; contradiction.
Qed.

Lemma le_conv :
  (forall l, Forall is_byte l -> from_le_bytes 8 l = le_value (firstn 8 l)) /\
  (forall v dst, 0 <= v < 2 ^ 64 -> Forall is_byte dst ->
     let n := Nat.min 8 (length dst) in
     Forall is_byte (to_le_bytes v dst) /\
     length (to_le_bytes v dst) = length dst /\
     le_value (firstn n (to_le_bytes v dst)) = v mod 2 ^ (8 * Z.of_nat n) /\
     skipn n (to_le_bytes v dst) = skipn n dst /\
     from_le_bytes 8 (to_le_bytes v dst) = v mod 2 ^ (8 * Z.of_nat n)).
Proof.
  split; [intros l; apply from_le_bytes_spec|].
  intros v dst Hv Hd n. rewrite to_le_bytes_spec. fold n.
  assert (F : firstn n (le_bytes n v ++ skipn n dst) = le_bytes n v).
  { rewrite firstn_app, le_bytes_length, Nat.sub_diag. cbn [firstn]. rewrite app_nil_r.
    apply firstn_all2. rewrite le_bytes_length. lia. }
  assert (B : Forall is_byte (le_bytes n v ++ skipn n dst)).
  { apply Forall_app. split; [apply le_bytes_byte|apply Forall_skipn, Hd]. }
  assert (LV : le_value (firstn n (le_bytes n v ++ skipn n dst)) = v mod 2 ^ (8 * Z.of_nat n)).
  { rewrite F, le_bytes_value, pow256_2 by lia. reflexivity. }
  split; [exact B|]. split; [|split; [exact LV|split]].
  - rewrite app_length, le_bytes_length, skipn_length. unfold n. lia.
  - rewrite skipn_app, le_bytes_length, Nat.sub_diag. rewrite skipn_all2 by (rewrite le_bytes_length; lia). reflexivity.
  - rewrite from_le_bytes_spec by exact B. rewrite <- LV. f_equal.
    unfold n. destruct (le_dec 8 (length dst)) as [L|L]; [rewrite Nat.min_l by lia; reflexivity|].
    rewrite Nat.min_r by lia. rewrite !firstn_all2; [reflexivity| |];
    rewrite app_length, le_bytes_length, skipn_length; lia.
Qed.

Lemma left_shift :
  (forall x n, 0 <= x < 2 ^ 64 -> 0 <= n < 64 -> zq_shl x n = ((x * 2 ^ n) mod 2 ^ 64) mod q) /\
  (forall x n, 0 <= x -> 0 <= n < 64 -> x * 2 ^ n < 2 ^ 64 -> zq_shl x n = (2 ^ n * x) mod q) /\
  (forall a, length a = 512%nat -> Forall (fun x => 0 <= x < 128) a ->
     poly_shl 42 a = ring_scale (2 ^ 42) a /\ is_poly (poly_shl 42 a)) /\
  (exists x, reduced x /\ zq_shl x 42 <> (2 ^ 42 * x) mod q).
Proof.
  split; [|split; [|split; [intros a La Ha; split|]]].
  - intros x n Hx Hn. rewrite zq_shl_spec by lia. rewrite q_Q. reflexivity.
  - intros x n H0 Hn Hx. apply shl_coeff; [exact Hn|]. split; [|exact Hx].
    apply Z.mul_nonneg_nonneg; [exact H0|]. apply Z.pow_nonneg. lia.
  - apply poly_shl_ring; [lia|assumption|assumption].
  - rewrite poly_shl_ring by (try assumption; lia). apply ring_scale_poly.
  - exists (2 ^ 40). split; [split; [discriminate|reflexivity]|].
    vm_compute. discriminate.
Qed.

Lemma forallb_seq_nth' {A} (e : A -> A -> bool) (P : A -> Prop) da a b n :
  (forall x y, P x -> P y -> (e x y = true <-> x = y)) -> Forall P a -> Forall P b ->
  length a = n -> length b = n ->
  (forallb (fun i => e (nth i a da) (nth i b da)) (seq 0 n) = true <-> a = b).
Proof.
  intros He Fa Fb Ha Hb. rewrite forallb_forall.
  assert (N : forall i, (i < n)%nat -> P (nth i a da) /\ P (nth i b da)).
  { intros i Hi. rewrite Forall_forall in Fa, Fb. split; [apply Fa, nth_In; lia|apply Fb, nth_In; lia]. }
  split.
  - intros H. apply (nth_ext _ _ da da); [lia|]. intros i Hi.
    apply He; [apply N; lia..|]. apply H. apply in_seq. lia.
  - intros -> i Hi. apply in_seq in Hi. apply He; [apply N; lia..|reflexivity].
Qed.
Definition mp_shape (d : nat) (m : list (list Z)) : Prop :=
  length m = d /\ Forall (fun p => length p = 512%nat) m.
Lemma mp_eqb_spec d a b : mp_shape d a -> mp_shape d b -> (mp_eqb a b = true <-> a = b).
Proof.
  intros [La Fa] [Lb Fb]. unfold mp_eqb. rewrite fold_and. replace (@length poly b) with d by (symmetry; exact Lb).
  apply (forallb_seq_nth' poly_eqb (fun p => length p = 512%nat)); try assumption.
  intros x y. apply poly_eqb_spec.
Qed.
Lemma pv_eqb_spec k d a b : length a = k -> length b = k ->
  Forall (mp_shape d) a -> Forall (mp_shape d) b -> (pv_eqb a b = true <-> a = b).
Proof.
  intros La Lb Fa Fb. unfold pv_eqb. rewrite fold_and. replace (@length mpoly b) with k by (symmetry; exact Lb).
  apply (forallb_seq_nth' mp_eqb (mp_shape d)); try assumption.
  intros x y. apply mp_eqb_spec.
Qed.
Lemma equality :
  (forall a b, length a = 512%nat -> length b = 512%nat -> (poly_eqb a b = true <-> a = b)) /\
  (forall d a b, length a = d -> length b = d ->
     Forall (fun p => length p = 512%nat) a -> Forall (fun p => length p = 512%nat) b ->
     (mp_eqb a b = true <-> a = b)) /\
  (forall k d a b, length a = k -> length b = k ->
     Forall (fun m => length m = d /\ Forall (fun p => length p = 512%nat) m) a ->
     Forall (fun m => length m = d /\ Forall (fun p => length p = 512%nat) m) b ->
     (pv_eqb a b = true <-> a = b)).
Proof.
  repeat apply conj.
  - apply poly_eqb_spec.
  - intros d a b H1 H2 H3 H4. apply (mp_eqb_spec d); split; assumption.
  - apply pv_eqb_spec.
Qed.
(* decision procedure for the examples *)
Definition is_polyb (p : list Z) : bool :=
  Nat.eqb (length p) 512 && forallb (fun x => (0 <=? x) && (x <? q)) p.
Lemma is_polyb_ok p : is_polyb p = true -> is_poly p.
Proof.
  unfold is_polyb. rewrite andb_true_iff, forallb_forall. intros [H1 H2]. split.
  - apply Nat.eqb_eq, H1.
  - apply Forall_forall. intros x Hx. specialize (H2 x Hx). unfold reduced. apply andb_true_iff in H2.
    destruct H2 as [A B]. apply Z.leb_le in A. apply Z.ltb_lt in B. split; assumption.
Qed.
