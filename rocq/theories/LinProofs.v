(* Unmasking commutes with the linear operations on shares; matrix-vector product. *)
From Coq Require Import ZArith Lia Bool List Arith.
From Coq Require Import ZifyBool ZifyNat.
From Verif Require Import ModelBase ModelU128 ModelField ModelUtils ModelPoly ModelVec.
From Verif Require Import Spec.
From Verif Require Import Words FieldProofs ArithLemmas BytesProofs PolyProofs NttLayers NttProofs Cong NttEval NttBounds MaskedProofs.
Import ListNotations.
Open Scope Z_scope.
Ltac Zify.zify_post_hook ::= idtac.

Lemma unmask_cons x a : unmask (x :: a) = ring_add x (unmask a).
Proof.
  apply poly_ext; [apply is_poly_length, unmask_poly|apply is_poly_length, ring_add_poly|].
  intros k Hk. rewrite coef_unmask, coef_add, coef_unmask by exact Hk. rewrite usum_cons.
  rewrite Zplus_mod_idemp_r. reflexivity.
Qed.
Lemma unmask_nil : unmask [] = ring_zero.
Proof. apply unmask_zero. intros k. reflexivity. Qed.
(* additive maps *)
Lemma unmask_additive (f : list Z -> list Z) :
  (forall a b, is_poly a -> is_poly b -> f (ring_add a b) = ring_add (f a) (f b)) -> f ring_zero = ring_zero ->
  forall a, Forall is_poly a -> unmask (map f a) = f (unmask a).
Proof.
  intros Ha Hz. induction a as [|x a IH]; intros F.
  - rewrite unmask_nil. symmetry. exact Hz.
  - inversion F; subst. cbn [map]. rewrite !unmask_cons, IH by assumption. symmetry. apply Ha; [assumption|apply unmask_poly].
Qed.
Lemma unmask_ntt d a : mp_ok d a -> unmask (mp_ntt a) = ntt (unmask a).
Proof. intros [_ F]. apply (unmask_additive ntt); [apply ntt_ring_add|apply ntt_zero|exact F]. Qed.
Lemma unmask_intt d a : mp_ok d a -> unmask (mp_intt a) = intt (unmask a).
Proof. intros [_ F]. apply (unmask_additive intt); [apply intt_ring_add|apply intt_zero|exact F]. Qed.
Lemma mp_ntt_ok d a : mp_ok d a -> mp_ok d (mp_ntt a).
Proof.
  intros [L F]. split; [unfold mp_ntt; rewrite map_length; exact L|]. unfold mp_ntt. apply Forall_map.
  apply (Forall_impl _ ntt_poly F).
Qed.
Lemma mp_intt_ok d a : mp_ok d a -> mp_ok d (mp_intt a).
Proof.
  intros [L F]. split; [unfold mp_intt; rewrite map_length; exact L|]. unfold mp_intt. apply Forall_map.
  apply (Forall_impl _ intt_poly F).
Qed.
Lemma pv_ntt_ok k d v : pv_ok k d v -> pv_ok k d (pv_ntt v).
Proof.
  intros [L F]. split; [unfold pv_ntt; rewrite map_length; exact L|]. unfold pv_ntt. apply Forall_map.
  apply (Forall_impl _ (mp_ntt_ok d) F).
Qed.
Lemma pv_intt_ok k d v : pv_ok k d v -> pv_ok k d (pv_intt v).
Proof.
  intros [L F]. split; [unfold pv_intt; rewrite map_length; exact L|]. unfold pv_intt. apply Forall_map.
  apply (Forall_impl _ (mp_intt_ok d) F).
Qed.
Lemma pv_unmask_ntt k d v : pv_ok k d v -> map unmask (pv_ntt v) = map ntt (map unmask v).
Proof.
  intros [_ F]. unfold pv_ntt. rewrite !map_map. apply map_ext_in. intros a Ha. rewrite Forall_forall in F.
  apply (unmask_ntt d). apply F, Ha.
Qed.
Lemma pv_unmask_intt k d v : pv_ok k d v -> map unmask (pv_intt v) = map intt (map unmask v).
Proof.
  intros [_ F]. unfold pv_intt. rewrite !map_map. apply map_ext_in. intros a Ha. rewrite Forall_forall in F.
  apply (unmask_intt d). apply F, Ha.
Qed.

(* pointwise product with 49-bit first operand *)
Lemma poly_mul_w a b : wpoly a -> wpoly b -> is_poly (poly_mul a b).
Proof.
  intros Ha Hb. split.
  - unfold poly_mul. rewrite map2_length, (proj1 Ha), (proj1 Hb). reflexivity.
  - unfold poly_mul. apply (map2_Forall zq_mul lt49 lt49 reduced); [|apply Ha|apply Hb].
    intros x y Hx Hy. rewrite zq_mul_spec49 by assumption. rewrite <- q_Q. apply reduced_mod.
Qed.
Lemma coef_poly_mul a b k : wpoly a -> wpoly b -> coef (poly_mul a b) k == coef a k * coef b k.
Proof.
  intros Ha Hb. destruct (lt_dec k 512) as [H|H].
  - unfold poly_mul. rewrite coef_map2 by (try exact H; try apply Ha; apply Hb).
    rewrite zq_mul_spec49 by (apply wpoly_coef; assumption). rewrite <- q_Q. apply cg_mod.
  - unfold coef. rewrite !nth_overflow; [reflexivity|rewrite (proj1 Hb); lia|rewrite (proj1 Ha); lia|].
    rewrite (proj1 (poly_mul_w a b Ha Hb)). lia.
Qed.
Lemma usum_mul k a c : Forall wpoly a -> wpoly c -> usum k (map (fun s => poly_mul s c) a) == usum k a * coef c k.
Proof.
  intros F Hc. induction F as [|x a Hx F IH]; [unfold usum; cbn; reflexivity|].
  cbn [map]. rewrite !usum_cons, IH, coef_poly_mul by assumption. apply cg_refl'. ring.
Qed.
Lemma unmask_mul d a c : mp_w d a -> is_poly c ->
  mp_ok d (map (fun s => poly_mul s c) a) /\ unmask (map (fun s => poly_mul s c) a) = pw_mul (unmask a) c.
Proof.
  intros [L F] Hc. pose proof (is_poly_wpoly c Hc) as Wc. split.
  - split; [rewrite map_length; exact L|]. apply Forall_map. apply (Forall_impl _ (fun s Hs => poly_mul_w s c Hs Wc) F).
  - apply poly_ext; [apply is_poly_length, unmask_poly|apply is_poly_length, pw_mul_poly|].
    intros k Hk. rewrite coef_unmask, coef_pw, coef_unmask by exact Hk.
    rewrite Zmult_mod_idemp_l. apply usum_mul; assumption.
Qed.
Lemma pv_mul_poly_ok k d v c : pv_w k d v -> is_poly c ->
  pv_ok k d (pv_mul_poly v c) /\ map unmask (pv_mul_poly v c) = map (fun p => pw_mul p c) (map unmask v).
Proof.
  intros [L F] Hc. unfold pv_mul_poly. split.
  - split; [rewrite map_length; exact L|]. apply Forall_map.
    apply (Forall_impl _ (fun a Ha => proj1 (unmask_mul d a c Ha Hc)) F).
  - rewrite !map_map. apply map_ext_in. intros a Ha. rewrite Forall_forall in F. apply (unmask_mul d); [apply F, Ha|exact Hc].
Qed.
Lemma unmask_add d a b : mp_w d a -> mp_ok d b -> unmask (mp_add a b) = ring_add (unmask a) (unmask b).
Proof.
  intros Ha Hb. apply poly_ext; [apply is_poly_length, unmask_poly|apply is_poly_length, ring_add_poly|].
  intros k Hk. rewrite coef_unmask, coef_add, !coef_unmask by exact Hk. rewrite <- Zplus_mod.
  apply (map2_mp d a b Ha Hb).
Qed.
Lemma pv_add_ok k d a b : pv_ok k d a -> pv_ok k d b ->
  pv_ok k d (pv_add a b) /\ map unmask (pv_add a b) = map2 ring_add (map unmask a) (map unmask b).
Proof.
  intros [La Fa] [Lb Fb]. split.
  - split.
    + unfold pv_add. rewrite map2_length. unfold mpoly, poly in *. lia.
    + unfold pv_add. apply (map2_Forall mp_add (mp_ok d) (mp_ok d)); try assumption. apply mp_add_ok.
  - assert (LL : length a = length b) by lia. clear La Lb. unfold pv_add. revert b LL Fb. induction Fa as [|x a Hx Fa IH]; intros [|y b] LL Fb; cbn [length] in LL; try lia; [reflexivity|].
    inversion Fb; subst. cbn [map2 map]. rewrite (unmask_add d) by (try assumption; apply mp_ok_w; assumption).
    f_equal. apply IH; [lia|assumption].
Qed.

(* ---------- matrix-vector product ---------- *)
(* in the transform domain: row r of A times v *)
Definition hat_dot (cols : nat) (A : list (list Z)) (v : list (list Z)) (r : nat) : list Z :=
  fold_left (fun acc c => ring_add acc (pw_mul (mat_get cols A r c) (nth c v []))) (seq 0 cols) ring_zero.
Lemma hat_dot_poly cols A v r : is_poly (hat_dot cols A v r).
Proof.
  unfold hat_dot. generalize (seq 0 cols). intros l. assert (H : is_poly ring_zero) by apply ring_zero_poly.
  revert H. generalize ring_zero. induction l as [|c l IH]; intros acc H; [exact H|]. cbn [fold_left]. apply IH, ring_add_poly.
Qed.
Lemma row_step d A acc s : is_poly A -> mp_ok d acc -> mp_w d s ->
  mp_ok d (map2 (fun a x => poly_add a (poly_mul A x)) acc s) /\
  forall k, usum k (map2 (fun a x => poly_add a (poly_mul A x)) acc s) == usum k acc + coef A k * usum k s.
Proof.
  intros HA [La Fa] [Ls Fs]. pose proof (is_poly_wpoly A HA) as WA. split.
  - split; [rewrite map2_length; unfold poly in *; lia|].
    apply (map2_Forall (fun a x => poly_add a (poly_mul A x)) is_poly wpoly); try assumption.
    intros x y Hx Hy. apply poly_add_c; [exact Hx|apply poly_mul_w; assumption].
  - intros k. assert (LL : length acc = length s) by lia. clear La Ls. revert s LL Fs.
    induction Fa as [|x acc Hx Fa IH]; intros [|y s] LL Fs; cbn [length] in LL; try lia.
    + unfold usum. cbn. apply cg_refl'. ring.
    + inversion Fs; subst. cbn [map2]. rewrite !usum_cons, IH by (try assumption; lia).
      rewrite coef_poly_add by (try apply poly_mul_w; try assumption; apply is_poly_wpoly; assumption).
      rewrite coef_poly_mul by assumption. apply cg_refl'. ring.
Qed.
Definition mat_ok (rows cols : nat) (A : list (list Z)) : Prop :=
  length A = (rows * cols)%nat /\ Forall is_poly A.
Lemma mat_get_ok rows cols A r c : mat_ok rows cols A -> (r < rows)%nat -> (c < cols)%nat -> is_poly (mat_get cols A r c).
Proof.
  intros [L F] Hr Hc. unfold mat_get. rewrite Forall_forall in F. apply F, nth_In. unfold poly in *; rewrite L.
  assert ((r + 1) * cols <= rows * cols)%nat by (apply Nat.mul_le_mono_r; lia). lia.
Qed.
Lemma mat_row_ok rows cols d A v r : mat_ok rows cols A -> pv_w cols d v -> (r < rows)%nat ->
  let row := fold_left (fun acc c => map2 (fun a s => poly_add a (poly_mul (mat_get cols A r c) s)) acc (nth c v []))
                       (seq 0 cols) (repeat poly_zero d) in
  mp_ok d row /\ unmask row = hat_dot cols A (map unmask v) r.
Proof.
  intros HA [Lv Fv] Hr row. unfold row. clear row.
  assert (G : forall n, (n <= cols)%nat ->
    let row := fold_left (fun acc c => map2 (fun a s => poly_add a (poly_mul (mat_get cols A r c) s)) acc (nth c v []))
                       (seq 0 n) (repeat poly_zero d) in
    mp_ok d row /\ unmask row = fold_left (fun acc c => ring_add acc (pw_mul (mat_get cols A r c) (nth c (map unmask v) [])))
                       (seq 0 n) ring_zero).
  { induction n as [|n IH]; intros Hn.
    - cbn [seq fold_left]. rewrite poly_zero_eq. destruct (zero_shares_ok d) as [Z1 Z2].
      change (poly_fill 0) with poly_zero in *. rewrite poly_zero_eq in *. split; [exact Z1|]. apply unmask_zero, Z2.
    - rewrite seq_S, !fold_left_app. cbn [fold_left]. rewrite Nat.add_0_l. destruct (IH ltac:(lia)) as [H1 H2].
      set (row := fold_left _ (seq 0 n) (repeat poly_zero d)) in *. clearbody row.
      assert (Hv : mp_w d (nth n v [])) by (rewrite Forall_forall in Fv; apply Fv, nth_In; lia).
      destruct (row_step d (mat_get cols A r n) row (nth n v []) (mat_get_ok rows cols A r n HA Hr ltac:(lia)) H1 Hv) as [S1 S2].
      split; [exact S1|].
      rewrite <- H2. apply poly_ext; [apply is_poly_length, unmask_poly|apply is_poly_length, ring_add_poly|].
      intros k Hk. rewrite coef_unmask, coef_add, coef_unmask, coef_pw by exact Hk.
      rewrite <- Zplus_mod. rewrite (nth_indep _ [] (unmask [])) by (rewrite map_length; lia).
      rewrite (map_nth unmask), coef_unmask by exact Hk.
      change (usum k (map2 (fun a s => poly_add a (poly_mul (mat_get cols A r n) s)) row (nth n v [])) == usum k row + coef (mat_get cols A r n) k * (usum k (nth n v []) mod q)).
      rewrite S2, cg_mod. reflexivity. }
  destruct (G cols ltac:(lia)) as [G1 G2]. split; [exact G1|exact G2].
Qed.
Lemma mat_mul_ok rows cols d A v : mat_ok rows cols A -> pv_w cols d v ->
  pv_ok rows d (mat_mul rows cols d A v) /\
  map unmask (mat_mul rows cols d A v) = map (hat_dot cols A (map unmask v)) (seq 0 rows).
Proof.
  intros HA Hv. unfold mat_mul. split.
  - split; [rewrite map_length, seq_length; reflexivity|]. apply Forall_forall. intros row Hr.
    apply in_map_iff in Hr. destruct Hr as (r & <- & Hr). apply in_seq in Hr.
    apply (mat_row_ok rows); [exact HA|exact Hv|lia].
  - rewrite map_map. apply map_ext_in. intros r Hr. apply in_seq in Hr. apply (mat_row_ok rows); [exact HA|exact Hv|lia].
Qed.

(* the matrix over the ring whose transform is A, as a list of rows *)
Definition ring_mat (rows cols : nat) (A : list (list Z)) : list (list (list Z)) :=
  map (fun r => map (fun c => intt (mat_get cols A r c)) (seq 0 cols)) (seq 0 rows).
Lemma ring_dot_poly a v : is_poly (ring_dot a v).
Proof. unfold ring_dot. destruct (map _ (combine a v)); [apply ring_zero_poly|apply ring_add_poly]. Qed.
Lemma ring_add_assoc a b c : ring_add (ring_add a b) c = ring_add a (ring_add b c).
Proof.
  apply poly_ext; try apply is_poly_length, ring_add_poly. intros k Hk. rewrite !coef_add by exact Hk.
  rewrite Zplus_mod_idemp_l, Zplus_mod_idemp_r. f_equal. ring.
Qed.
Lemma ring_add_comm a b : ring_add a b = ring_add b a.
Proof.
  apply poly_ext; try apply is_poly_length, ring_add_poly. intros k Hk. rewrite !coef_add by exact Hk. f_equal. ring.
Qed.
Lemma ring_add_zero a : is_poly a -> ring_add a ring_zero = a.
Proof.
  intros H. rewrite <- poly_add_ring by (try assumption; apply ring_zero_poly). rewrite <- poly_zero_eq. apply poly_add_zero, H.
Qed.
Lemma fold_left_ring_add l : Forall is_poly l -> forall acc, is_poly acc ->
  fold_left ring_add l acc = ring_add acc (fold_right ring_add ring_zero l).
Proof.
  induction l as [|x l IH]; intros F acc Ha; cbn [fold_left fold_right].
  - symmetry. apply ring_add_zero, Ha.
  - inversion F; subst. rewrite IH by (try assumption; apply ring_add_poly). apply ring_add_assoc.
Qed.
Lemma combine_dot (f g : nat -> list Z) l :
  map (fun '(a, b) => ring_mul a b) (combine (map f l) (map g l)) = map (fun c => ring_mul (f c) (g c)) l.
Proof. induction l as [|c l IH]; [reflexivity|]. cbn [map combine]. f_equal. exact IH. Qed.
Lemma ring_dot_maps (f g : nat -> list Z) l :
  ring_dot (map f l) (map g l) = fold_left ring_add (map (fun c => ring_mul (f c) (g c)) l) ring_zero.
Proof.
  unfold ring_dot. rewrite combine_dot.
  rewrite fold_left_ring_add; [|apply Forall_map, Forall_forall; intros c _; apply ring_mul_poly|apply ring_zero_poly].
  rewrite ring_add_comm. symmetry. apply ring_add_zero.
  destruct l; [apply ring_zero_poly|apply ring_add_poly].
Qed.
(* stated for an arbitrary additive and multiplicative map F so that nothing ever unfolds the transform *)
Lemma F_fold (F : list Z -> list Z)
  (Fadd : forall a b, is_poly a -> is_poly b -> F (ring_add a b) = ring_add (F a) (F b))
  (Fmul : forall a b, is_poly a -> is_poly b -> F (pw_mul a b) = ring_mul (F a) (F b))
  (f g : nat -> list Z) l : (forall c, In c l -> is_poly (f c) /\ is_poly (g c)) -> forall acc, is_poly acc ->
  F (fold_left (fun acc c => ring_add acc (pw_mul (f c) (g c))) l acc)
  = fold_left ring_add (map (fun c => ring_mul (F (f c)) (F (g c))) l) (F acc).
Proof.
  induction l as [|c l IH]; intros Hl acc Ha; [reflexivity|]. cbn [fold_left map].
  destruct (Hl c (or_introl eq_refl)) as [H1 H2].
  rewrite IH; [|intros c' Hc'; apply Hl; right; exact Hc'|apply ring_add_poly].
  rewrite Fadd by (try assumption; apply pw_mul_poly).
  rewrite Fmul by assumption. reflexivity.
Qed.
Lemma map_F_seq (F : list Z -> list Z) v n : length v = n -> map F v = map (fun c => F (nth c v [])) (seq 0 n).
Proof. intros L. rewrite <- (map_seq_nth v n [] L) at 1. rewrite map_map. reflexivity. Qed.
Lemma hat_dot_F (F : list Z -> list Z)
  (Fadd : forall a b, is_poly a -> is_poly b -> F (ring_add a b) = ring_add (F a) (F b))
  (Fmul : forall a b, is_poly a -> is_poly b -> F (pw_mul a b) = ring_mul (F a) (F b))
  (Fz : F ring_zero = ring_zero)
  cols A v r : (forall c, (c < cols)%nat -> is_poly (mat_get cols A r c)) -> length v = cols -> Forall is_poly v ->
  F (hat_dot cols A v r) = ring_dot (map (fun c => F (mat_get cols A r c)) (seq 0 cols)) (map F v).
Proof.
  intros HA L H. unfold hat_dot.
  rewrite (F_fold F Fadd Fmul (fun c => mat_get cols A r c) (fun c => nth c v [])).
  - rewrite Fz. rewrite (map_F_seq F v cols L).
    rewrite (ring_dot_maps (fun c => F (mat_get cols A r c)) (fun c => F (nth c v []))). reflexivity.
  - intros c Hc. apply in_seq in Hc. split; [apply HA; lia|]. rewrite Forall_forall in H. apply H, nth_In. lia.
  - apply ring_zero_poly.
Qed.
Lemma mat_F (F : list Z -> list Z)
  (Fadd : forall a b, is_poly a -> is_poly b -> F (ring_add a b) = ring_add (F a) (F b))
  (Fmul : forall a b, is_poly a -> is_poly b -> F (pw_mul a b) = ring_mul (F a) (F b))
  (Fz : F ring_zero = ring_zero)
  rows cols A v : mat_ok rows cols A -> length v = cols -> Forall is_poly v ->
  map F (map (hat_dot cols A v) (seq 0 rows)) =
  ring_matvec (map (fun r => map (fun c => F (mat_get cols A r c)) (seq 0 cols)) (seq 0 rows)) (map F v).
Proof.
  intros HA L H. unfold ring_matvec. rewrite !map_map. apply map_ext_in. intros r Hr. apply in_seq in Hr.
  rewrite (hat_dot_F F Fadd Fmul Fz).
  - reflexivity.
  - intros c Hc. apply (mat_get_ok rows); [exact HA|lia|exact Hc].
  - exact L.
  - exact H.
Qed.
Lemma mat_mul_intt rows cols d A v : mat_ok rows cols A -> pv_ok cols d v ->
  map unmask (pv_intt (mat_mul rows cols d A v)) = ring_matvec (ring_mat rows cols A) (map intt (map unmask v)).
Proof.
  intros HA Hv. destruct (mat_mul_ok rows cols d A v HA (pv_ok_w _ _ _ Hv)) as [H1 H2].
  rewrite (pv_unmask_intt rows d) by exact H1. rewrite H2.
  apply (mat_F intt intt_ring_add intt_pw_mul intt_zero).
  - exact HA.
  - rewrite map_length. apply Hv.
  - apply Forall_map, Forall_forall. intros x _. apply unmask_poly.
Qed.
