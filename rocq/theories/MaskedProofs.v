(* Masked polynomials: zero encodings, refresh, decoding, homomorphic operations. *)
From Coq Require Import ZArith Lia Bool List Arith.
From Coq Require Import ZifyBool ZifyNat.
From Verif Require Import ModelBase ModelU128 ModelField ModelUtils ModelPoly ModelVec.
From Verif Require Import Spec.
From Verif Require Import Words FieldProofs ArithLemmas BytesProofs PolyProofs NttLayers NttProofs Cong NttEval NttBounds.
Import ListNotations.
Open Scope Z_scope.
Ltac Zify.zify_post_hook ::= idtac.

(* ---------- weakest precondition for [res]: no UB, result satisfies P ---------- *)
Definition wp {A} (r : res A) (P : A -> Prop) : Prop :=
  match r with Ok a => P a | UB => False | OutOfFuel => True end.
Lemma wp_bind {A B} (m : res A) (f : A -> res B) P :
  wp m (fun a => wp (f a) P) -> wp (bind m f) P.
Proof. destruct m; exact (fun H => H). Qed.
Lemma wp_mono {A} (m : res A) (P R : A -> Prop) : wp m P -> (forall a, P a -> R a) -> wp m R.
Proof. destruct m; cbn [wp]; auto. Qed.
Lemma wp_Ok {A} (m : res A) P a : wp m P -> m = Ok a -> P a.
Proof. intros H ->. exact H. Qed.
Lemma wp_foldM {S A} (I : S -> Prop) (f : S -> A -> res S) l : forall s, I s ->
  (forall s a, In a l -> I s -> wp (f s a) I) -> wp (foldM f l s) I.
Proof.
  induction l as [|a l IH]; intros s Hs H; [exact Hs|]. cbn [foldM]. apply wp_bind.
  apply (wp_mono _ I); [apply H; [left; reflexivity|exact Hs]|].
  intros s' Hs'. apply IH; [exact Hs'|]. intros s'' a' Ha. apply H. right. exact Ha.
Qed.
(* indexed variant: the invariant depends on the number of processed elements *)
Lemma wp_foldM_seq {St} (I : nat -> St -> Prop) (f : St -> nat -> res St) n : forall b s, I b s ->
  (forall s i, (b <= i < b + n)%nat -> I i s -> wp (f s i) (I (i + 1)%nat)) ->
  wp (foldM f (seq b n) s) (I (b + n)%nat).
Proof.
  induction n as [|n IH]; intros b s Hs H.
  - cbn. rewrite Nat.add_0_r. exact Hs.
  - cbn [seq foldM]. apply wp_bind. apply (wp_mono _ (I (b + 1)%nat)); [apply H; [lia|exact Hs]|].
    intros s' Hs'. replace (b + S n)%nat with (S b + n)%nat by lia. apply IH.
    + replace (S b) with (b + 1)%nat by lia. exact Hs'.
    + intros s'' i Hi. apply H. lia.
Qed.

(* ---------- sums of shares ---------- *)
Definition usum (k : nat) (a : list (list Z)) : Z := fold_right Z.add 0 (map (fun s => coef s k) a).
Lemma usum_cons k x a : usum k (x :: a) = coef x k + usum k a.
Proof. reflexivity. Qed.
Lemma usum_app k a b : usum k (a ++ b) = usum k a + usum k b.
Proof. induction a as [|x a IH]; [reflexivity|]. cbn [app]. rewrite !usum_cons, IH. ring. Qed.
Lemma unmask_usum a : unmask a = map (fun k => usum k a mod q) (seq 0 512).
Proof. reflexivity. Qed.
Lemma unmask_poly a : is_poly (unmask a).
Proof. rewrite unmask_usum. apply (is_poly_map (fun k => usum k a)). Qed.
Lemma coef_unmask a k : (k < 512)%nat -> coef (unmask a) k = usum k a mod q.
Proof. intros H. rewrite unmask_usum. apply coef_map. exact H. Qed.
Lemma unmask_ext a b : (forall k, (k < 512)%nat -> usum k a == usum k b) -> unmask a = unmask b.
Proof.
  intros H. apply poly_ext; try apply is_poly_length, unmask_poly.
  intros k Hk. rewrite !coef_unmask by exact Hk. exact (H k Hk).
Qed.
Lemma usum_upd k i v a : (i < length a)%nat -> usum k (upd i v a) = usum k a - coef (nth i a []) k + coef v k.
Proof.
  revert i. induction a as [|x a IH]; intros [|i] H; cbn [length] in H; try lia; cbn [upd nth]; rewrite !usum_cons.
  - ring.
  - rewrite IH by lia. ring.
Qed.
Lemma usum_map2 (f : list Z -> list Z -> list Z) (P R : list Z -> Prop) k a b :
  (forall x y, P x -> R y -> coef (f x y) k == coef x k + coef y k) ->
  length a = length b -> Forall P a -> Forall R b ->
  usum k (map2 f a b) == usum k a + usum k b.
Proof.
  intros H. revert b. induction a as [|x a IH]; intros [|y b] L Fa Fb; cbn [length] in L; try lia; [reflexivity|].
  inversion Fa; inversion Fb; subst. cbn [map2]. rewrite !usum_cons. rewrite H, IH by (try assumption; lia).
  apply cg_refl'. ring.
Qed.
Lemma usum_repeat k n z : (forall k, coef z k = 0) -> usum k (repeat z n) = 0.
Proof. intros H. induction n as [|n IH]; [reflexivity|]. cbn [repeat]. rewrite usum_cons, IH, H. reflexivity. Qed.

(* ---------- 49-bit polynomials ---------- *)
Definition wpoly (p : list Z) : Prop := length p = 512%nat /\ Forall lt49 p.
Lemma is_poly_wpoly p : is_poly p -> wpoly p.
Proof.
  intros [L F]. split; [exact L|]. apply (Forall_impl lt49) in F; [exact F|].
  intros x Hx. apply canon_lt49. rewrite <- reduced_canon. exact Hx.
Qed.
Lemma lt49_0 : lt49 0. Proof. split; [lia|reflexivity]. Qed.
Lemma wpoly_coef p k : wpoly p -> lt49 (coef p k).
Proof. intros [_ F]. unfold coef. apply Forall_nth_d; [exact F|apply lt49_0]. Qed.
Lemma poly_canon_coef p k : is_poly p -> canon (coef p k).
Proof. apply is_poly_coef. Qed.

Lemma coef_map2 f a b k : length a = 512%nat -> length b = 512%nat -> (k < 512)%nat ->
  coef (map2 f a b) k = f (coef a k) (coef b k).
Proof. intros La Lb Hk. unfold coef. apply map2_nth; lia. Qed.
Lemma poly_add_w a b : wpoly a -> is_poly b -> wpoly (poly_add a b).
Proof.
  intros Ha Hb. split.
  - unfold poly_add. rewrite map2_length, (proj1 Ha), (proj1 Hb). reflexivity.
  - unfold poly_add. apply (map2_Forall zq_add lt49 canon).
    + intros x y Hx Hy. apply zq_add_49; assumption.
    + apply Ha.
    + destruct Hb as [_ F]. apply (Forall_impl canon) in F; [exact F|]. intros x. apply reduced_canon.
Qed.
Lemma coef_poly_add a b k : wpoly a -> is_poly b -> coef (poly_add a b) k == coef a k + coef b k.
Proof.
  intros Ha Hb. destruct (lt_dec k 512) as [H|H].
  - unfold poly_add. rewrite coef_map2 by (try exact H; try apply Ha; apply Hb).
    unfold cg. rewrite q_Q. apply zq_add_49; [apply wpoly_coef, Ha|apply is_poly_coef, Hb].
  - unfold coef. rewrite !nth_overflow; [reflexivity|rewrite (proj1 Hb); lia|rewrite (proj1 Ha); lia|].
    rewrite (proj1 (poly_add_w a b Ha Hb)). lia.
Qed.
Lemma poly_sub_w a b : wpoly a -> is_poly b -> wpoly (poly_sub a b).
Proof.
  intros Ha Hb. split.
  - unfold poly_sub. rewrite map2_length, (proj1 Ha), (proj1 Hb). reflexivity.
  - unfold poly_sub. apply (map2_Forall zq_sub lt49 canon).
    + intros x y Hx Hy. apply zq_sub_49; assumption.
    + apply Ha.
    + destruct Hb as [_ F]. apply (Forall_impl canon) in F; [exact F|]. intros x. apply reduced_canon.
Qed.
Lemma coef_poly_sub a b k : wpoly a -> is_poly b -> coef (poly_sub a b) k == coef a k - coef b k.
Proof.
  intros Ha Hb. destruct (lt_dec k 512) as [H|H].
  - unfold poly_sub. rewrite coef_map2 by (try exact H; try apply Ha; apply Hb).
    unfold cg. rewrite q_Q. apply zq_sub_49; [apply wpoly_coef, Ha|apply is_poly_coef, Hb].
  - unfold coef. rewrite !nth_overflow; [reflexivity|rewrite (proj1 Hb); lia|rewrite (proj1 Ha); lia|].
    rewrite (proj1 (poly_sub_w a b Ha Hb)). lia.
Qed.
(* adding / subtracting reduced polynomials gives reduced polynomials *)
Lemma poly_add_c a b : is_poly a -> is_poly b -> is_poly (poly_add a b).
Proof. intros Ha Hb. rewrite poly_add_ring by assumption. apply ring_add_poly. Qed.
Lemma poly_sub_c a b : is_poly a -> is_poly b -> is_poly (poly_sub a b).
Proof. intros Ha Hb. rewrite poly_sub_ring by assumption. apply ring_sub_poly. Qed.

(* masked polynomials with d shares, all reduced / all 49-bit *)
Definition mp_ok (d : nat) (a : list (list Z)) : Prop := length a = d /\ Forall is_poly a.
Definition mp_w (d : nat) (a : list (list Z)) : Prop := length a = d /\ Forall wpoly a.
Lemma mp_ok_w d a : mp_ok d a -> mp_w d a.
Proof. intros [L F]. split; [exact L|]. apply (Forall_impl _ is_poly_wpoly F). Qed.
Lemma mp_ok_nth d a i : mp_ok d a -> (i < d)%nat -> is_poly (nth i a []).
Proof. intros [L F] Hi. rewrite Forall_forall in F. apply F, nth_In. lia. Qed.
Lemma Forall_upd {A} (P : A -> Prop) i v a : Forall P a -> P v -> Forall P (upd i v a).
Proof.
  intros F Hv. revert i. induction F as [|x a Hx F IH]; intros [|i]; cbn [upd]; constructor; try assumption. apply IH.
Qed.
Lemma mp_ok_upd d a i v : mp_ok d a -> is_poly v -> mp_ok d (upd i v a).
Proof. intros [L F] Hv. split; [rewrite upd_length; exact L|apply Forall_upd; assumption]. Qed.

(* ---------- sample_polynomial ---------- *)
Lemma sample_loop_poly O fuel d idx : forall m acc, (length acc <= 512)%nat -> Forall reduced acc ->
  wp (sample_polynomial_loop O fuel d idx m acc) (fun r => is_poly (fst r)).
Proof.
  induction fuel as [|f IH]; intros m acc L F; cbn [sample_polynomial_loop]; change PN with 512%nat.
  - destruct (512 <=? length acc)%nat eqn:E; [|exact I]. split; [cbn [fst]; lia|exact F].
  - destruct (512 <=? length acc)%nat eqn:E; [split; [cbn [fst]; lia|exact F]|].
    destruct (mrng_get O d idx m) as [v m'].
    destruct (Z.land v MASK49 <? Q) eqn:E2; [|apply IH; assumption].
    apply IH; [rewrite app_length; cbn [length]; lia|].
    apply Forall_app. split; [exact F|]. constructor; [|constructor].
    apply reduced_canon. split; [|apply Z.ltb_lt, E2]. apply Z.land_nonneg. right. vm_compute. congruence.
Qed.
Lemma sample_polynomial_poly O fuel d idx m :
  wp (sample_polynomial O fuel d idx m) (fun r => is_poly (fst r)).
Proof.
  unfold sample_polynomial. destruct (d - 1 <=? idx)%nat.
  - cbn [wp fst]. rewrite poly_zero_eq. apply ring_zero_poly.
  - apply sample_loop_poly; [cbn; lia|constructor].
Qed.

(* ---------- zero encoding ---------- *)
(* invariant: d reduced shares whose sum is zero *)
Definition zenc_ok (d : nat) (a : list (list Z)) : Prop :=
  mp_ok d a /\ forall k, usum k a == 0.
Lemma zenc_step_ok O fuel d off st sidx : zenc_ok d (fst st) -> (0 < off)%nat -> (sidx + off < d)%nat ->
  wp (zenc_step O fuel d off st sidx) (fun st => zenc_ok d (fst st)).
Proof.
  destruct st as [mp m]. cbn [fst]. intros [Hok Hs] Ho Hi. unfold zenc_step. apply wp_bind.
  apply (wp_mono _ _ _ (sample_polynomial_poly O fuel d sidx m)). intros [r m'] Hr. cbn [fst] in Hr.
  pose proof (proj1 Hok) as L. unfold poly in *.
  replace (sidx + off <? length mp)%nat with true by lia. cbn [wp fst].
  assert (N1 : is_poly (nth sidx mp [])) by (apply (mp_ok_nth d); [exact Hok|lia]).
  assert (N2 : is_poly (nth (sidx + off) mp [])) by (apply (mp_ok_nth d); [exact Hok|lia]).
  rewrite upd_nth_neq by lia.
  split.
  - apply mp_ok_upd; [apply mp_ok_upd; [exact Hok|]|]; [apply poly_add_c|apply poly_sub_c]; assumption.
  - intros k. rewrite usum_upd by (rewrite upd_length; lia). rewrite usum_upd by lia.
    rewrite upd_nth_neq by lia.
    rewrite coef_poly_add, coef_poly_sub by (try assumption; apply is_poly_wpoly; assumption).
    rewrite Hs. apply cg_refl'. ring.
Qed.
Definition pow2 (d : nat) : Prop := exists e, d = (2 ^ e)%nat.
Lemma range_step_in n step i : (0 < step)%nat -> (exists c, n = c * step)%nat -> In i (range_step n step) ->
  exists b, (i = b * step)%nat /\ (i + step <= n)%nat.
Proof.
  intros Hs [c ->] Hi. unfold range_step in Hi. apply in_map_iff in Hi. destruct Hi as (b & <- & Hb).
  apply in_seq in Hb. exists b. split; [reflexivity|].
  assert (E : ((c * step + step - 1) / step = c)%nat) by (symmetry; apply Nat.div_unique with (step - 1)%nat; lia).
  rewrite E in Hb. assert (b + 1 <= c)%nat by lia.
  replace (b * step + step)%nat with ((b + 1) * step)%nat by lia. apply Nat.mul_le_mono_r. lia.
Qed.
Lemma zenc_while_ok O fuel d : forall n e j st, d = (2 ^ e)%nat -> (e <= j + n)%nat -> zenc_ok d (fst st) ->
  wp (zenc_while O fuel n d (2 ^ j)%nat st) (fun st => zenc_ok d (fst st)).
Proof.
  induction n as [|n IH]; intros e j st Hd Hn Hst; cbn [zenc_while].
  - destruct (d <=? 2 ^ j)%nat eqn:E; [exact Hst|]. exact I.
  - destruct (d <=? 2 ^ j)%nat eqn:E; [exact Hst|]. apply wp_bind.
    assert (Hje : (j < e)%nat).
    { destruct (le_lt_dec e j) as [H|H]; [|exact H]. exfalso.
      assert (2 ^ e <= 2 ^ j)%nat by (apply Nat.pow_le_mono_r; lia). lia. }
    pose proof (pow2_nat_pos j) as PJ.
    apply (wp_mono _ (fun st => zenc_ok d (fst st))).
    + apply wp_foldM; [exact Hst|]. intros s i Hi Hs.
      destruct (range_step_in d (2 * 2 ^ j) i) as (b & _ & Hle); [lia| |exact Hi|].
      * exists (2 ^ (e - S j))%nat. rewrite Hd. change (2 * 2 ^ j)%nat with (2 ^ S j)%nat.
        rewrite <- Nat.pow_add_r. f_equal. lia.
      * apply wp_foldM; [exact Hs|]. intros s' sidx Hsi Hs'. apply in_seq in Hsi.
        apply zenc_step_ok; [exact Hs'|lia|lia].
    + intros st' Hst'. change (2 * 2 ^ j)%nat with (2 ^ S j)%nat. apply (IH e); [exact Hd|lia|exact Hst'].
Qed.
Lemma zero_shares_ok d : zenc_ok d (repeat (poly_fill 0) d).
Proof.
  change (poly_fill 0) with poly_zero. rewrite poly_zero_eq. split.
  - split; [apply repeat_length|]. apply Forall_forall. intros x Hx. apply repeat_spec in Hx. subst. apply ring_zero_poly.
  - intros k. rewrite usum_repeat by apply coef_ring_zero. reflexivity.
Qed.
Lemma mp_zero_encoding_ok O fuel d m : pow2 d ->
  wp (mp_zero_encoding O fuel d m) (fun r => zenc_ok d (fst r)).
Proof.
  intros [e Hd]. unfold mp_zero_encoding.
  destruct (1 <? d)%nat eqn:E; [|apply zero_shares_ok].
  destruct e as [|e]; [cbn in Hd; lia|]. apply wp_bind.
  apply (wp_mono _ (fun st => zenc_ok d (fst st))).
  - apply wp_foldM; [apply zero_shares_ok|]. intros s i Hi Hs.
    destruct (range_step_in d 2 i) as (b & _ & Hle); [lia| |exact Hi|].
    + exists (2 ^ e)%nat. rewrite Hd. cbn [Nat.pow]. lia.
    + apply zenc_step_ok; [exact Hs|lia|lia].
  - intros st Hst. change 2%nat with (2 ^ 1)%nat at 1. apply (zenc_while_ok O fuel d d (S e) 1); [exact Hd| |exact Hst].
    rewrite Hd. assert (e < 2 ^ e)%nat by (apply Nat.pow_gt_lin_r; lia). cbn [Nat.pow]. lia.
Qed.

(* ---------- refresh ---------- *)
Lemma map2_mp d a z : mp_w d a -> mp_ok d z -> mp_w d (mp_add a z) /\
  (forall k, usum k (mp_add a z) == usum k a + usum k z).
Proof.
  intros [La Fa] [Lz Fz]. split.
  - split.
    + unfold mp_add. rewrite map2_length. unfold poly in *. rewrite La, Lz. apply Nat.min_id.
    + unfold mp_add. apply (map2_Forall poly_add wpoly is_poly); try assumption. apply poly_add_w.
  - intros k. unfold mp_add. apply (usum_map2 poly_add wpoly is_poly); try assumption; [|unfold poly in *; lia].
    intros x y Hx Hy. apply coef_poly_add; assumption.
Qed.
Lemma mp_add_ok d a z : mp_ok d a -> mp_ok d z -> mp_ok d (mp_add a z).
Proof.
  intros [La Fa] [Lz Fz]. split.
  - unfold mp_add. rewrite map2_length. unfold poly in *. rewrite La, Lz. apply Nat.min_id.
  - unfold mp_add. apply (map2_Forall poly_add is_poly is_poly); try assumption. apply poly_add_c.
Qed.
Lemma mp_refresh_w O fuel d a m : pow2 d -> mp_w d a ->
  wp (mp_refresh O fuel d a m) (fun r => mp_w d (fst r) /\ forall k, usum k (fst r) == usum k a).
Proof.
  intros Hd Ha. unfold mp_refresh. apply wp_bind.
  apply (wp_mono _ _ _ (mp_zero_encoding_ok O fuel d m Hd)). intros [z m'] [Hz Hs]. cbn [fst] in *. cbn [wp fst].
  destruct (map2_mp d a z Ha Hz) as [H1 H2]. split; [exact H1|]. intros k. rewrite H2, Hs.
  apply cg_refl'. ring.
Qed.
Lemma mp_refresh_ok O fuel d a m : pow2 d -> mp_ok d a ->
  wp (mp_refresh O fuel d a m) (fun r => mp_ok d (fst r) /\ forall k, usum k (fst r) == usum k a).
Proof.
  intros Hd Ha. unfold mp_refresh. apply wp_bind.
  apply (wp_mono _ _ _ (mp_zero_encoding_ok O fuel d m Hd)). intros [z m'] [Hz Hs]. cbn [fst] in *. cbn [wp fst].
  destruct (map2_mp d a z (mp_ok_w d a Ha) Hz) as [H1 H2]. split; [apply mp_add_ok; assumption|].
  intros k. rewrite H2, Hs. apply cg_refl'. ring.
Qed.
(* one share: refresh is the identity on reduced shares *)
Lemma poly_add_zero p : is_poly p -> poly_add p poly_zero = p.
Proof.
  intros Hp. rewrite poly_zero_eq, poly_add_ring by (try assumption; apply ring_zero_poly).
  apply poly_ext; [apply is_poly_length, ring_add_poly|apply Hp|].
  intros k Hk. rewrite coef_add by exact Hk. rewrite coef_ring_zero, Z.add_0_r.
  apply mod_q_reduced. apply is_poly_coef'. exact Hp.
Qed.
Lemma mp_refresh_1 O fuel a m : mp_ok 1 a -> mp_refresh O fuel 1 a m = Ok (a, m).
Proof.
  intros [L F]. unfold mp_refresh, mp_zero_encoding. cbn [Nat.ltb Nat.leb bind repeat].
  destruct a as [|p [|p' a]]; cbn [length] in L; try lia. inversion F; subst.
  unfold mp_add. cbn [map2]. change (poly_fill 0) with poly_zero. rewrite poly_add_zero by assumption. reflexivity.
Qed.

(* ---------- vectors ---------- *)
Definition pv_ok (k d : nat) (v : list (list (list Z))) : Prop := length v = k /\ Forall (mp_ok d) v.
Definition pv_w (k d : nat) (v : list (list (list Z))) : Prop := length v = k /\ Forall (mp_w d) v.
Lemma pv_ok_w k d v : pv_ok k d v -> pv_w k d v.
Proof. intros [L F]. split; [exact L|]. apply (Forall_impl _ (mp_ok_w d) F). Qed.
Lemma pv_refresh_gen (P : list (list Z) -> Prop) O fuel d v :
  (forall a m, P a -> wp (mp_refresh O fuel d a m) (fun r => P (fst r) /\ forall k, usum k (fst r) == usum k a)) ->
  Forall P v -> forall m,
  wp (pv_refresh O fuel d v m) (fun r => Forall P (fst r) /\ map unmask (fst r) = map unmask v).
Proof.
  intros HP. unfold pv_refresh.
  assert (G : forall v acc m, Forall P v -> Forall P acc ->
    wp (foldM (fun '(acc, m) row => '(z, m) <- mp_refresh O fuel d row m ;; Ok (acc ++ [z], m)) v (acc, m))
       (fun r => Forall P (fst r) /\ map unmask (fst r) = map unmask acc ++ map unmask v)).
  { clear v. induction v as [|row v IH]; intros acc m Fv Fa.
    - cbn [foldM wp fst map]. rewrite app_nil_r. split; [exact Fa|reflexivity].
    - inversion Fv; subst. cbn [foldM]. apply wp_bind. apply wp_bind.
      apply (wp_mono _ _ _ (HP row m H1)). intros [z m'] [Hz Hs]. cbn [fst] in *. cbn [wp].
      apply (wp_mono _ _ _ (IH (acc ++ [z]) m' H2 ltac:(apply Forall_app; split; [exact Fa|constructor; [exact Hz|constructor]]))).
      intros [r m''] [H3 H4]. cbn [fst] in *. split; [exact H3|].
      rewrite H4, map_app, <- app_assoc. cbn [map app]. rewrite (unmask_ext z row) by (intros; apply Hs). reflexivity. }
  intros Fv m. apply (wp_mono _ _ _ (G v [] m Fv ltac:(constructor))). intros r Hr. exact Hr.
Qed.
Lemma map_len {A B} (f g : A -> B) (u v : list A) : map f u = map f v -> length u = length v.
Proof. intros H. apply (f_equal (@length B)) in H. rewrite !map_length in H. exact H. Qed.
Lemma pv_refresh_w O fuel k d v m : pow2 d -> pv_w k d v ->
  wp (pv_refresh O fuel d v m) (fun r => pv_w k d (fst r) /\ map unmask (fst r) = map unmask v).
Proof.
  intros Hd [L F]. apply (wp_mono _ _ _ (pv_refresh_gen (mp_w d) O fuel d v (fun a m => mp_refresh_w O fuel d a m Hd) F m)).
  intros r [H1 H2]. split; [split; [|exact H1]|exact H2]. rewrite <- L. apply (map_len unmask unmask). exact H2.
Qed.
Lemma pv_refresh_ok O fuel k d v m : pow2 d -> pv_ok k d v ->
  wp (pv_refresh O fuel d v m) (fun r => pv_ok k d (fst r) /\ map unmask (fst r) = map unmask v).
Proof.
  intros Hd [L F]. apply (wp_mono _ _ _ (pv_refresh_gen (mp_ok d) O fuel d v (fun a m => mp_refresh_ok O fuel d a m Hd) F m)).
  intros r [H1 H2]. split; [split; [|exact H1]|exact H2]. rewrite <- L. apply (map_len unmask unmask). exact H2.
Qed.
Lemma pv_refresh_1 O fuel k v m : pv_ok k 1 v -> pv_refresh O fuel 1 v m = Ok (v, m).
Proof.
  intros [_ F]. unfold pv_refresh.
  assert (G : forall acc, foldM (fun '(acc, m) row => '(z, m) <- mp_refresh O fuel 1 row m ;; Ok (acc ++ [z], m)) v (acc, m) = Ok (acc ++ v, m)).
  { clear k. induction F as [|row v Hr F IH]; intros acc; [cbn; rewrite app_nil_r; reflexivity|].
    cbn [foldM]. rewrite mp_refresh_1 by exact Hr. cbn [bind]. rewrite IH, <- app_assoc. reflexivity. }
  apply G.
Qed.
Lemma unmask_zero a : (forall k, usum k a == 0) -> unmask a = ring_zero.
Proof.
  intros H. apply poly_ext; [apply is_poly_length, unmask_poly|apply is_poly_length, ring_zero_poly|].
  intros k Hk. rewrite coef_unmask by exact Hk. rewrite (H k : usum k a mod q = 0 mod q), coef_ring_zero. reflexivity.
Qed.
Lemma pv_zero_encoding_ok O fuel rows d m : pow2 d ->
  wp (pv_zero_encoding O fuel rows d m) (fun r => pv_ok rows d (fst r) /\ map unmask (fst r) = repeat ring_zero rows).
Proof.
  intros Hd. unfold pv_zero_encoding.
  apply (wp_foldM_seq (fun n (r : pvec * mrng) => pv_ok n d (fst r) /\ map unmask (fst r) = repeat ring_zero n)
          (fun '(v, m) _ => '(z, m) <- mp_zero_encoding O fuel d m ;; Ok (v ++ [z], m)) rows 0).
  - split; [split; [reflexivity|constructor]|reflexivity].
  - intros [v m'] i Hi [[L F] E]. cbn [fst] in *. apply wp_bind.
    apply (wp_mono _ _ _ (mp_zero_encoding_ok O fuel d m' Hd)). intros [z m''] [Hz Hs]. cbn [fst] in *. cbn [wp fst].
    split; [split|].
    + rewrite app_length. cbn [length]. unfold mpoly, poly in *. lia.
    + apply Forall_app. split; [exact F|constructor; [exact Hz|constructor]].
    + rewrite map_app. cbn [map]. rewrite unmask_zero by exact Hs. rewrite repeat_app. cbn [repeat].
      f_equal. exact E.
Qed.

(* ---------- decoding ---------- *)
Lemma fold_add_gen a : Forall is_poly a -> forall acc, is_poly acc ->
  is_poly (fold_left poly_add a acc) /\ forall k, coef (fold_left poly_add a acc) k == coef acc k + usum k a.
Proof.
  induction a as [|x a IH]; intros F acc Ha; cbn [fold_left].
  - split; [exact Ha|]. intros k. unfold usum. cbn. apply cg_refl'. ring.
  - inversion F; subst. destruct (IH H2 (poly_add acc x) (poly_add_c _ _ Ha H1)) as [A B]. split; [exact A|].
    intros k. rewrite B, usum_cons. rewrite coef_poly_add by (try assumption; apply is_poly_wpoly; assumption).
    apply cg_refl'. ring.
Qed.
Lemma mp_decode_unmask d a : mp_ok d a -> mp_decode a = unmask a.
Proof.
  intros [_ F]. unfold mp_decode. rewrite poly_zero_eq.
  destruct (fold_add_gen a F ring_zero ring_zero_poly) as [A B].
  apply poly_ext; [apply A|apply is_poly_length, unmask_poly|].
  intros k Hk. rewrite coef_unmask by exact Hk. apply cg_reduced; [apply is_poly_coef', A|apply reduced_mod|].
  rewrite B, coef_ring_zero, cg_mod. apply cg_refl'. ring.
Qed.
Lemma pv_decode_unmask k d v : pv_ok k d v -> pv_decode v = map (fun row => [unmask row]) v.
Proof.
  intros [_ F]. unfold pv_decode. apply map_ext_in. intros row Hr. rewrite Forall_forall in F.
  rewrite (mp_decode_unmask d) by (apply F, Hr). reflexivity.
Qed.
Lemma unmask_single p : is_poly p -> unmask [p] = p.
Proof.
  intros Hp. apply poly_ext; [apply is_poly_length, unmask_poly|apply Hp|].
  intros k Hk. rewrite coef_unmask by exact Hk. unfold usum. cbn. rewrite Z.add_0_r.
  apply mod_q_reduced. apply is_poly_coef', Hp.
Qed.
