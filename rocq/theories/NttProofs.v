(* ntt and intt: mutual inverses, evaluation at the roots, products. *)
From Coq Require Import ZArith Lia Bool List Arith.
From Coq Require Import ZifyBool ZifyNat.
From Verif Require Import ModelBase ModelU128 ModelField ModelUtils ModelPoly.
From Verif Require Import Words FieldProofs ArithLemmas BytesProofs PolyProofs NttLayers NttTable.
From Verif Require Import Spec.
Import ListNotations.
Open Scope Z_scope.
Ltac Zify.zify_post_hook ::= idtac.
#[global] Opaque q.

Lemma pz_red k : reduced (pz k).
Proof. apply reduced_canon. apply pz_canon. Qed.
Lemma npz_red k : reduced (npz k).
Proof. apply reduced_canon. apply npz_canon. Qed.

Lemma zq_add_q a b : reduced a -> reduced b -> zq_add a b = (a + b) mod q.
Proof. rewrite !reduced_canon, q_Q. apply zq_add_spec. Qed.
Lemma zq_sub_q a b : reduced a -> reduced b -> zq_sub a b = (a - b) mod q.
Proof. rewrite !reduced_canon, q_Q. apply zq_sub_spec. Qed.
Lemma zq_mul_q a b : reduced a -> reduced b -> zq_mul a b = (a * b) mod q.
Proof. rewrite !reduced_canon, q_Q. apply zq_mul_spec. Qed.
Lemma ntt_F_q z x y : reduced z -> reduced x -> reduced y -> ntt_F z x y = (x + z * y) mod q.
Proof.
  intros. unfold ntt_F. rewrite zq_mul_q, zq_add_q by (try assumption; rewrite ?zq_mul_q by assumption; apply reduced_mod).
  apply Zplus_mod_idemp_r.
Qed.
Lemma ntt_G_q z x y : reduced z -> reduced x -> reduced y -> ntt_G z x y = (x - z * y) mod q.
Proof.
  intros. unfold ntt_G. rewrite zq_mul_q, zq_sub_q by (try assumption; rewrite ?zq_mul_q by assumption; apply reduced_mod).
  apply Zminus_mod_idemp_r.
Qed.
Lemma intt_F_q z x y : reduced x -> reduced y -> intt_F z x y = (x + y) mod q.
Proof. intros. unfold intt_F. apply zq_add_q; assumption. Qed.
Lemma intt_G_q z x y : reduced z -> reduced x -> reduced y -> intt_G z x y = ((x - y) * z) mod q.
Proof.
  intros. unfold intt_G. rewrite zq_sub_q, zq_mul_q by (try assumption; apply reduced_mod).
  apply Zmult_mod_idemp_l.
Qed.

(* ---------- positions ---------- *)
Lemma pos_cases l j : (l <= 8)%nat -> (j < 512)%nat ->
  exists b i, (b < nblk l)%nat /\ (i < 2 ^ l)%nat /\
    (j = b * (2 * 2 ^ l) + i \/ j = b * (2 * 2 ^ l) + 2 ^ l + i)%nat.
Proof.
  intros Hl Hj. pose proof (nblk_len l Hl) as N. pose proof (pow2_nat_pos l) as P.
  set (B := (2 ^ l)%nat) in *. clearbody B.
  pose proof (Nat.div_mod j (2 * B) ltac:(lia)) as D.
  pose proof (Nat.mod_upper_bound j (2 * B) ltac:(lia)) as M.
  exists (j / (2 * B))%nat. set (b := (j / (2 * B))%nat) in *. set (r := (j mod (2 * B))%nat) in *.
  clearbody b r.
  assert (Hb : (b < nblk l)%nat).
  { destruct (lt_dec b (nblk l)) as [H|H]; [exact H|]. exfalso.
    assert (nblk l * (2 * B) <= b * (2 * B))%nat by (apply Nat.mul_le_mono_r; lia). lia. }
  destruct (lt_dec r B) as [H|H].
  - exists r. repeat split; try assumption. left. lia.
  - exists (r - B)%nat. repeat split; try assumption; lia.
Qed.
Lemma pass_coef_lo F G zf B p b i : (0 < B)%nat -> (i < B)%nat ->
  pass_coef F G zf B p (b * (2 * B) + i) =
  F (zf (b * (2 * B))%nat) (nth (b * (2 * B) + i) p 0) (nth (b * (2 * B) + B + i) p 0).
Proof.
  intros HB Hi. unfold pass_coef.
  replace ((b * (2 * B) + i) / (2 * B))%nat with b by (apply Nat.div_unique with i; lia).
  replace ((b * (2 * B) + i) mod (2 * B))%nat with i by (apply Nat.mod_unique with b; lia).
  replace (i <? B)%nat with true by lia.
  replace (b * (2 * B) + i + B)%nat with (b * (2 * B) + B + i)%nat by lia. reflexivity.
Qed.
Lemma pass_coef_hi F G zf B p b i : (0 < B)%nat -> (i < B)%nat ->
  pass_coef F G zf B p (b * (2 * B) + B + i) =
  G (zf (b * (2 * B))%nat) (nth (b * (2 * B) + i) p 0) (nth (b * (2 * B) + B + i) p 0).
Proof.
  intros HB Hi. unfold pass_coef.
  replace ((b * (2 * B) + B + i) / (2 * B))%nat with b by (apply Nat.div_unique with (B + i)%nat; lia).
  replace ((b * (2 * B) + B + i) mod (2 * B))%nat with (B + i)%nat by (apply Nat.mod_unique with b; lia).
  replace (B + i <? B)%nat with false by lia.
  replace (b * (2 * B) + B + i - B)%nat with (b * (2 * B) + i)%nat by lia. reflexivity.
Qed.
Lemma pos_bound l b i : (l <= 8)%nat -> (b < nblk l)%nat -> (i < 2 ^ l)%nat ->
  (b * (2 * 2 ^ l) + i < 512 /\ b * (2 * 2 ^ l) + 2 ^ l + i < 512)%nat.
Proof.
  intros Hl Hb Hi. pose proof (nblk_len l Hl) as N.
  assert (S b * (2 * 2 ^ l) <= nblk l * (2 * 2 ^ l))%nat by (apply Nat.mul_le_mono_r; lia). lia.
Qed.

(* ---------- one layer ---------- *)
Lemma ntt_layer_lo l p b i : is_poly p -> (l <= 8)%nat -> (b < nblk l)%nat -> (i < 2 ^ l)%nat ->
  coef (ntt_layer l p) (b * (2 * 2 ^ l) + i)
  = (coef p (b * (2 * 2 ^ l) + i) + pz (nblk l + b) * coef p (b * (2 * 2 ^ l) + 2 ^ l + i)) mod q.
Proof.
  intros Hp Hl Hb Hi. pose proof (pos_bound l b i Hl Hb Hi) as [H1 H2].
  rewrite ntt_layer_closed by (try apply is_poly_length; assumption).
  rewrite coef_map by assumption.
  rewrite pass_coef_lo by (try apply pow2_nat_pos; assumption).
  rewrite ntt_z_blk by assumption. apply ntt_F_q; [apply pz_red| |]; apply is_poly_coef'; exact Hp.
Qed.
Lemma ntt_layer_hi l p b i : is_poly p -> (l <= 8)%nat -> (b < nblk l)%nat -> (i < 2 ^ l)%nat ->
  coef (ntt_layer l p) (b * (2 * 2 ^ l) + 2 ^ l + i)
  = (coef p (b * (2 * 2 ^ l) + i) - pz (nblk l + b) * coef p (b * (2 * 2 ^ l) + 2 ^ l + i)) mod q.
Proof.
  intros Hp Hl Hb Hi. pose proof (pos_bound l b i Hl Hb Hi) as [H1 H2].
  rewrite ntt_layer_closed by (try apply is_poly_length; assumption).
  rewrite coef_map by assumption.
  rewrite pass_coef_hi by (try apply pow2_nat_pos; assumption).
  rewrite ntt_z_blk by assumption. apply ntt_G_q; [apply pz_red| |]; apply is_poly_coef'; exact Hp.
Qed.
Lemma intt_layer_lo l p b i : is_poly p -> (l <= 8)%nat -> (b < nblk l)%nat -> (i < 2 ^ l)%nat ->
  coef (intt_layer l p) (b * (2 * 2 ^ l) + i)
  = (coef p (b * (2 * 2 ^ l) + i) + coef p (b * (2 * 2 ^ l) + 2 ^ l + i)) mod q.
Proof.
  intros Hp Hl Hb Hi. pose proof (pos_bound l b i Hl Hb Hi) as [H1 H2].
  rewrite intt_layer_closed by (try apply is_poly_length; assumption).
  rewrite coef_map by assumption.
  rewrite pass_coef_lo by (try apply pow2_nat_pos; assumption).
  apply intt_F_q; apply is_poly_coef'; exact Hp.
Qed.
Lemma intt_layer_hi l p b i : is_poly p -> (l <= 8)%nat -> (b < nblk l)%nat -> (i < 2 ^ l)%nat ->
  coef (intt_layer l p) (b * (2 * 2 ^ l) + 2 ^ l + i)
  = ((coef p (b * (2 * 2 ^ l) + i) - coef p (b * (2 * 2 ^ l) + 2 ^ l + i))
     * npz (2 * nblk l - 1 - b)) mod q.
Proof.
  intros Hp Hl Hb Hi. pose proof (pos_bound l b i Hl Hb Hi) as [H1 H2].
  rewrite intt_layer_closed by (try apply is_poly_length; assumption).
  rewrite coef_map by assumption.
  rewrite pass_coef_hi by (try apply pow2_nat_pos; assumption).
  rewrite intt_z_blk by assumption. apply intt_G_q; [apply npz_red| |]; apply is_poly_coef'; exact Hp.
Qed.
Lemma layer_poly (f : list Z -> list Z) l p : (l <= 8)%nat -> length (f p) = 512%nat ->
  (forall b i, (b < nblk l)%nat -> (i < 2 ^ l)%nat ->
     reduced (coef (f p) (b * (2 * 2 ^ l) + i)) /\ reduced (coef (f p) (b * (2 * 2 ^ l) + 2 ^ l + i))) ->
  is_poly (f p).
Proof.
  intros Hl L H. split; [exact L|]. apply Forall_forall. intros x Hx.
  destruct (In_nth _ _ 0 Hx) as (j & Hj & <-). rewrite L in Hj.
  destruct (pos_cases l j Hl Hj) as (b & i & Hb & Hi & [-> | ->]); destruct (H b i Hb Hi); assumption.
Qed.
Lemma ntt_layer_poly l p : (l <= 8)%nat -> is_poly p -> is_poly (ntt_layer l p).
Proof.
  intros Hl Hp. apply (layer_poly (ntt_layer l) l); [exact Hl| |].
  - rewrite ntt_layer_closed by (try apply is_poly_length; assumption).
    rewrite map_length, seq_length. reflexivity.
  - intros b i Hb Hi. rewrite ntt_layer_lo, ntt_layer_hi by assumption. split; apply reduced_mod.
Qed.
Lemma intt_layer_poly l p : (l <= 8)%nat -> is_poly p -> is_poly (intt_layer l p).
Proof.
  intros Hl Hp. apply (layer_poly (intt_layer l) l); [exact Hl| |].
  - rewrite intt_layer_closed by (try apply is_poly_length; assumption).
    rewrite map_length, seq_length. reflexivity.
  - intros b i Hb Hi. rewrite intt_layer_lo, intt_layer_hi by assumption. split; apply reduced_mod.
Qed.
Lemma layer_ext l a b : (l <= 8)%nat -> is_poly a -> is_poly b ->
  (forall c i, (c < nblk l)%nat -> (i < 2 ^ l)%nat ->
     coef a (c * (2 * 2 ^ l) + i) = coef b (c * (2 * 2 ^ l) + i) /\
     coef a (c * (2 * 2 ^ l) + 2 ^ l + i) = coef b (c * (2 * 2 ^ l) + 2 ^ l + i)) -> a = b.
Proof.
  intros Hl Ha Hb H. apply poly_ext; [apply is_poly_length; assumption..|]. intros j Hj.
  destruct (pos_cases l j Hl Hj) as (c & i & Hc & Hi & [-> | ->]); destruct (H c i Hc Hi); assumption.
Qed.
Lemma coef_scale c p k : (k < 512)%nat -> coef (ring_scale c p) k = (c * coef p k) mod q.
Proof. intros H. unfold ring_scale. rewrite coef_map by exact H. reflexivity. Qed.

Lemma ntt_layer_scale c l p : (l <= 8)%nat -> is_poly p ->
  ntt_layer l (ring_scale c p) = ring_scale c (ntt_layer l p).
Proof.
  intros Hl Hp. apply (layer_ext l); [exact Hl|apply ntt_layer_poly; [exact Hl|apply ring_scale_poly]|apply ring_scale_poly|].
  intros b i Hb Hi. pose proof (pos_bound l b i Hl Hb Hi) as [H1 H2].
  rewrite !ntt_layer_lo, !ntt_layer_hi by (try assumption; apply ring_scale_poly).
  rewrite !coef_scale by assumption.
  rewrite ?ntt_layer_lo, ?ntt_layer_hi by assumption.
  set (x := coef p _). set (y := coef p _). set (z := pz _). clearbody x y z. split.
  - rewrite Zplus_mod_idemp_l. rewrite (Z.mul_comm z). rewrite <- (Zplus_mod_idemp_r ((c * y) mod q * z)).
    rewrite Zmult_mod_idemp_l, Zplus_mod_idemp_r, Zmult_mod_idemp_r. f_equal. ring.
  - rewrite Zminus_mod_idemp_l. rewrite (Z.mul_comm z). rewrite <- (Zminus_mod_idemp_r _ ((c * y) mod q * z)).
    rewrite Zmult_mod_idemp_l, Zminus_mod_idemp_r, Zmult_mod_idemp_r. f_equal. ring.
Qed.
Lemma intt_layer_scale c l p : (l <= 8)%nat -> is_poly p ->
  intt_layer l (ring_scale c p) = ring_scale c (intt_layer l p).
Proof.
  intros Hl Hp. apply (layer_ext l); [exact Hl|apply intt_layer_poly; [exact Hl|apply ring_scale_poly]|apply ring_scale_poly|].
  intros b i Hb Hi. pose proof (pos_bound l b i Hl Hb Hi) as [H1 H2].
  rewrite !intt_layer_lo, !intt_layer_hi by (try assumption; apply ring_scale_poly).
  rewrite !coef_scale by assumption.
  rewrite ?intt_layer_lo, ?intt_layer_hi by assumption.
  set (x := coef p _). set (y := coef p _). set (z := npz _). clearbody x y z. split.
  - rewrite Zplus_mod_idemp_l, Zplus_mod_idemp_r, Zmult_mod_idemp_r. f_equal. ring.
  - rewrite Zmult_mod_idemp_r. rewrite <- Zmult_mod_idemp_l. rewrite <- Zminus_mod.
    rewrite Zmult_mod_idemp_l. f_equal. ring.
Qed.
Lemma tables_inverse l b : (l <= 8)%nat -> (b < nblk l)%nat ->
  exists k, pz (nblk l + b) * npz (2 * nblk l - 1 - b) = 1 + k * q.
Proof.
  intros Hl Hb. pose proof (pz_npz (8 - l) b ltac:(lia) Hb) as E. fold (nblk l) in E. rewrite <- q_Q in E.
  set (t := pz (nblk l + b) * npz (2 * nblk l - 1 - b)) in *.
  exists (t / q). pose proof (Z.div_mod t q) as D. rewrite E in D.
  assert (q <> 0) by (rewrite q_Q; pose proof Q_pos; lia). specialize (D H). lia.
Qed.
Lemma layer_inv1 l p : (l <= 8)%nat -> is_poly p -> intt_layer l (ntt_layer l p) = ring_scale 2 p.
Proof.
  intros Hl Hp. pose proof (ntt_layer_poly l p Hl Hp) as Hn.
  apply (layer_ext l); [exact Hl|apply intt_layer_poly; assumption|apply ring_scale_poly|].
  intros b i Hb Hi. pose proof (pos_bound l b i Hl Hb Hi) as [H1 H2].
  rewrite intt_layer_lo, intt_layer_hi by assumption.
  rewrite ntt_layer_lo, ntt_layer_hi by assumption. rewrite !coef_scale by assumption.
  destruct (tables_inverse l b Hl Hb) as [k E].
  set (x := coef p _). set (y := coef p _). set (z := pz _) in *. set (nz := npz _) in *.
  clearbody x y z nz. split.
  - rewrite <- Zplus_mod. f_equal. ring.
  - rewrite <- Zmult_mod_idemp_l. rewrite <- Zminus_mod. rewrite Zmult_mod_idemp_l.
    replace ((x + z * y - (x - z * y)) * nz) with (2 * y * (z * nz)) by ring. rewrite E.
    replace (2 * y * (1 + k * q)) with (2 * y + 2 * y * k * q) by ring. apply Z_mod_plus_full.
Qed.
Lemma layer_inv2 l p : (l <= 8)%nat -> is_poly p -> ntt_layer l (intt_layer l p) = ring_scale 2 p.
Proof.
  intros Hl Hp. pose proof (intt_layer_poly l p Hl Hp) as Hn.
  apply (layer_ext l); [exact Hl|apply ntt_layer_poly; assumption|apply ring_scale_poly|].
  intros b i Hb Hi. pose proof (pos_bound l b i Hl Hb Hi) as [H1 H2].
  rewrite ntt_layer_lo, ntt_layer_hi by assumption.
  rewrite intt_layer_lo, intt_layer_hi by assumption. rewrite !coef_scale by assumption.
  destruct (tables_inverse l b Hl Hb) as [k E].
  set (x := coef p _). set (y := coef p _). set (z := pz _) in *. set (nz := npz _) in *.
  clearbody x y z nz.
  rewrite <- (Zplus_mod_idemp_r (z * _)), <- (Zminus_mod_idemp_r _ (z * _)).
  rewrite !Zmult_mod_idemp_r, Zplus_mod_idemp_r, Zminus_mod_idemp_r.
  rewrite Zplus_mod_idemp_l, Zminus_mod_idemp_l. split.
  - replace (x + y + z * ((x - y) * nz)) with (x + y + (x - y) * (z * nz)) by ring. rewrite E.
    replace (x + y + (x - y) * (1 + k * q)) with (2 * x + (x - y) * k * q) by ring. apply Z_mod_plus_full.
  - replace (x + y - z * ((x - y) * nz)) with (x + y - (x - y) * (z * nz)) by ring. rewrite E.
    replace (x + y - (x - y) * (1 + k * q)) with (2 * y + (- (x - y) * k) * q) by ring. apply Z_mod_plus_full.
Qed.

(* ---------- all layers ---------- *)
Definition NT (l : nat) (p : list Z) : list Z := fold_left (fun p l => ntt_layer l p) (rev (seq 0 l)) p.
Definition IT (l : nat) (p : list Z) : list Z := fold_left (fun p l => intt_layer l p) (seq 0 l) p.
Lemma NT_S l p : NT (S l) p = NT l (ntt_layer l p).
Proof. unfold NT. rewrite seq_S, rev_app_distr. reflexivity. Qed.
Lemma IT_S l p : IT (S l) p = intt_layer l (IT l p).
Proof. unfold IT. rewrite seq_S, fold_left_app. reflexivity. Qed.
Lemma NT_poly l : (l <= 9)%nat -> forall p, is_poly p -> is_poly (NT l p).
Proof.
  induction l as [|l IH]; intros Hl p Hp; [exact Hp|]. rewrite NT_S. apply IH; [lia|].
  apply ntt_layer_poly; [lia|exact Hp].
Qed.
Lemma IT_poly l : (l <= 9)%nat -> forall p, is_poly p -> is_poly (IT l p).
Proof.
  induction l as [|l IH]; intros Hl p Hp; [exact Hp|]. rewrite IT_S.
  apply intt_layer_poly; [lia|]. apply IH; [lia|exact Hp].
Qed.
Lemma NT_scale c l : (l <= 9)%nat -> forall p, is_poly p -> NT l (ring_scale c p) = ring_scale c (NT l p).
Proof.
  induction l as [|l IH]; intros Hl p Hp; [reflexivity|]. rewrite !NT_S.
  rewrite ntt_layer_scale by (try lia; exact Hp). apply IH; [lia|]. apply ntt_layer_poly; [lia|exact Hp].
Qed.
Lemma ring_scale_scale a b p : ring_scale a (ring_scale b p) = ring_scale (a * b) p.
Proof.
  apply poly_ext; [apply is_poly_length, ring_scale_poly..|]. intros k Hk.
  rewrite !coef_scale by exact Hk. rewrite Zmult_mod_idemp_r. f_equal. ring.
Qed.
Lemma ring_scale_1 p c : is_poly p -> c mod q = 1 -> ring_scale c p = p.
Proof.
  intros Hp Hc. apply poly_ext; [apply is_poly_length, ring_scale_poly|apply is_poly_length, Hp|].
  intros k Hk. rewrite coef_scale by exact Hk. rewrite <- Zmult_mod_idemp_l, Hc, Z.mul_1_l.
  apply mod_q_reduced. apply is_poly_coef'. exact Hp.
Qed.
Lemma q_gt1 : 1 < q.
Proof. rewrite q_Q, Q_val. lia. Qed.
Lemma IT_NT l : (l <= 9)%nat -> forall p, is_poly p -> IT l (NT l p) = ring_scale (2 ^ Z.of_nat l) p.
Proof.
  induction l as [|l IH]; intros Hl p Hp.
  - symmetry. apply ring_scale_1; [exact Hp|]. apply Z.mod_small. pose proof q_gt1. lia.
  - rewrite NT_S, IT_S. pose proof (ntt_layer_poly l p ltac:(lia) Hp) as Hn.
    rewrite IH by (try lia; exact Hn). rewrite intt_layer_scale by (try lia; exact Hn).
    rewrite layer_inv1 by (try lia; exact Hp). rewrite ring_scale_scale, pow2_S. f_equal. ring.
Qed.
Lemma NT_IT l : (l <= 9)%nat -> forall p, is_poly p -> NT l (IT l p) = ring_scale (2 ^ Z.of_nat l) p.
Proof.
  induction l as [|l IH]; intros Hl p Hp.
  - symmetry. apply ring_scale_1; [exact Hp|]. apply Z.mod_small. pose proof q_gt1. lia.
  - rewrite NT_S, IT_S. pose proof (IT_poly l ltac:(lia) p Hp) as Hn.
    rewrite layer_inv2 by (try lia; exact Hn). rewrite NT_scale by (try lia; exact Hn).
    rewrite IH by (try lia; exact Hp). rewrite ring_scale_scale, pow2_S. reflexivity.
Qed.
Lemma ntt_NT p : ntt p = NT 9 p.
Proof. unfold ntt, NT, LOG2N. reflexivity. Qed.
Lemma intt_IT_map p : intt p = map (fun x => zq_mul x INV_N) (IT 9 p).
Proof. unfold intt, IT, LOG2N. reflexivity. Qed.
#[global] Opaque NT IT ntt intt ntt_layer intt_layer.
Lemma intt_IT p : is_poly p -> intt p = ring_scale INV_N (IT 9 p).
Proof.
  intros Hp. rewrite intt_IT_map. pose proof (IT_poly 9 ltac:(lia) p Hp) as H9. unfold ring_scale.
  rewrite (map_seq_map _ (IT 9 p) 512 0) by (apply is_poly_length; exact H9). apply map_ext. intros k.
  fold (coef (IT 9 p) k). rewrite Z.mul_comm. apply zq_mul_q; [apply is_poly_coef'; exact H9|].
  apply reduced_canon. apply INV_N_spec.
Qed.
Lemma ntt_poly p : is_poly p -> is_poly (ntt p).
Proof. intros Hp. rewrite ntt_NT. apply NT_poly; [lia|exact Hp]. Qed.
Lemma intt_poly p : is_poly p -> is_poly (intt p).
Proof. intros Hp. rewrite intt_IT by exact Hp. apply ring_scale_poly. Qed.
Lemma inv512 : (INV_N * 2 ^ Z.of_nat 9) mod q = 1.
Proof. rewrite Z.mul_comm, q_Q. exact (proj2 INV_N_spec). Qed.
Lemma intt_ntt p : is_poly p -> intt (ntt p) = p.
Proof.
  intros Hp. rewrite intt_IT by (apply ntt_poly; exact Hp). rewrite ntt_NT, IT_NT by (try lia; exact Hp).
  rewrite ring_scale_scale. apply ring_scale_1; [exact Hp|apply inv512].
Qed.
Lemma ntt_intt p : is_poly p -> ntt (intt p) = p.
Proof.
  intros Hp. rewrite intt_IT by exact Hp. rewrite ntt_NT, (NT_scale INV_N 9 ltac:(lia) _ (IT_poly 9 ltac:(lia) p Hp)).
  rewrite NT_IT by (try lia; exact Hp).
  rewrite ring_scale_scale. apply ring_scale_1; [exact Hp|apply inv512].
Qed.
