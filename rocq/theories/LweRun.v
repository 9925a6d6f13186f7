(* Key generation and the commitment step of signing compute the masked LWE sample of SpecSchemeProbe.v. *)
From Coq Require Import ZArith Lia Bool List Arith.
From Coq Require Import ZifyBool ZifyNat.
From Verif Require Import ModelBase ModelU128 ModelField ModelUtils ModelPoly ModelVec ModelSerial ModelScheme.
From Verif Require Import Spec SpecScheme SpecMask SpecProbe SpecNoiseProbe SpecSchemeProbe.
From Verif Require Import Words FieldProofs ArithLemmas PolyProofs NttLayers NttProofs Cong NttEval MaskedProofs LinProofs LatticeProofs PolyLemmas SigEnc NoiseProofs MaskUniform MaskProg MoreProofs ProbeCore ProbeProofs ProbeProg ProbeFull NoiseProbe NoiseFull NoiseRun ProbeLin LweProbe LweAdd.
Import ListNotations.
Open Scope Z_scope.
Ltac Zify.zify_post_hook ::= idtac.

Lemma drawn_rows_app O fuel e : forall r1 r2 g g1 g2, drawn_rows O fuel e g r1 g1 -> drawn_rows O fuel e g1 r2 g2 -> drawn_rows O fuel e g (r1 ++ r2) g2.
Proof.
  induction r1 as [|r r1 IH]; intros r2 g g1 g2 H1 H2; cbn [app drawn_rows] in *; [subst g1; exact H2|]. destruct H1 as (ga & Ha & H1). exists ga. split; [exact Ha|]. eapply IH; eassumption.
Qed.
Lemma drawn_rows_chain O fuel e (ms : nat -> mrng) (rss : nat -> list (list Z)) : forall n,
  (forall i, (i < n)%nat -> drawn O fuel (2 ^ e) (mask_pairs e) (ms i) (rss i) (ms (S i))) -> drawn_rows O fuel e (ms 0%nat) (map rss (seq 0 n)) (ms n).
Proof.
  induction n as [|n IH]; intros H; [reflexivity|]. rewrite seq_S, map_app. eapply drawn_rows_app; [apply IH; intros i Hi; apply H; lia|]. cbn [Nat.add map drawn_rows]. exists (ms (S n)). split; [apply H; lia|reflexivity].
Qed.
Lemma zenc_masks O fuel e g z g' : mp_zero_encoding O fuel (2 ^ e) g = Ok (z, g') ->
  exists rs, mask_tuple e rs /\ drawn O fuel (2 ^ e) (mask_pairs e) g rs g' /\ z = add_masks e (repeat ring_zero (2 ^ e)) rs.
Proof.
  intros E. pose proof (wp_Ok _ _ _ (mp_zero_encoding_ok O fuel (2 ^ e) g (ex_intro _ e eq_refl)) E) as [Hz _]. cbn [fst] in Hz.
  assert (ER : mp_refresh O fuel (2 ^ e) (zshares e) g = Ok (mp_add (zshares e) z, g')) by (unfold mp_refresh; rewrite E; reflexivity).
  destruct (refresh_masks O fuel e (zshares e) g _ g' (zshares_masked e) ER) as (rs & H1 & H2 & H3). exists rs. split; [exact H1|]. split; [exact H2|].
  etransitivity; [|exact H3]. symmetry. clear - Hz. destruct Hz as [L F]. unfold mpoly, poly in *. unfold mp_add, zshares. rewrite <- L. clear L. induction F as [|y z Hy F IH]; [reflexivity|].
  cbn [length repeat map2]. rewrite IH, poly_add_ring by (try apply ring_zero_poly; assumption). rewrite ring_add_zero_l by exact Hy. reflexivity.
Qed.
Lemma pv_zenc_masks O fuel e : forall rows g v g', pv_zero_encoding O fuel rows (2 ^ e) g = Ok (v, g') ->
  exists R : nat -> list (list Z), (forall j, (j < rows)%nat -> mask_tuple e (R j)) /\ drawn_rows O fuel e g (map R (seq 0 rows)) g' /\
    v = map (fun j => add_masks e (repeat ring_zero (2 ^ e)) (R j)) (seq 0 rows).
Proof.
  induction rows as [|n IH]; intros g v g' E.
  - unfold pv_zero_encoding in E. cbn [seq foldM] in E. apply ok_inj in E. apply pair_equal_spec in E. destruct E as [<- <-]. exists (fun _ => []). split; [intros; lia|]. split; reflexivity.
  - unfold pv_zero_encoding in E. rewrite seq_S, foldM_app in E. apply bind_ok_inv in E. destruct E as ([v1 g1] & E1 & E).
    change (pv_zero_encoding O fuel n (2 ^ e) g = Ok (v1, g1)) in E1. destruct (IH _ _ _ E1) as (R & MR & DR & ->).
    cbn [foldM] in E. apply bind_ok_inv in E. destruct E as ([v2 g2] & E2 & E). apply ok_inj in E. apply pair_equal_spec in E. destruct E as [-> ->].
    apply bind_ok_inv in E2. destruct E2 as ([z g3] & Ez & E2). apply ok_inj in E2. apply pair_equal_spec in E2. destruct E2 as [<- ->].
    destruct (zenc_masks O fuel e _ _ _ Ez) as (rs & Mr & Dr & ->).
    exists (fun j => if (j =? n)%nat then rs else R j).
    assert (X : forall (F : list (list Z) -> list (list Z)), map (fun j => F (if (j =? n)%nat then rs else R j)) (seq 0 n) = map (fun j => F (R j)) (seq 0 n)).
    { intros F. apply map_ext_in. intros j Hj. apply in_seq in Hj. replace (j =? n)%nat with false by (symmetry; apply Nat.eqb_neq; lia). reflexivity. }
    split; [|split].
    + intros j Hj. destruct (Nat.eqb_spec j n); [exact Mr|apply MR; lia].
    + rewrite seq_S, map_app. rewrite (X (fun y => y)). cbn [Nat.add map]. rewrite Nat.eqb_refl. eapply drawn_rows_app; [exact DR|]. exists g'. split; [exact Dr|reflexivity].
    + rewrite seq_S, map_app. rewrite (X (add_masks e (repeat ring_zero (2 ^ e)))). cbn [Nat.add map]. rewrite Nat.eqb_refl. reflexivity.
Qed.
Lemma noise_masks_S rep n R : noise_masks rep (S n) R = noise_masks rep n R ++ map (R n) (seq 0 rep).
Proof. unfold noise_masks. rewrite seq_S, map_app, concat_app. cbn [Nat.add map concat]. rewrite app_nil_r. reflexivity. Qed.
Lemma noise_masks_ext rep n R R' : (forall r, (r < n)%nat -> R r = R' r) -> noise_masks rep n R = noise_masks rep n R'.
Proof. intros H. unfold noise_masks. f_equal. apply map_ext_in. intros r Hr. apply in_seq in Hr. rewrite H by lia. reflexivity. Qed.
Lemma pv_noise_run O fuel u kappa e rep tp pos v m v' p' m' : 1 <= u <= 48 -> (2 ^ e <= 256)%nat -> (length v <= 256)%nat -> (rep <= 256)%nat -> Forall (masked (2 ^ e)) v ->
  let kb := kbytes kappa in let rb := (rep * 2 ^ e * kb)%nat in
  pv_add_rep_noise O fuel u rep kappa (2 ^ e) v (Prng tp pos) m = Ok (v', p', m') ->
  exists R : nat -> nat -> list (list Z), (forall r i, (r < length v)%nat -> (i < rep)%nat -> mask_tuple e (R r i)) /\
    drawn_rows O fuel e m (noise_masks rep (length v) R) m' /\ p' = Prng tp (pos + length v * rb) /\
    v' = map (fun r => noise_state e (nth r v []) (noise_family (hash_of O) (tape_of tp) u kb (2 ^ e) r (pos + r * rb)) (R r) rep) (seq 0 (length v)).
Proof.
  intros Hu Hd Hv Hrep Fv kb rb E. unfold pv_add_rep_noise in E. unfold pvec, mpoly, poly in *. revert v' p' m' E.
  set (N := length v) in *. assert (HN : (N <= length v)%nat) by (subst N; apply le_n). clearbody N. induction N as [|n IH]; intros v' p' m' E.
  - cbn [seq foldM] in E. apply ok_inj in E. apply pair_equal_spec in E. destruct E as [E <-]. apply pair_equal_spec in E. destruct E as [<- <-].
    exists (fun _ _ => []). split; [intros; lia|]. split; [reflexivity|]. split; [f_equal; lia|reflexivity].
  - rewrite seq_S, foldM_app in E. apply bind_ok_inv in E. destruct E as ([[v1 p1] m1] & E1 & E).
    destruct (IH ltac:(lia) ltac:(lia) v1 p1 m1 E1) as (R & MR & DR & -> & ->). cbn [foldM] in E. apply bind_ok_inv in E. destruct E as ([[v2 p2] m2] & E2 & E).
    apply ok_inj in E. apply pair_equal_spec in E. destruct E as [E ->]. apply pair_equal_spec in E. destruct E as [-> ->].
    apply bind_ok_inv in E2. destruct E2 as ([[z p3] m3] & Ez & E2). apply ok_inj in E2. apply pair_equal_spec in E2. destruct E2 as [E2 ->]. apply pair_equal_spec in E2. destruct E2 as [<- ->].
    rewrite Nat.add_0_l in Ez.
    assert (Mn : masked (2 ^ e) (nth n v [])) by (rewrite Forall_forall in Fv; apply Fv, nth_In; lia).
    destruct (noise_run O fuel u kappa e n _ tp (pos + n * rb) m1 Hu Hd ltac:(lia) Mn rep z p' m' Hrep Ez) as (rss & ms & M0 & HM & HR).
    pose proof (HR rep (le_n rep)) as HR'. unfold mpoly, poly in *. rewrite Ez in HR'. clear HR. apply ok_inj in HR'. apply pair_equal_spec in HR'. destruct HR' as [HR' Em]. apply pair_equal_spec in HR'. destruct HR' as [-> ->].
    fold kb. exists (fun r => if (r =? n)%nat then rss else R r). split; [|split; [|split]].
    + intros r i Hr Hi. destruct (Nat.eqb_spec r n); [apply HM, Hi|apply MR; [lia|exact Hi]].
    + rewrite noise_masks_S, (noise_masks_ext rep n _ R). 2:{ intros r Hr. replace (r =? n)%nat with false by (symmetry; apply Nat.eqb_neq; lia). reflexivity. }
      rewrite Nat.eqb_refl. eapply drawn_rows_app; [exact DR|]. rewrite <- M0, Em. apply drawn_rows_chain. intros i Hi. apply HM, Hi.
    + f_equal. fold kb. unfold rb. lia.
    + rewrite seq_S, map_app. cbn [Nat.add map]. rewrite Nat.eqb_refl. f_equal. apply map_ext_in. intros r Hr. apply in_seq in Hr. replace (r =? n)%nat with false by (symmetry; apply Nat.eqb_neq; lia). reflexivity.
Qed.

(* ---- the matrix product, share by share ---- *)
Definition pick (kk : nat) (v : list (list (list Z))) : list (list (list Z)) := map (fun row => [nth kk row []]) v.
Lemma map2_nth_any {A B C} (f : A -> B -> C) : forall a b k da db dc, (k < length a)%nat -> (k < length b)%nat -> nth k (map2 f a b) dc = f (nth k a da) (nth k b db).
Proof. induction a as [|x a IH]; intros [|y b] [|k] da db dc Ha Hb; cbn [length] in *; try lia; [reflexivity|]. cbn [map2 nth]. apply IH; lia. Qed.
Lemma mat_mul_share rows cols d A v r kk : (r < rows)%nat -> (kk < d)%nat -> (cols <= length v)%nat -> Forall (fun row => length row = d) v ->
  nth kk (nth r (mat_mul rows cols d A v) []) [] = nth 0 (nth r (mat_mul rows cols 1 A (pick kk v)) []) [].
Proof.
  intros Hr Hk Lv Fv. unfold mat_mul. rewrite !nth_map_seq by exact Hr.
  assert (G : forall n, (n <= cols)%nat -> let F := fold_left (fun acc c => map2 (fun a s => poly_add a (poly_mul (mat_get cols A r c) s)) acc (nth c v [])) (seq 0 n) (repeat poly_zero d) in
    length F = d /\ fold_left (fun acc c => map2 (fun a s => poly_add a (poly_mul (mat_get cols A r c) s)) acc (nth c (pick kk v) [])) (seq 0 n) (repeat poly_zero 1) = [nth kk F []]).
  { induction n as [|n IH]; intros Hn.
    - cbn [seq fold_left]. split; [apply repeat_length|]. rewrite (nth_indep _ [] poly_zero) by (rewrite repeat_length; exact Hk). rewrite nth_repeat. reflexivity.
    - rewrite seq_S, !fold_left_app. cbn [fold_left]. rewrite Nat.add_0_l. destruct (IH ltac:(lia)) as [L E]. cbv zeta. unfold mpoly, poly in *. rewrite E. clear E IH.
      match type of L with length ?F0 = _ => set (F := F0) in * end. clearbody F. assert (Ln : length (nth n v []) = d) by (rewrite Forall_forall in Fv; apply Fv, nth_In; lia).
      split; [rewrite map2_length; unfold poly in *; lia|]. unfold pick. rewrite (nth_indep _ [] ((fun row => [nth kk row []]) [])) by (rewrite map_length; lia). rewrite (map_nth (fun row : list (list Z) => [nth kk row []])).
      cbn [map2]. rewrite (map2_nth_any _ F (nth n v []) kk [] [] []) by (unfold mpoly, poly in *; lia). reflexivity. }
  destruct (G cols (le_n _)) as [_ E]. unfold mpoly, poly in *. rewrite E. reflexivity.
Qed.
Lemma unmask_one_share y : is_poly y -> unmask [y] = y.
Proof. intros H. rewrite unmask_cons, unmask_nil. apply ring_add_zero_r. exact H. Qed.
Lemma map_nth_in {A B} (f : A -> B) l k da db : (k < length l)%nat -> nth k (map f l) db = f (nth k l da).
Proof. intros H. rewrite (nth_indep _ db (f da)) by (rewrite map_length; exact H). apply map_nth. Qed.
Lemma one_row Y X : masked 1 Y -> unmask (mp_intt Y) = X -> intt (nth 0 Y []) = X.
Proof. intros [L F] <-. destruct Y as [|y [|? ?]]; try discriminate L. inversion F; subst. cbn [nth]. symmetry. apply unmask_one_share, intt_poly. assumption. Qed.
Lemma product_run e rows cols A (s : nat -> list (list Z)) : mat_ok rows cols A -> (forall j, (j < cols)%nat -> masked (2 ^ e) (s j)) ->
  pv_intt (mat_mul rows cols (2 ^ e) A (pv_ntt (map s (seq 0 cols)))) = map (product_row e cols (ring_mat rows cols A) s) (seq 0 rows).
Proof.
  intros HA Hs. assert (PV : pv_ok cols (2 ^ e) (map s (seq 0 cols))).
  { split; [rewrite map_length; apply seq_length|]. apply Forall_forall. intros y Hy. apply in_map_iff in Hy. destruct Hy as (j & <- & Hj). apply in_seq in Hj. apply Hs. lia. }
  pose proof (pv_ntt_ok _ _ _ PV) as PN. destruct (mat_mul_ok rows cols (2 ^ e) A _ HA (pv_ok_w _ _ _ PN)) as [MM _]. pose proof (pv_intt_ok _ _ _ MM) as MI.
  unfold pvec, mpoly, poly in *. apply (nth_ext _ _ [] []); [rewrite map_length, seq_length; apply MI|]. intros r Hr. rewrite (proj1 MI) in Hr. rewrite nth_map_seq by exact Hr.
  assert (MR : masked (2 ^ e) (nth r (pv_intt (mat_mul rows cols (2 ^ e) A (pv_ntt (map s (seq 0 cols))))) [])).
  { destruct MI as [L F]. rewrite Forall_forall in F. apply F, nth_In. unfold pvec, mpoly, poly in *. lia. }
  apply (nth_ext _ _ [] []); [etransitivity; [exact (proj1 MR)|symmetry; exact (proj1 (product_masked e cols _ s r))]|]. intros kk Hk0. assert (Hk : (kk < 2 ^ e)%nat) by exact (eq_ind _ (fun n => (kk < n)%nat) Hk0 _ (proj1 MR)). clear MR Hk0.
  unfold product_row. rewrite nth_map_seq by exact Hk.
  assert (LR : length (mat_mul rows cols (2 ^ e) A (pv_ntt (map s (seq 0 cols)))) = rows) by apply MM.
  assert (MRr : masked (2 ^ e) (nth r (mat_mul rows cols (2 ^ e) A (pv_ntt (map s (seq 0 cols)))) [])).
  { destruct MM as [_ F]. rewrite Forall_forall in F. apply F, nth_In. unfold pvec, mpoly, poly in *. lia. }
  unfold pv_intt. rewrite (map_nth_in mp_intt _ r [] []) by (unfold pvec, mpoly, poly in *; lia). unfold mp_intt. rewrite (map_nth_in intt _ kk [] []) by exact (eq_ind_r (fun n => (kk < n)%nat) Hk (proj1 MRr)).
  assert (MS := mat_mul_share rows cols (2 ^ e) A (pv_ntt (map s (seq 0 cols))) r kk Hr Hk). unfold pvec, mpoly, poly in *. rewrite MS; clear MS.
  2:{ exact (eq_ind_r (fun n => (cols <= n)%nat) (le_n _) (proj1 PN)). }
  2:{ refine (Forall_impl _ _ (proj2 PN)). intros y [L _]. exact L. }
  (* one share *)
  assert (P1 : pv_ok cols 1 (pick kk (pv_ntt (map s (seq 0 cols))))).
  { split; [unfold pick; rewrite map_length; apply PN|]. apply Forall_forall. intros y Hy. unfold pick in Hy. apply in_map_iff in Hy. destruct Hy as (row & <- & Hrow). split; [reflexivity|]. constructor; [|constructor].
    destruct PN as [_ F]. rewrite Forall_forall in F. apply (mp_ok_nth (2 ^ e)); [apply F, Hrow|exact Hk]. }
  pose proof (mat_mul_intt rows cols 1 A _ HA P1) as MI1. destruct (mat_mul_ok rows cols 1 A _ HA (pv_ok_w _ _ _ P1)) as [[L1 F1] _]. unfold pvec, mpoly, poly in *.
  apply (f_equal (fun y => nth r y [])) in MI1. unfold pv_intt in MI1. rewrite map_map in MI1.
  assert (MI2 := map_nth_in (fun x => unmask (mp_intt x)) (mat_mul rows cols 1 A (pick kk (pv_ntt (map s (seq 0 cols))))) r [] [] (eq_ind_r (fun n => (r < n)%nat) Hr L1)).
  assert (MI3 := eq_trans (eq_sym MI2) MI1). clear MI1 MI2. rename MI3 into MI1. cbv beta in MI1. unfold pvec, mpoly, poly in *.
  assert (M1 : masked 1 (nth r (mat_mul rows cols 1 A (pick kk (pv_ntt (map s (seq 0 cols))))) [])) by (rewrite Forall_forall in F1; apply F1, nth_In; unfold pvec, mpoly, poly in *; lia).
  etransitivity; [exact (one_row _ _ M1 MI1)|]. unfold ring_matvec. rewrite (map_nth_in _ _ r [] []) by (unfold ring_mat; rewrite map_length, seq_length; exact Hr). f_equal.
  unfold share_vec, pick, pv_ntt. rewrite !map_map. apply map_ext_in. intros j Hj. apply in_seq in Hj. pose proof (Hs j ltac:(lia)) as Mj.
  pose proof (masked_nth_poly (2 ^ e) _ kk Mj Hk) as Pk. unfold mp_ntt. rewrite (map_nth_in ntt _ kk [] []) by exact (eq_ind_r (fun n => (kk < n)%nat) Hk (proj1 Mj)).
  rewrite unmask_one_share by (apply ntt_poly; assumption). apply intt_ntt. exact Pk.
Qed.

(* ---- all stages ---- *)
Lemma map_seq_nth {A} (f : nat -> A) n r d : (r < n)%nat -> nth r (map f (seq 0 n)) d = f r.
Proof. intros H. apply nth_map_seq. exact H. Qed.
Lemma lwe_run O fuel u kappa e rep k l A tp pos m s0 m0 s1 p1 m1 t p2 m2 : 1 <= u <= 48 -> (2 ^ e <= 256)%nat -> (l <= 256)%nat -> (k <= 256)%nat -> (rep <= 256)%nat -> mat_ok k l A ->
  let d := (2 ^ e)%nat in let kb := kbytes kappa in let rb := (rep * d * kb)%nat in
  let N := stream_noise (hash_of O) (tape_of tp) u kb rep d l pos in let RA := ring_mat k l A in
  pv_zero_encoding O fuel l d m = Ok (s0, m0) -> pv_add_rep_noise O fuel u rep kappa d s0 (Prng tp pos) m0 = Ok (s1, p1, m1) ->
  pv_add_rep_noise O fuel u rep kappa d (pv_intt (mat_mul k l d A (pv_ntt s1))) p1 m1 = Ok (t, p2, m2) ->
  exists M, masks_ok e rep l k M /\ drawn_rows O fuel e m (sample_masks rep l k M) m2 /\
    s0 = map (start_row e M) (seq 0 l) /\ s1 = map (secret_row e rep N M) (seq 0 l) /\
    pv_intt (mat_mul k l d A (pv_ntt s1)) = map (product_row e l RA (secret_row e rep N M)) (seq 0 k) /\
    t = map (sample_row e l rep RA N M) (seq 0 k) /\ p1 = Prng tp (pos + l * rb) /\ p2 = Prng tp (pos + (l + k) * rb).
Proof.
  intros Hu Hd Hl Hk Hrep HA d kb rb N RA E0 E1 E2.
  destruct (pv_zenc_masks O fuel e l m s0 m0 E0) as (R0 & MR0 & DR0 & ES0).
  assert (L0 : length s0 = l) by (rewrite ES0, map_length; apply seq_length).
  assert (F0 : Forall (masked (2 ^ e)) s0) by (rewrite ES0; apply Forall_forall; intros y Hy; apply in_map_iff in Hy; destruct Hy as (j & <- & _); apply add_masks_masked).
  destruct (pv_noise_run O fuel u kappa e rep tp pos s0 m0 s1 p1 m1 Hu Hd (eq_ind_r (fun n => (n <= 256)%nat) Hl L0) Hrep F0 E1) as (R1 & MR1 & DR1 & Ep1 & ES1).
  unfold pvec, mpoly, poly in *. rewrite L0 in *. subst p1. fold kb in ES1. change (rep * 2 ^ e * kb)%nat with rb in ES1. change (rep * 2 ^ e * kbytes kappa)%nat with rb in E2.
  set (SR := fun j => noise_state e (add_masks e (repeat ring_zero (2 ^ e)) (R0 j)) (n_s N j) (R1 j) rep).
  assert (ES1' : s1 = map SR (seq 0 l)).
  { etransitivity; [exact ES1|]. apply map_ext_in. intros j Hj. apply in_seq in Hj. unfold SR, N. rewrite ES0. assert (X := map_seq_nth (fun j => add_masks e (repeat ring_zero (2 ^ e)) (R0 j)) l j [] ltac:(lia)). cbv beta in X. rewrite X. reflexivity. }
  assert (MS : forall j, (j < l)%nat -> masked (2 ^ e) (SR j)) by (intros j _; apply noise_state_masked, add_masks_masked).
  pose proof (product_run e k l A SR HA MS) as PR. fold d RA in PR. rewrite <- ES1' in PR.
  assert (L2 : length (map (product_row e l RA SR) (seq 0 k)) = k) by (rewrite map_length; apply seq_length).
  assert (F2 : Forall (masked (2 ^ e)) (map (product_row e l RA SR) (seq 0 k))) by (apply Forall_forall; intros y Hy; apply in_map_iff in Hy; destruct Hy as (j & <- & _); apply product_masked).
  unfold pvec, mpoly, poly in *. rewrite PR in E2.
  destruct (pv_noise_run O fuel u kappa e rep tp (pos + l * rb) _ m1 t p2 m2 Hu Hd (eq_ind_r (fun n => (n <= 256)%nat) Hk L2) Hrep F2 E2) as (R2 & MR2 & DR2 & Ep2 & ES2).
  rewrite L2 in *. change (rep * 2 ^ e * kbytes kappa)%nat with rb in Ep2, ES2. change (kbytes kappa) with kb in ES2.
  exists (LMasks R0 R1 R2).
  assert (SRE : secret_row e rep N (LMasks R0 R1 R2) = SR) by reflexivity.
  split; [split; [exact MR0|split; [exact MR1|exact MR2]]|]. split; [|split; [|split; [|split; [|split; [|split]]]]].
  - unfold sample_masks. cbn [m_zero m_s m_e]. eapply drawn_rows_app; [exact DR0|]. eapply drawn_rows_app; [exact DR1|exact DR2].
  - exact ES0.
  - rewrite SRE. exact ES1'.
  - rewrite SRE. exact PR.
  - etransitivity; [exact ES2|]. apply map_ext_in. intros i Hi. apply in_seq in Hi. unfold sample_row. rewrite SRE. unfold N. assert (X := map_seq_nth (product_row e l RA SR) k i [] ltac:(lia)). rewrite X. reflexivity.
  - reflexivity.
  - etransitivity; [exact Ep2|]. f_equal. lia.
Qed.
