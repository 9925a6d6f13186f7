(* The signing loop computes the values of SpecSignProbe.v. *)
From Coq Require Import ZArith Lia Bool List Arith.
From Coq Require Import ZifyBool ZifyNat.
From Verif Require Import ModelBase ModelU128 ModelField ModelUtils ModelPoly ModelVec ModelSerial ModelScheme.
From Verif Require Import Spec SpecScheme SpecMask SpecProbe SpecNoiseProbe SpecSchemeProbe SpecSignProbe SignSteps.
From Verif Require Import Words FieldProofs ArithLemmas PolyProofs NttLayers NttProofs Cong NttEval MaskedProofs LinProofs LatticeProofs PolyLemmas SigEnc NoiseProofs SampleProofs MaskUniform MaskProg MoreProofs ProbeCore ProbeProofs ProbeProg ProbeFull NoiseProbe NoiseFull NoiseRun ProbeLin LweProbe LweAdd LweRun SignProbe SignLin.
Import ListNotations.
Open Scope Z_scope.
Ltac Zify.zify_post_hook ::= idtac.

(* ---- additive maps and masks ---- *)
Definition rneg (r : list Z) : list Z := map (fun c => (- coef r c) mod q) (seq 0 512).
Lemma rneg_poly r : is_poly (rneg r).
Proof. apply (mod_poly (fun c => - coef r c)). Qed.
Lemma coef_rneg r c : (c < 512)%nat -> coef (rneg r) c = (- coef r c) mod q.
Proof. intros H. unfold rneg. apply coef_map_seq. exact H. Qed.
Lemma rneg_sum r : ring_add (rneg r) r = ring_zero.
Proof.
  apply poly_ext; [apply is_poly_length, ring_add_poly|apply is_poly_length, ring_zero_poly|]. intros c Hc. unfold ring_add. rewrite coef_map_seq by exact Hc. rewrite coef_rneg, coef_ring_zero by exact Hc.
  rewrite Zplus_mod_idemp_l. replace (- coef r c + coef r c) with 0 by ring. reflexivity.
Qed.
Definition mask_poly (k : nat) (ps : list (nat * nat)) (rs : list (list Z)) : list Z := map (fun c => mask_coef k c (combine ps rs) mod q) (seq 0 512).
Lemma mask_poly_cons k i j ps r rs : is_poly r -> mask_poly k ((i, j) :: ps) (r :: rs) =
  ring_add (ring_add (if Nat.eqb k i then r else ring_zero) (if Nat.eqb k j then rneg r else ring_zero)) (mask_poly k ps rs).
Proof.
  intros Hr. unfold mask_poly. apply poly_ext; [apply is_poly_length, mod_poly|apply is_poly_length, ring_add_poly|]. intros c Hc. unfold ring_add. rewrite !coef_map_seq by exact Hc. cbn [combine mask_coef].
  change ((if Nat.eqb k i then coef r c else 0) - (if Nat.eqb k j then coef r c else 0) + mask_coef k c (combine ps rs) ==
    (coef (if Nat.eqb k i then r else ring_zero) c + coef (if Nat.eqb k j then rneg r else ring_zero) c) mod q + mask_coef k c (combine ps rs) mod q).
  rewrite !cg_mod. destruct (Nat.eqb k i), (Nat.eqb k j); rewrite ?coef_ring_zero, ?coef_rneg by exact Hc; rewrite ?cg_mod; apply cg_refl'; ring.
Qed.
Section ADDITIVE.
  Context (F : list Z -> list Z) (Fp : forall a, is_poly a -> is_poly (F a)) (Fadd : forall a b, is_poly a -> is_poly b -> F (ring_add a b) = ring_add (F a) (F b)) (Fz : F ring_zero = ring_zero).
  Lemma F_rneg r : is_poly r -> F (rneg r) = rneg (F r).
  Proof.
    intros Hr. apply (ring_add_inj _ _ (F r)); [apply Fp, rneg_poly|apply rneg_poly|]. rewrite <- Fadd by (try apply rneg_poly; assumption). rewrite !rneg_sum. exact Fz.
  Qed.
  Lemma F_mask_poly k : forall ps rs, Forall is_poly rs -> F (mask_poly k ps rs) = mask_poly k ps (map F rs).
  Proof.
    assert (E0 : mask_poly k [] [] = ring_zero) by reflexivity.
    induction ps as [|[i j] ps IH]; intros rs FR; [exact Fz|]. destruct rs as [|r rs]; [exact Fz|]. inversion FR; subst. cbn [map]. rewrite !mask_poly_cons by (try apply Fp; assumption).
    assert (P1 : is_poly (if Nat.eqb k i then r else ring_zero)) by (destruct (Nat.eqb k i); [assumption|apply ring_zero_poly]).
    assert (P2 : is_poly (if Nat.eqb k j then rneg r else ring_zero)) by (destruct (Nat.eqb k j); [apply rneg_poly|apply ring_zero_poly]).
    rewrite Fadd by (try apply ring_add_poly; apply (mod_poly (fun c => mask_coef k c (combine ps rs)))). rewrite Fadd by assumption. rewrite IH by assumption. f_equal. f_equal.
    - destruct (Nat.eqb k i); [reflexivity|exact Fz].
    - destruct (Nat.eqb k j); [apply F_rneg; assumption|exact Fz].
  Qed.
  Lemma add_masks_poly e a rs k : (k < 2 ^ e)%nat -> nth k (add_masks e a rs) [] = ring_add (nth k a []) (mask_poly k (mask_pairs e) rs).
  Proof.
    intros Hk. unfold add_masks. rewrite nth_map_seq by exact Hk. unfold ring_add. apply map_ext_in. intros c Hc. apply in_seq in Hc. unfold mask_poly. rewrite coef_map_seq by lia. symmetry. apply Zplus_mod_idemp_r.
  Qed.
  Lemma F_add_masks e a rs : masked (2 ^ e) a -> mask_tuple e rs -> map F (add_masks e a rs) = add_masks e (map F a) (map F rs).
  Proof.
    intros Ma [Lr Fr]. pose proof (add_masks_masked e a rs) as [L1 _]. pose proof (add_masks_masked e (map F a) (map F rs)) as [L2 _].
    apply (nth_ext _ _ [] []); [rewrite map_length; congruence|]. intros k Hk. rewrite map_length, L1 in Hk.
    rewrite (map_nth_in F _ k [] []) by (rewrite L1; exact Hk). rewrite !add_masks_poly by exact Hk. rewrite Fadd; [|apply (masked_nth_poly (2 ^ e)); assumption|apply (mod_poly (fun c => mask_coef k c (combine (mask_pairs e) rs)))].
    rewrite F_mask_poly by exact Fr. rewrite (map_nth_in F a k [] []) by (rewrite (proj1 Ma); exact Hk). reflexivity.
  Qed.
  (* every observed value of a refreshing commutes with the map *)
  Lemma F_wire e a rs w : masked (2 ^ e) a -> mask_tuple e rs -> wire_ok e w -> F (wire_value e a rs w) = wire_value e (map F a) (map F rs) w.
  Proof.
    intros Ma [Lr Fr] Hw. destruct w as [k|n|n k]; cbn [wire_value wire_ok] in *.
    - symmetry. apply map_nth_in. rewrite (proj1 Ma). exact Hw.
    - symmetry. apply map_nth_in. rewrite Lr. exact Hw.
    - unfold accumulator. rewrite !combine_firstn, firstn_map. apply (F_mask_poly k (firstn n (mask_pairs e))). apply Forall_forall. intros y Hy. rewrite Forall_forall in Fr. apply Fr. rewrite <- (firstn_skipn n rs). apply in_or_app. left. exact Hy.
  Qed.
End ADDITIVE.
Lemma map_id_polys (F G : list Z -> list Z) v : (forall a, is_poly a -> F (G a) = a) -> Forall is_poly v -> map F (map G v) = v.
Proof. intros H. induction 1 as [|y v Hy Fv IH]; [reflexivity|]. cbn [map]. rewrite IH, H by exact Hy. reflexivity. Qed.
Lemma intt_masks_ok e rs : mask_tuple e rs -> mask_tuple e (map intt rs).
Proof. intros [L F]. split; [rewrite map_length; exact L|]. apply Forall_map. refine (Forall_impl _ _ F). intros y Hy. apply intt_poly. exact Hy. Qed.

Lemma combine_map_seq {A B C} (f : A -> B -> C) (s : nat -> A) : forall (rss : list B) d, map (fun '(x, y) => f x y) (combine (map s (seq 0 (length rss))) rss) = map (fun j => f (s j) (nth j rss d)) (seq 0 (length rss)).
Proof.
  intros rss d. assert (G : forall b rss, map (fun '(x, y) => f x y) (combine (map s (seq b (length rss))) rss) = map (fun j => f (s (b + j)%nat) (nth j rss d)) (seq 0 (length rss))).
  { intros b rss0. revert b. induction rss0 as [|y rss0 IH]; intros b; [reflexivity|]. cbn [length seq map combine]. rewrite IH, Nat.add_0_r. f_equal. rewrite <- seq_shift, map_map. apply map_ext. intros j. cbn [nth]. replace (S b + j)%nat with (b + S j)%nat by lia. reflexivity. }
  apply (G 0%nat).
Qed.
Lemma pv_refresh_ntt O fuel e l (s : nat -> list (list Z)) g v g' : (forall j, (j < l)%nat -> masked (2 ^ e) (s j)) ->
  pv_refresh O fuel (2 ^ e) (pv_ntt (map s (seq 0 l))) g = Ok (v, g') ->
  exists R : nat -> list (list Z), (forall j, (j < l)%nat -> mask_tuple e (R j)) /\ drawn_rows O fuel e g (map (fun j => map ntt (R j)) (seq 0 l)) g' /\
    v = pv_ntt (map (fun j => add_masks e (s j) (R j)) (seq 0 l)).
Proof.
  intros Ms E. unfold pv_refresh in E.
  assert (FV : Forall (masked (2 ^ e)) (pv_ntt (map s (seq 0 l)))).
  { apply pv_ntt_ok with (k := l). split; [rewrite map_length; apply seq_length|]. apply Forall_forall. intros y Hy. apply in_map_iff in Hy. destruct Hy as (j & <- & Hj). apply in_seq in Hj. apply Ms. lia. }
  destruct (pv_refresh_masks O fuel e _ _ _ _ _ FV E) as (rss & L & FM & D & Ev). cbn [app] in Ev.
  assert (Ll : length rss = l) by (etransitivity; [exact L|]; unfold pv_ntt; rewrite !map_length; apply seq_length).
  assert (MT : forall j, (j < l)%nat -> mask_tuple e (nth j rss [])) by (intros j Hj; rewrite Forall_forall in FM; apply FM, nth_In; lia).
  exists (fun j => map intt (nth j rss [])). split; [|split].
  - intros j Hj. apply intt_masks_ok, MT, Hj.
  - assert (X : map (fun j => map ntt (map intt (nth j rss []))) (seq 0 l) = rss).
    { transitivity (map (fun j => nth j rss []) (seq 0 l)).
      - apply map_ext_in. intros j Hj. apply in_seq in Hj. apply map_id_polys; [intros a Ha; apply ntt_intt; exact Ha|apply MT; lia].
      - rewrite <- Ll. clear. apply (nth_ext _ _ [] []); [rewrite map_length; apply seq_length|]. intros k Hk. rewrite map_length, seq_length in Hk. exact (nth_map_seq (fun j => nth j rss []) (length rss) k [] Hk). }
    rewrite X. exact D.
  - etransitivity; [exact Ev|]. unfold pv_ntt. rewrite !map_map. clear Ev E D FV L.
    transitivity (map (fun j => add_masks e (mp_ntt (s j)) (nth j rss [])) (seq 0 l)); [rewrite <- Ll; exact (combine_map_seq (add_masks e) (fun j => mp_ntt (s j)) rss [])|].
    apply map_ext_in. intros j Hj. apply in_seq in Hj. unfold mp_ntt. rewrite (F_add_masks ntt ntt_poly ntt_ring_add ntt_zero e (s j)); [|apply Ms; lia|apply intt_masks_ok, MT; lia].
    f_equal. symmetry. apply map_id_polys; [intros a Ha; apply ntt_intt; exact Ha|apply MT; lia].
Qed.
Lemma map2_map_seq {A B C} (f : A -> B -> C) (s : nat -> A) (t : nat -> B) l : map2 f (map s l) (map t l) = map (fun j => f (s j) (t j)) l.
Proof. induction l as [|j l IH]; [reflexivity|]. cbn [map map2]. rewrite IH. reflexivity. Qed.
Lemma resp_in_run e (x y : list (list Z)) c : masked (2 ^ e) x -> masked (2 ^ e) y -> is_poly c ->
  mp_add (map (fun s => poly_mul s (ntt c)) (mp_ntt x)) (mp_ntt y) = mp_ntt (tuple_add (map (fun z => ring_mul z c) x) y).
Proof.
  intros [Lx Fx] [Ly Fy] Hc. assert (L : length x = length y) by congruence. clear Lx Ly. revert y L Fy. unfold mp_add, mp_ntt, tuple_add. induction Fx as [|a x Ha Fx IH]; intros [|b y] L Fy; cbn [length] in L; try lia; [reflexivity|].
  inversion Fy; subst. cbn [map map2 combine]. rewrite IH by (try assumption; lia). f_equal. rewrite poly_mul_pw by (apply ntt_poly; assumption). rewrite <- ntt_ring_mul by assumption. rewrite poly_add_ring by (apply ntt_poly; try apply ring_mul_poly; assumption).
  symmetry. apply ntt_ring_add; [apply ring_mul_poly|assumption].
Qed.
Lemma decode_run e x : masked (2 ^ e) x -> intt (mp_decode (mp_ntt x)) = unmask x.
Proof. intros Mx. rewrite (mp_decode_unmask (2 ^ e)) by (apply mp_ntt_ok; exact Mx). rewrite (unmask_ntt (2 ^ e)) by exact Mx. apply intt_ntt, unmask_poly. Qed.
Lemma key_at_shift e key M0 M n : key_at e key (fun i => match i with 0%nat => M0 | S i => M i end) (S n) = key_at e (key_next e key M0) M n.
Proof. induction n as [|n IH]; [reflexivity|]. cbn [key_at] in *. rewrite IH. reflexivity. Qed.

(* one attempt *)
Lemma attempt_run O fuel P Ah e mu tp key pos g r0 g1 r1 p1 g2 w p2 g3 c s1 g4 r2 g5 z g' :
  1 <= p_uw P <= 48 -> (2 ^ e <= 256)%nat -> (p_l P <= 256)%nat -> (p_k P <= 256)%nat -> (p_rep P <= 256)%nat -> mat_ok (p_k P) (p_l P) Ah -> p_d P = (2 ^ e)%nat -> (p_omega P < 256)%nat ->
  (forall j, (j < p_l P)%nat -> masked (2 ^ e) (key j)) ->
  pv_zero_encoding O fuel (p_l P) (p_d P) g = Ok (r0, g1) -> pv_add_rep_noise O fuel (p_uw P) (p_rep P) (p_kappa P) (p_d P) r0 (Prng tp pos) g1 = Ok (r1, p1, g2) ->
  pv_add_rep_noise O fuel (p_uw P) (p_rep P) (p_kappa P) (p_d P) (pv_intt (mat_mul (p_k P) (p_l P) (p_d P) Ah (pv_ntt r1))) p1 g2 = Ok (w, p2, g3) ->
  chal_poly O fuel (p_omega P) (chal_hash O (p_kappa P) (p_k P) (pv_rounding_shr (p_nuw P) (pv_decode w)) mu) = Ok c ->
  pv_refresh O fuel (p_d P) (pv_ntt (map key (seq 0 (p_l P)))) g3 = Ok (s1, g4) -> pv_refresh O fuel (p_d P) (pv_ntt r1) g4 = Ok (r2, g5) ->
  pv_refresh O fuel (p_d P) (pv_add (pv_mul_poly s1 (ntt c)) r2) g5 = Ok (z, g') ->
  exists M, att_masks_ok e (p_rep P) (p_l P) (p_k P) M /\ is_poly c /\ attempt_steps O fuel P Ah (ring_mat (p_k P) (p_l P) Ah) mu tp e key M c pos g g' /\
    s1 = pv_ntt (map (key_next e key M) (seq 0 (p_l P))) /\ p2 = Prng tp (pos + (p_l P + p_k P) * (p_rep P * p_d P * kbytes (p_kappa P))) /\
    pv_intt (pv_decode z) = map (fun j => [unmask (resp_row e (p_rep P) c key (stream_noise (hash_of O) (tape_of tp) (p_uw P) (kbytes (p_kappa P)) (p_rep P) (p_d P) (p_l P) pos) M j)]) (seq 0 (p_l P)).
Proof.
  intros Hu Hd Hl Hk Hrep HA Ed Ho Mk E0 E1 E2 Ec E3 E4 E5. unfold attempt_steps. cbv zeta. rewrite Ed in *.
  destruct (lwe_run O fuel (p_uw P) (p_kappa P) e (p_rep P) (p_k P) (p_l P) Ah tp pos g r0 g1 r1 p1 g2 w p2 g3 Hu Hd Hl Hk Hrep HA E0 E1 E2) as (ML & HML & DML & ER0 & ER1 & EPR & EW & Ep1 & Ep2).
  set (N := stream_noise (hash_of O) (tape_of tp) (p_uw P) (kbytes (p_kappa P)) (p_rep P) (2 ^ e) (p_l P) pos) in *.
  pose proof (wp_Ok _ _ _ (chal_poly_ok O fuel (p_omega P) _ Ho) Ec) as HC. assert (Pc : is_poly c) by (apply (challenge_poly_facts _ _ _ HC)).
  destruct (pv_refresh_ntt O fuel e (p_l P) key g3 s1 g4 Mk E3) as (RK & MRK & DRK & ES1).
  rewrite ER1 in E4.
  destruct (pv_refresh_ntt O fuel e (p_l P) (secret_row e (p_rep P) N ML) g4 r2 g5 (fun j _ => secret_row_masked e (p_rep P) N ML j) E4) as (RN & MRN & DRN & ER2).
  set (ri := fun j => tuple_add (map (fun z => ring_mul z c) (add_masks e (key j) (RK j))) (add_masks e (secret_row e (p_rep P) N ML j) (RN j))).
  assert (ERI : pv_add (pv_mul_poly s1 (ntt c)) r2 = pv_ntt (map ri (seq 0 (p_l P)))).
  { rewrite ES1, ER2. unfold pv_add, pv_mul_poly, pv_ntt. rewrite !map_map. rewrite map2_map_seq. apply map_ext_in. intros j _. unfold ri. apply (resp_in_run e); [apply add_masks_masked|apply add_masks_masked|exact Pc]. }
  unfold pvec, mpoly, poly in *. rewrite ERI in E5.
  assert (MRI : forall j, masked (2 ^ e) (ri j)) by (intros j; apply tuple_add_masked; [apply mul_rows_masked, add_masks_masked|apply add_masks_masked]).
  destruct (pv_refresh_ntt O fuel e (p_l P) ri g5 z g' (fun j _ => MRI j) E5) as (RZ & MRZ & DRZ & EZ).
  exists (AMasks ML RK RN RZ). split; [split; [exact HML|]|].
  { intros j Hj. cbn [a_key a_nonce a_resp]. auto. }
  split; [exact Pc|].
  assert (DEC : pv_intt (pv_decode z) = map (fun j => [unmask (add_masks e (ri j) (RZ j))]) (seq 0 (p_l P))).
  { rewrite EZ. unfold pv_intt, pv_decode, pv_ntt. rewrite !map_map. apply map_ext_in. intros j _. cbn [mp_intt map]. f_equal. apply (decode_run e), add_masks_masked. }
  split; [|split; [exact ES1|split; [exact Ep2|exact DEC]]].
  exists g1, g2, g3, g4, g5. cbn [a_lwe].
  split; [rewrite <- ER0; exact E0|]. split; [rewrite <- ER0, <- ER1, <- Ep1; exact E1|]. split; [rewrite <- ER1; exact EPR|]. split; [rewrite <- EPR, <- EW, <- Ep1, <- Ep2; exact E2|].
  split; [rewrite <- EW; exact Ec|]. split; [refine (eq_trans E3 _); rewrite ES1; reflexivity|]. split; [refine (eq_trans E4 _); rewrite ER2; reflexivity|].
  split; [refine (eq_trans _ ERI); rewrite ES1, ER2; reflexivity|]. split; [refine (eq_trans E5 _); rewrite EZ; reflexivity|].
  split; [refine (eq_trans _ DEC); rewrite EZ; reflexivity|].
  eapply drawn_rows_app; [exact DML|]. eapply drawn_rows_app; [exact DRK|]. eapply drawn_rows_app; [exact DRN|exact DRZ].
Qed.

(* the whole loop: attempt n starts with the key, tape position and mask generator that attempt n-1 left *)
Lemma loop_run O fuel P Ah e mu tp t : 1 <= p_uw P <= 48 -> (2 ^ e <= 256)%nat -> (p_l P <= 256)%nat -> (p_k P <= 256)%nat -> (p_rep P <= 256)%nat -> mat_ok (p_k P) (p_l P) Ah -> p_d P = (2 ^ e)%nat -> (p_omega P < 256)%nat ->
  let rb := (p_rep P * p_d P * kbytes (p_kappa P))%nat in
  forall f key pos g0 b sig, (forall j, (j < p_l P)%nat -> masked (2 ^ e) (key j)) ->
  sign_loop O fuel f P Ah t mu (pv_ntt (map key (seq 0 (p_l P)))) (Prng tp pos) g0 b = Ok sig ->
  exists (T : nat) (M : nat -> att_masks) (c : nat -> list Z) (g : nat -> mrng), (0 < T <= f)%nat /\ g 0%nat = g0 /\
    (forall n, (n < T)%nat -> att_masks_ok e (p_rep P) (p_l P) (p_k P) (M n) /\ is_poly (c n) /\
      attempt_steps O fuel P Ah (ring_mat (p_k P) (p_l P) Ah) mu tp e (key_at e key M n) (M n) (c n) (pos + n * ((p_l P + p_k P) * rb)) (g n) (g (S n))) /\
    exists n w h b', (T = S n) /\
      sig_to_bytes (sig_make (p_nuw P) (chal_hash O (p_kappa P) (p_k P) w mu) h (map (fun j => [unmask (resp_row e (p_rep P) (c n) (key_at e key M n)
        (stream_noise (hash_of O) (tape_of tp) (p_uw P) (kbytes (p_kappa P)) (p_rep P) (p_d P) (p_l P) (pos + n * ((p_l P + p_k P) * rb))) (M n) j)]) (seq 0 (p_l P)))) b' = Ok (true, sig).
Proof.
  intros Hu Hd Hl Hk Hrep HA Ed Ho rb. induction f as [|f IH]; intros key pos g0 b sig Mk E; [discriminate E|]. cbn [sign_loop] in E.
  apply bind_ok_inv in E. destruct E as ([r0 g1] & E0 & E). apply bind_ok_inv in E. destruct E as ([[r1 p1] g2] & E1 & E). cbv zeta in E.
  apply bind_ok_inv in E. destruct E as ([[w p2] g3] & E2 & E). apply bind_ok_inv in E. destruct E as (c & Ec & E).
  apply bind_ok_inv in E. destruct E as ([s1 g4] & E3 & E). apply bind_ok_inv in E. destruct E as ([r2 g5] & E4 & E). apply bind_ok_inv in E. destruct E as ([z g6] & E5 & E).
  apply bind_ok_inv in E. destruct E as ([en sg] & E6 & E).
  destruct (attempt_run O fuel P Ah e mu tp key pos g0 r0 g1 r1 p1 g2 w p2 g3 c s1 g4 r2 g5 z g6 Hu Hd Hl Hk Hrep HA Ed Ho Mk E0 E1 E2 Ec E3 E4 E5) as (M0 & HM0 & Pc & ST & ES & EP & DEC).
  assert (REC : sign_loop O fuel f P Ah t mu s1 p2 g6 sg = Ok sig -> exists (T : nat) (M : nat -> att_masks) (c : nat -> list Z) (g : nat -> mrng), (0 < T <= S f)%nat /\ g 0%nat = g0 /\
    (forall n, (n < T)%nat -> att_masks_ok e (p_rep P) (p_l P) (p_k P) (M n) /\ is_poly (c n) /\
      attempt_steps O fuel P Ah (ring_mat (p_k P) (p_l P) Ah) mu tp e (key_at e key M n) (M n) (c n) (pos + n * ((p_l P + p_k P) * rb)) (g n) (g (S n))) /\
    exists n w h b', (T = S n) /\
      sig_to_bytes (sig_make (p_nuw P) (chal_hash O (p_kappa P) (p_k P) w mu) h (map (fun j => [unmask (resp_row e (p_rep P) (c n) (key_at e key M n)
        (stream_noise (hash_of O) (tape_of tp) (p_uw P) (kbytes (p_kappa P)) (p_rep P) (p_d P) (p_l P) (pos + n * ((p_l P + p_k P) * rb))) (M n) j)]) (seq 0 (p_l P)))) b' = Ok (true, sig)).
  { intros EL. clear E. rewrite ES, EP in EL. change (p_rep P * p_d P * kbytes (p_kappa P))%nat with rb in EL.
    destruct (IH (key_next e key M0) _ g6 sg sig (fun j _ => add_masks_masked e _ _) EL) as (T & M & cs & g & HT & G0 & ALL & n & w' & h & b' & ET & EN).
    exists (S T), (fun i => match i with 0%nat => M0 | S i => M i end), (fun i => match i with 0%nat => c | S i => cs i end), (fun i => match i with 0%nat => g0 | S i => g i end).
    split; [lia|]. split; [reflexivity|]. split.
    - intros [|i] Hi.
      + split; [exact HM0|]. split; [exact Pc|]. rewrite Nat.mul_0_l, Nat.add_0_r, G0. exact ST.
      + destruct (ALL i ltac:(lia)) as (X1 & X2 & X3). split; [exact X1|]. split; [exact X2|]. rewrite key_at_shift.
        replace (pos + S i * ((p_l P + p_k P) * rb))%nat with (pos + (p_l P + p_k P) * rb + i * ((p_l P + p_k P) * rb))%nat by (rewrite Nat.mul_succ_l; lia). exact X3.
    - exists (S n), w', h, b'. split; [congruence|]. rewrite key_at_shift.
      replace (pos + S n * ((p_l P + p_k P) * rb))%nat with (pos + (p_l P + p_k P) * rb + n * ((p_l P + p_k P) * rb))%nat by (rewrite Nat.mul_succ_l; lia). exact EN. }
  destruct en; cbn [negb] in E; [|exact (REC E)].
  apply bind_ok_inv in E. destruct E as ([|] & E7 & E); cbn [negb] in E; [|exact (REC E)]. clear REC.
  apply ok_inj in E. subst sg. rewrite DEC in E6.
  exists 1%nat, (fun _ => M0), (fun _ => c), (fun i => match i with 0%nat => g0 | S _ => g6 end). split; [lia|]. split; [reflexivity|]. split.
  - intros i Hi. assert (i = 0%nat) by lia. subst i. split; [exact HM0|]. split; [exact Pc|]. rewrite Nat.mul_0_l, Nat.add_0_r. exact ST.
  - exists 0%nat. eexists _, _, _. split; [reflexivity|]. rewrite Nat.mul_0_l, Nat.add_0_r. cbn [key_at]. exact E6.
Qed.
