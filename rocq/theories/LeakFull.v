(* A whole call of sign: the trace is determined by the public data and the candidate signatures, and these
   are determined by the unmasked secret and the random tape. *)
From Coq Require Import ZArith Lia Bool List Arith.
From Verif Require Import ModelBase ModelU128 ModelField ModelUtils ModelPoly ModelVec ModelSerial ModelScheme ModelLeak ModelLeakSign.
From Verif Require Import Spec SpecScheme Words PolyProofs NttProofs NttEval Cong NttBounds MaskedProofs LinProofs SampleProofs ParamProofs KeyLemmas SchemeCore SigEnc SignProofs LeakProofs LeakRel LeakValues LeakSign.
Import ListNotations.
Open Scope Z_scope.
Opaque powers_of_zeta neg_powers_of_zeta INV_N zq_add zq_sub zq_mul Q R Q_BIT_WIDTH ntt intt.

Lemma rest_finish P A t w' c_hash c z' sig again :
  rest_of_attempt P A t w' c_hash c z' sig again =
  ('(accepted, sig) <- finish_attempt P A t w' c_hash c z' sig ;; if (accepted : bool) then Ok sig else again sig).
Proof.
  unfold rest_of_attempt, finish_attempt. cbv zeta. set (sg := sig_make _ _ _ _). destruct (sig_to_bytes sg sig) as [[[|] sig']| |]; cbn [bind negb]; [|reflexivity..].
  destruct (check_bounds (p_nuw P) (p_Binf P) (p_B22 P) sg) as [[|]| |]; reflexivity.
Qed.
Lemma wp_fst {A} (m : res A) (R : A -> Prop) a : wp m R -> m = Ok a -> R a.
Proof. intros H ->. exact H. Qed.

(* shapes of what the two secret-dependent steps return *)
Lemma commit_shape O wfuel P A p g w' r p' g' : aok (p_k P) (p_l P) A -> fst (commit_l (zm O) wfuel P A p g) = Ok (w', r, p', g') ->
  vok (p_l P) (p_d P) r.
Proof.
  intros HA. rewrite (commit_v O wfuel P A p g HA). intros E. apply bind_ok_inv in E. destruct E as ([r0 g0] & E0 & E).
  destruct (pv_zenc_v O wfuel (p_l P) (p_d P) g) as [_ H0]. specialize (H0 _ E0). cbn [fst] in H0.
  apply bind_ok_inv in E. destruct E as ([[r1 p1] g1] & E1 & E).
  destruct (pv_noise_v O wfuel (p_uw P) (p_rep P) (p_kappa P) (p_l P) (p_d P) r0 p g0 H0) as [_ H1]. specialize (H1 _ E1). unfold fst3 in H1. cbn [fst] in H1.
  cbv zeta in E. apply bind_ok_inv in E. destruct E as ([[w1 p2] g2] & E2 & E). apply ok_inj in E. apply pair_equal_spec in E. destruct E as [E _]. apply pair_equal_spec in E. destruct E as [E _]. apply pair_equal_spec in E. destruct E as [_ E].
  rewrite <- E. exact (proj2 (pv_ntt_v O (p_l P) (p_d P) r1 H1)).
Qed.
Lemma respond_shape O wfuel P c s r g z' s' g' : len512 c -> vok (p_l P) (p_d P) s -> vok (p_l P) (p_d P) r ->
  fst (respond_l (zm O) wfuel P c s r g) = Ok (z', s', g') -> vok (p_l P) (p_d P) s'.
Proof.
  intros Hc Hs Hr. rewrite (respond_v O wfuel P c s r g Hc Hs Hr). intros E. apply bind_ok_inv in E. destruct E as ([s1 g1] & E1 & E).
  destruct (pv_refresh_v O wfuel (p_l P) (p_d P) s g Hs) as [_ H1]. specialize (H1 _ E1). cbn [fst] in H1.
  apply bind_ok_inv in E. destruct E as ([r1 g2] & E2 & E). cbv zeta in E. apply bind_ok_inv in E. destruct E as ([z1 g3] & E3 & E). apply ok_inj in E.
  apply pair_equal_spec in E. destruct E as [E _]. apply pair_equal_spec in E. destruct E as [_ E]. rewrite <- E. exact H1.
Qed.

Lemma sign_loop_l_value O V wfuel P A t mu : (p_omega P < 256)%nat -> aok (p_k P) (p_l P) A -> forall fuel s p g sig, vok (p_l P) (p_d P) s ->
  fst (sign_loop_l O V wfuel fuel P A t mu s p g sig) = sign_loop O wfuel fuel P A t mu s p g sig.
Proof.
  intros Ho HA. induction fuel as [|fuel IH]; intros s p g sig Hs; [reflexivity|].
  rewrite (sign_split O wfuel fuel P A t mu s p g sig Ho HA Hs). cbn [sign_loop_l]. rewrite fst_bind.
  destruct (fst (commit_l (zm O) wfuel P A p g)) as [[[[w' r] p1] g1]| |] eqn:Ec; cbn [bind]; [|reflexivity..].
  pose proof (commit_shape O wfuel P A p g w' r p1 g1 HA Ec) as Hr. cbv zeta. rewrite fst_bind. cbn [fst].
  destruct (chal_poly O wfuel (p_omega P) _) as [c| |] eqn:Eh; cbn [bind]; [|reflexivity..].
  assert (Lc : len512 (ntt c)) by (unfold len512; rewrite ntt_len; exact (chal_len _ _ _ _ _ Ho Eh)).
  rewrite fst_bind. destruct (fst (respond_l (zm O) wfuel P (ntt c) s r g1)) as [[[z' s1] g2]| |] eqn:Er; cbn [bind]; [|reflexivity..].
  pose proof (respond_shape O wfuel P (ntt c) s r g1 z' s1 g2 Lc Hs Hr Er) as Hs1. rewrite rest_finish, fst_bind. cbn [fst].
  destruct (finish_attempt P A t w' _ (ntt c) z' sig) as [[[|] sig']| |]; cbn [bind]; [reflexivity| |reflexivity..]. apply IH, Hs1.
Qed.

Lemma app_tl {A} (a b c : list A) : b = c -> a ++ b = a ++ c.
Proof. intros ->. reflexivity. Qed.
Lemma cons_tl {A} (a : A) b c : b = c -> a :: b = a :: c.
Proof. intros ->. reflexivity. Qed.
Lemma cons_inv {A} (a b : A) x y : a :: x = b :: y -> a = b /\ x = y.
Proof. intros E. injection E as E1 E2. split; assumption. Qed.
(* equal candidates, equal traces *)
Lemma sign_loop_l_trace O V wfuel P A t mu : forall fuel s s' p p' g sig,
  candidates O wfuel fuel P A t mu s p g sig = candidates O wfuel fuel P A t mu s' p' g sig ->
  snd (sign_loop_l O V wfuel fuel P A t mu s p g sig) = snd (sign_loop_l O V wfuel fuel P A t mu s' p' g sig).
Proof.
  induction fuel as [|fuel IH]; intros s s' p p' g sig E; [reflexivity|]. cbn [sign_loop_l candidates] in *. unfold lbind at 1 5.
  destruct (commit_n O wfuel P A A p p' g) as [T Rl].
  destruct (fst (commit_l (zm O) wfuel P A p g)) as [[[[w1 r1] p1] g1]| |], (fst (commit_l (zm O) wfuel P A p' g)) as [[[[w2 r2] p2] g2]| |]; try contradiction; cbn [snd]; [|exact T|exact T].
  unfold same_g in Rl. cbn [snd] in Rl. subst g2. rewrite T. apply app_tl. apply cons_inv in E. destruct E as [Ew E]. subst w2. cbv zeta in E |- *. cbv zeta in E.
  unfold lbind at 1 4. cbn [fst]. destruct (chal_poly O wfuel (p_omega P) _) as [c| |]; cbn [snd]; [|reflexivity..]. apply app_tl.
  unfold lbind at 1 3. destruct (respond_n O wfuel P (ntt c) (ntt c) s s' r1 r2 g1) as [T2 R2].
  destruct (fst (respond_l (zm O) wfuel P (ntt c) s r1 g1)) as [[[z1 s1] g2]| |], (fst (respond_l (zm O) wfuel P (ntt c) s' r2 g1)) as [[[z2 s2] g3]| |]; try contradiction; cbn [snd]; [|exact T2|exact T2].
  unfold same_g in R2. cbn [snd] in R2. subst g3. rewrite T2. apply app_tl. apply cons_inv in E. destruct E as [Ez E]. subst z2.
  unfold lbind. cbn [fst snd]. destruct (finish_attempt P A t w1 _ (ntt c) z1 sig) as [[[|] sig']| |]; cbn [snd]; [reflexivity| |reflexivity..]. apply app_tl. apply IH. exact E.
Qed.

(* the candidates depend on the unmasked secret only *)
Lemma commit_ok O wfuel P A p g w' r p' g' : params_ok P = true -> aok (p_k P) (p_l P) A ->
  fst (commit_l (zm O) wfuel P A p g) = Ok (w', r, p', g') -> pv_ok (p_l P) (p_d P) r.
Proof.
  intros HP HA. rewrite (commit_v O wfuel P A p g HA). intros E. destruct (params_facts P HP) as (kb & e & F). pose proof (pf_d _ _ _ F) as Ed. pose proof (pf_uw _ _ _ F) as Huw. pose proof (pf_l _ _ _ F) as Hl.
  assert (P2 : pow2 (p_d P)) by (exists e; exact Ed).
  apply bind_ok_inv in E. destruct E as ([r0 g0] & E0 & E). destruct (wp_fst _ _ _ (pv_zero_encoding_ok O wfuel (p_l P) (p_d P) g P2) E0) as [H0 _]. cbn [fst] in H0.
  apply bind_ok_inv in E. destruct E as ([[r1 p1] g1] & E1 & E). destruct p as [tp pos].
  destruct (wp_fst _ _ _ (add_noise O wfuel P [] [] [] tp [] HP (p_uw P) (p_l P) r0 pos g0 ltac:(lia) ltac:(lia) H0) E1) as [H1 _]. cbn [fst] in H1.
  cbv zeta in E. apply bind_ok_inv in E. destruct E as ([[w1 p2] g2] & E2 & E). apply ok_inj in E. apply pair_equal_spec in E. destruct E as [E _]. apply pair_equal_spec in E. destruct E as [E _]. apply pair_equal_spec in E. destruct E as [_ E].
  rewrite <- E. exact (pv_ntt_ok _ _ _ H1).
Qed.
Lemma pv_w_vok n d v : pv_w n d v -> vok n d v.
Proof. intros [L F]. split; [exact L|]. refine (Forall_impl _ _ F). intros a [La Fa]. split; [exact La|]. refine (Forall_impl _ _ Fa). intros x Hx. exact (proj1 Hx). Qed.
Lemma respond_z O wfuel P c s r g z' s1 g1 : pow2 (p_d P) -> is_poly c -> pv_w (p_l P) (p_d P) s -> pv_ok (p_l P) (p_d P) r ->
  fst (respond_l (zm O) wfuel P c s r g) = Ok (z', s1, g1) ->
  z' = one (map2 ring_add (map (fun p => pw_mul p c) (map unmask s)) (map unmask r)) /\ pv_w (p_l P) (p_d P) s1 /\ map unmask s1 = map unmask s.
Proof.
  intros P2 Hc Hs Hr. rewrite (respond_v O wfuel P c s r g (proj1 Hc) (pv_w_vok _ _ _ Hs) (pv_w_vok _ _ _ (pv_ok_w _ _ _ Hr))). intros E.
  apply bind_ok_inv in E. destruct E as ([s2 g2] & E1 & E). destruct (wp_fst _ _ _ (pv_refresh_w O wfuel _ _ s g P2 Hs) E1) as [S1 S2]. cbn [fst] in S1, S2.
  apply bind_ok_inv in E. destruct E as ([r2 g3] & E2 & E). destruct (wp_fst _ _ _ (pv_refresh_ok O wfuel _ _ r g2 P2 Hr) E2) as [T1 T2]. cbn [fst] in T1, T2.
  cbv zeta in E. destruct (pv_mul_poly_ok _ _ s2 c S1 Hc) as [Q1 Q2]. rewrite S2 in Q2. destruct (pv_add_ok _ _ _ _ Q1 T1) as [Z1 Z2]. rewrite Q2, T2 in Z2.
  apply bind_ok_inv in E. destruct E as ([z2 g4] & E3 & E). destruct (wp_fst _ _ _ (pv_refresh_ok O wfuel _ _ _ g3 P2 Z1) E3) as [Z3 Z4]. cbn [fst] in Z3, Z4. rewrite Z2 in Z4.
  apply ok_inj in E. apply pair_equal_spec in E. destruct E as [E _]. apply pair_equal_spec in E. destruct E as [Ez Es]. rewrite <- Ez, <- Es.
  split; [|split; assumption]. rewrite (decode_one _ _ _ Z3), Z4. reflexivity.
Qed.
Lemma candidates_unmask O wfuel P A t mu : params_ok P = true -> aok (p_k P) (p_l P) A -> forall fuel s s' p g sig,
  pv_w (p_l P) (p_d P) s -> pv_w (p_l P) (p_d P) s' -> map unmask s = map unmask s' ->
  candidates O wfuel fuel P A t mu s p g sig = candidates O wfuel fuel P A t mu s' p g sig.
Proof.
  intros HP HA. destruct (params_facts P HP) as (kb & e & F). assert (P2 : pow2 (p_d P)) by (exists e; exact (pf_d _ _ _ F)).
  induction fuel as [|fuel IH]; intros s s' p g sig Hs Hs' Eu; [reflexivity|]. cbn [candidates].
  destruct (fst (commit_l (zm O) wfuel P A p g)) as [[[[w1 r1] p1] g1]| |] eqn:Ec; [|reflexivity..]. apply cons_tl. cbv zeta.
  pose proof (commit_ok O wfuel P A p g w1 r1 p1 g1 HP HA Ec) as Hr.
  destruct (chal_poly O wfuel (p_omega P) _) as [c| |] eqn:Eh; [|reflexivity..].
  assert (Pc : is_poly (ntt c)). { apply ntt_poly. pose proof (wp_fst _ _ _ (chal_poly_ok O wfuel (p_omega P) _ (params_omega P HP)) Eh) as X. apply (challenge_poly_facts _ _ _ X). }
  destruct (respond_n O wfuel P (ntt c) (ntt c) s s' r1 r1 g1) as [_ R2].
  destruct (fst (respond_l (zm O) wfuel P (ntt c) s r1 g1)) as [[[z1 s1] g2]| |] eqn:E1, (fst (respond_l (zm O) wfuel P (ntt c) s' r1 g1)) as [[[z2 s2] g3]| |] eqn:E2; try contradiction; [|reflexivity..].
  unfold same_g in R2. cbn [snd] in R2. subst g3.
  destruct (respond_z O wfuel P (ntt c) s r1 g1 z1 s1 g2 P2 Pc Hs Hr E1) as (Z1 & W1 & U1).
  destruct (respond_z O wfuel P (ntt c) s' r1 g1 z2 s2 g2 P2 Pc Hs' Hr E2) as (Z2 & W2 & U2).
  assert (Ez : z1 = z2) by (rewrite Z1, Z2, Eu; reflexivity). rewrite <- Ez. apply cons_tl.
  destruct (finish_attempt P A t w1 _ (ntt c) z1 sig) as [[[|] sig']| |]; [reflexivity| |reflexivity..]. apply IH; [exact W1|exact W2|]. rewrite U1, U2. exact Eu.
Qed.

(* the whole function *)
Lemma sk_sign_l_value O V fuel P sk msg sig tp : params_ok P = true -> vok (p_l P) (p_d P) (sk_s sk) ->
  fst (sk_sign_l O V fuel P sk msg sig tp) = sk_sign O fuel P sk msg sig tp.
Proof.
  intros HP Hs. destruct (params_kl P HP) as [Hk Hl]. unfold sk_sign_l, sk_sign. cbv zeta. rewrite fst_bind. cbn [fst].
  destruct (bind_msg O P (sk_pkey sk) msg) as [mu| |]; cbn [bind]; [|reflexivity..].
  destruct (expandA O fuel (p_k P) (p_l P) (pk_seed (sk_pkey sk))) as [A| |] eqn:EA; cbn [bind]; [|reflexivity..].
  apply sign_loop_l_value; [exact (params_omega P HP)|exact (expandA_aok O fuel _ _ _ A Hk Hl EA)|exact Hs].
Qed.
Lemma sk_sign_l_trace O V fuel P pk s s' msg sig tp tp' :
  sign_candidates O fuel P (Skey pk s) msg sig tp = sign_candidates O fuel P (Skey pk s') msg sig tp' ->
  snd (sk_sign_l O V fuel P (Skey pk s) msg sig tp) = snd (sk_sign_l O V fuel P (Skey pk s') msg sig tp').
Proof.
  unfold sign_candidates, sk_sign_l. cbn [sk_pkey sk_s]. cbv zeta. unfold lbind. cbn [fst snd].
  destruct (bind_msg O P pk msg) as [mu| |]; cbn [bind snd]; [|reflexivity..].
  destruct (expandA O fuel (p_k P) (p_l P) (pk_seed pk)) as [A| |]; cbn [bind snd]; [|reflexivity..].
  intros E. apply app_tl. apply sign_loop_l_trace. exact E.
Qed.
Lemma sign_candidates_unmask O fuel P pk s s' msg sig tp : params_ok P = true ->
  masked_vec49 (p_l P) (p_d P) s -> masked_vec49 (p_l P) (p_d P) s' -> map unmask s = map unmask s' ->
  sign_candidates O fuel P (Skey pk s) msg sig tp = sign_candidates O fuel P (Skey pk s') msg sig tp.
Proof.
  intros HP Hs Hs' Eu. destruct (params_kl P HP) as [Hk Hl]. unfold sign_candidates. cbn [sk_pkey sk_s]. cbv zeta.
  destruct (bind_msg O P pk msg) as [mu| |]; [|reflexivity..].
  destruct (expandA O fuel (p_k P) (p_l P) (pk_seed pk)) as [A| |] eqn:EA; [|reflexivity..].
  apply candidates_unmask; [exact HP|exact (expandA_aok O fuel _ _ _ A Hk Hl EA)|exact Hs|exact Hs'|exact Eu].
Qed.
