(* The signing loop of ModelScheme.v is the composition of [commit_l], the public computations and
   [respond_l]; shapes of the values they are applied to. *)
From Coq Require Import ZArith Lia Bool List Arith.
From Verif Require Import ModelBase ModelU128 ModelField ModelUtils ModelPoly ModelVec ModelSerial ModelScheme ModelLeak.
From Verif Require Import Spec SpecScheme Words MaskedProofs SampleProofs ParamProofs LeakProofs LeakRel LeakValues.
Import ListNotations.
Open Scope Z_scope.
Opaque powers_of_zeta neg_powers_of_zeta INV_N zq_add zq_sub zq_mul Q R Q_BIT_WIDTH ntt intt.

Lemma expandA_aok O fuel k l seed A : (k <= 256)%nat -> (l <= 256)%nat -> expandA O fuel k l seed = Ok A -> aok k l A.
Proof.
  intros Hk Hl E. destruct (wp_Ok _ _ _ (expandA_ok O fuel k l seed Hk Hl) E) as [L U]. split; [exact L|]. apply Forall_forall. intros x Hx.
  destruct (In_nth A x [] Hx) as [n [Hn <-]]. unfold poly in *. rewrite L in Hn. assert (l <> 0)%nat by (intros ->; rewrite Nat.mul_0_r in Hn; lia).
  assert (Hr : (n / l < k)%nat) by (apply Nat.div_lt_upper_bound; lia). pose proof (Nat.mod_upper_bound n l ltac:(assumption)) as Hc.
  specialize (U (n / l)%nat (n mod l)%nat Hr Hc). unfold mat_get in U. replace (n / l * l + n mod l)%nat with n in U by (pose proof (Nat.div_mod n l ltac:(assumption)); lia).
  destruct U as (m & Lm & Em). unfold len512. transitivity (length (firstn 512 (accepted49 (matrix_stream (hash_of O) seed (n / l) (n mod l)) m))); [exact (f_equal (@length Z) Em)|]. rewrite firstn_length. lia.
Qed.
Lemma chal_len O fuel omega c_hash c : (omega < 256)%nat -> chal_poly O fuel omega c_hash = Ok c -> len512 c.
Proof.
  intros Ho E. pose proof (wp_Ok _ _ _ (chal_poly_ok O fuel omega c_hash Ho) E) as H. apply challenge_poly_facts in H. apply H.
Qed.
Lemma bind_assoc {A B C} (m : res A) (f : A -> res B) (g : B -> res C) : bind (bind m f) g = bind m (fun a => bind (f a) g).
Proof. destruct m; reflexivity. Qed.

(* secret_key.hpp:180-206: what follows the response in one attempt; public data only *)
Definition rest_of_attempt (P : params) (A : pmat) (t w' : pvec) (c_hash : list Z) (c : poly) (z' : pvec) (sig : list Z)
  (again : list Z -> res (list Z)) : res (list Z) :=
  let y := pv_sub (mat_mul (p_k P) (p_l P) 1 A z') (pv_mul_poly t c) in
  let y := pv_rounding_shr (p_nuw P) (pv_intt y) in
  let h := pv_sub_mod (shr64 Q (p_nuw P)) w' y in
  let sg := sig_make (p_nuw P) c_hash h (pv_intt z') in
  '(is_encoded, sig) <- sig_to_bytes sg sig ;;
  if negb is_encoded then again sig
  else
    is_under_bounds <- check_bounds (p_nuw P) (p_Binf P) (p_B22 P) sg ;;
    if negb is_under_bounds then again sig else Ok sig.

Lemma sign_split O wfuel fuel P A t mu s p m sig : (p_omega P < 256)%nat -> aok (p_k P) (p_l P) A -> vok (p_l P) (p_d P) s ->
  sign_loop O wfuel (S fuel) P A t mu s p m sig =
  ('(w', r, p, m) <- fst (commit_l (zm O) wfuel P A p m) ;;
   let c_hash := chal_hash O (p_kappa P) (p_k P) w' mu in
   c <- chal_poly O wfuel (p_omega P) c_hash ;;
   '(z', s, m) <- fst (respond_l (zm O) wfuel P (ntt c) s r m) ;;
   rest_of_attempt P A t w' c_hash (ntt c) z' sig (fun sig => sign_loop O wfuel fuel P A t mu s p m sig)).
Proof.
  intros Ho HA Hs. rewrite (commit_v O wfuel P A p m HA). cbn [sign_loop]. rewrite bind_assoc.
  eapply bind_same; [split; [reflexivity|apply pv_zenc_v]|]. intros [r m1] Hr. cbn [fst] in Hr. rewrite bind_assoc.
  eapply bind_same; [split; [reflexivity|apply (pv_noise_v O wfuel (p_uw P) (p_rep P) (p_kappa P) (p_l P)); exact Hr]|]. intros [[r1 p1] m2] Hr1. unfold fst3 in Hr1. cbn [fst] in Hr1. cbv zeta. rewrite bind_assoc.
  eapply bind_same; [split; [reflexivity|intros a _; exact Logic.I]|]. intros [[w p2] m3] _. cbn [bind].
  destruct (pv_ntt_v O (p_l P) (p_d P) r1 Hr1) as [_ Hn].
  destruct (chal_poly O wfuel (p_omega P) _) as [c| |] eqn:Ec; cbn [bind]; [|reflexivity..].
  assert (Lc : len512 (ntt c)) by (unfold len512; rewrite ntt_len; exact (chal_len _ _ _ _ _ Ho Ec)).
  rewrite (respond_v O wfuel P (ntt c) s (pv_ntt r1) m3 Lc Hs Hn). rewrite bind_assoc.
  eapply bind_same; [split; [reflexivity|intros a _; exact Logic.I]|]. intros [s1 m4] _. rewrite bind_assoc.
  eapply bind_same; [split; [reflexivity|intros a _; exact Logic.I]|]. intros [r2 m5] _. cbv zeta. rewrite bind_assoc.
  eapply bind_same; [split; [reflexivity|intros a _; exact Logic.I]|]. intros [z m6] _. reflexivity.
Qed.
Lemma generate_split O fuel P seed tp A : aok (p_k P) (p_l P) A -> expandA O fuel (p_k P) (p_l P) seed = Ok A ->
  sk_generate O fuel P seed tp =
  ('(t, s) <- fst (generate_l (zm O) fuel P A (prng_new tp) (mrng_new O (p_d P))) ;; Ok (Skey (Pkey seed t) s)).
Proof.
  intros HA E. rewrite (generate_v O fuel P A _ _ HA). unfold sk_generate. cbv zeta. rewrite E. cbn [bind]. rewrite bind_assoc.
  eapply bind_same; [split; [reflexivity|intros a _; exact Logic.I]|]. intros [s1 m4] _. rewrite bind_assoc.
  eapply bind_same; [split; [reflexivity|intros a _; exact Logic.I]|]. intros [[r2 p2] m5] _. cbv zeta. rewrite bind_assoc.
  eapply bind_same; [split; [reflexivity|intros a _; exact Logic.I]|]. intros [[z p3] m6] _. reflexivity.
Qed.

Lemma params_kl P : params_ok P = true -> (p_k P <= 256)%nat /\ (p_l P <= 256)%nat.
Proof.
  intros H. apply params_ok_cases in H. destruct H as (d & _ & [E|[E|E]]); subst P; cbn; lia.
Qed.
Lemma params_omega P : params_ok P = true -> (p_omega P < 256)%nat.
Proof.
  intros H. apply params_ok_cases in H. destruct H as (d & _ & [E|[E|E]]); subst P; cbn; lia.
Qed.
