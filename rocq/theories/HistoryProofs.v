(* Every history of API calls keeps the key pair working. *)
From Coq Require Import ZArith Lia Bool List Arith.
From Coq Require Import ZifyBool ZifyNat.
From Verif Require Import ModelBase ModelU128 ModelField ModelUtils ModelPoly ModelVec ModelSerial ModelScheme ModelApi.
From Verif Require Import Spec SpecScheme SpecSig SpecVerify SpecApi.
From Verif Require Import Words FieldProofs ArithLemmas BytesProofs PolyProofs Cong MaskedProofs LinProofs SampleProofs NoiseProofs PolyLemmas MaskedLemmas.
From Verif Require Import ParamProofs SkeyProofs KeyLemmas PackProofs FinProofs SigEnc SigLemmas SchemeCore VerifyProofs SignProofs SignVerify KeygenProofs.
Import ListNotations.
Open Scope Z_scope.
Ltac Zify.zify_post_hook ::= idtac.

Lemma skipn_map2 {A B C} (f : A -> B -> C) n : forall a b, skipn n (map2 f a b) = map2 f (skipn n a) (skipn n b).
Proof. induction n as [|n IH]; intros [|x a] [|y b]; try reflexivity; cbn [map2 skipn]; [destruct (skipn n a); reflexivity|apply IH]. Qed.
Lemma mp_refresh_k O fuel d a m : pow2 d -> (1 <= d)%nat -> kshares d a ->
  wp (mp_refresh O fuel d a m) (fun r => kshares d (fst r) /\ forall k, usum k (fst r) == usum k a).
Proof.
  intros Hd Hd1 Ha. unfold mp_refresh. apply wp_bind.
  apply (wp_mono _ _ _ (mp_zero_encoding_ok O fuel d m Hd)). intros [z m'] [Hz Hs]. cbn [fst] in *. cbn [wp fst].
  destruct (map2_mp d a z (kshares_w d a Ha ltac:(lia)) Hz) as [[H1 H1'] H2]. split; [|intros k; rewrite H2, Hs; apply cg_refl'; ring].
  destruct Ha as (La & W0 & Fa). destruct Hz as [Lz Fz]. split; [exact H1|]. split.
  - rewrite Forall_forall in H1'. apply H1', nth_In. unfold poly in *. lia.
  - unfold mp_add. rewrite skipn_map2. apply (map2_Forall poly_add is_poly is_poly); [apply poly_add_c|exact Fa|apply skipn_Forall, Fz].
Qed.
Lemma secret_49 l d s : (1 <= d)%nat -> secret_vec l d s -> masked_vec49 l d s.
Proof.
  intros Hd [L F]. split; [exact L|]. refine (Forall_impl _ _ F). intros row Hrow. apply (kshares_w d row Hrow). lia.
Qed.
Lemma refresh_secret O fuel P sk e : p_d P = (2 ^ e)%nat -> secret_vec (p_l P) (p_d P) (sk_s sk) ->
  wp (sk_refresh O fuel P sk) (fun sk' => sk_pkey sk' = sk_pkey sk /\ map unmask (sk_s sk') = map unmask (sk_s sk) /\
    secret_vec (p_l P) (p_d P) (sk_s sk')).
Proof.
  intros Hd [L F]. assert (P2 : pow2 (p_d P)) by (exists e; exact Hd).
  assert (D1 : (1 <= p_d P)%nat) by (rewrite Hd; pose proof (Nat.pow_nonzero 2 e ltac:(lia)); lia).
  unfold sk_refresh. apply wp_bind.
  refine (wp_mono _ _ _ (pv_refresh_gen (kshares (p_d P)) O fuel (p_d P) (sk_s sk) (fun a m H => mp_refresh_k O fuel (p_d P) a m P2 D1 H) F _) _).
  intros [s m] [F' E]. cbn [fst] in *. cbn [wp sk_pkey sk_s]. split; [reflexivity|]. split; [exact E|]. split; [|exact F'].
  apply (f_equal (@length (list Z))) in E. rewrite !map_length in E. rewrite E. exact L.
Qed.

Section Hist.
Variables (O : oracles) (fuel : nat) (P : params) (pk0 : pkey) (us : list (list Z)).
Hypothesis HP : params_ok P = true.
Definition api_inv (st : api_state) : Prop :=
  valid_public (Z.to_nat (p_kappa P / 8)) (p_k P) (pk_seed pk0) (pk_t pk0) /\
  a_pk st = pk0 /\ sk_pkey (a_sk st) = pk0 /\ map unmask (sk_s (a_sk st)) = us /\ secret_vec (p_l P) (p_d P) (sk_s (a_sk st)) /\
  Forall (fun ms => zlen (snd ms) = p_siglen P /\ Forall is_byte (snd ms) /\ verify O fuel P pk0 (fst ms) (snd ms) = Ok true) (a_signed st).
Lemma api_step_inv st op : api_inv st -> op_ok P op ->
  (forall st', api_step O fuel P st op = Ok st' -> api_inv st' /\ map fst (a_signed st') = map fst (a_signed st) ++ signs op) /\
  (signs op = [] -> (forall m s, op <> op_verify m s) -> api_step O fuel P st op <> UB).
Proof.
  intros (V & Ep & Es & Eu & Hs & Fs) Hop. destruct (params_facts P HP) as (kb & e & F). pose proof (d1 P kb e F) as Hd.
  destruct op as [|buf tp|buf| |msg buf tp|msg sig]; cbn [api_step signs op_ok] in *.
  - pose proof (refresh_secret O fuel P (a_sk st) e (pf_d _ _ _ F) Hs) as G.
    destruct (sk_refresh O fuel P (a_sk st)) as [sk'| |]; cbn [bind wp] in *; [|destruct G|split; [intros st' E; discriminate E|intros _ _ E; discriminate E]].
    split; [|intros _ _ E; discriminate E]. intros st' E. apply ok_inj in E. subst st'. destruct G as (G1 & G2 & G3). cbn [a_signed]. split; [|rewrite app_nil_r; reflexivity].
    split; [exact V|]. cbn [a_sk a_pk a_signed]. split; [exact Ep|]. split; [rewrite G1; exact Es|]. split; [rewrite G2; exact Eu|]. split; [exact G3|exact Fs].
  - change (prng_new tp) with (Prng tp 0).
    assert (V' : valid_public (Z.to_nat (p_kappa P / 8)) (p_k P) (pk_seed (sk_pkey (a_sk st))) (pk_t (sk_pkey (a_sk st)))) by (rewrite Es; exact V).
    destruct (sk_roundtrip O fuel P (a_sk st) buf tp 0 HP V' Hs Hop) as [G1 G2].
    destruct (sk_to_bytes O fuel P (a_sk st) buf (Prng tp 0)) as [[bytes p]| |]; cbn [bind]; [|contradiction|split; [intros st' E; discriminate E|intros _ _ E; discriminate E]].
    destruct (G2 bytes p eq_refl) as (_ & _ & sk' & E1 & E2 & E3 & E4). rewrite E1. cbn [bind].
    split; [|intros _ _ E; discriminate E]. intros st' E. apply ok_inj in E. subst st'. cbn [a_signed]. split; [|rewrite app_nil_r; reflexivity].
    split; [exact V|]. cbn [a_sk a_pk a_signed]. split; [exact Ep|]. split; [rewrite E2; exact Es|]. split; [rewrite E3; exact Eu|]. split; [exact E4|exact Fs].
  - rewrite Ep. destruct (pk_key_roundtrip P pk0 buf HP V Hop) as (bytes & E1 & _ & _ & _ & E2). rewrite E1. cbn [bind]. rewrite E2. cbn [bind].
    split; [|intros _ _ E; discriminate E]. intros st' E. apply ok_inj in E. subst st'. cbn [a_signed]. split; [|rewrite app_nil_r; reflexivity].
    split; [exact V|]. cbn [a_sk a_pk a_signed]. split; [reflexivity|]. split; [exact Es|]. split; [exact Eu|]. split; [exact Hs|exact Fs].
  - split; [|intros _ _ E; discriminate E]. intros st' E. apply ok_inj in E. subst st'. cbn [a_signed]. split; [|rewrite app_nil_r; reflexivity].
    split; [exact V|]. cbn [a_sk a_pk a_signed]. split; [exact Es|]. split; [exact Es|]. split; [exact Eu|]. split; [exact Hs|exact Fs].
  - split; [|intros E; discriminate E]. intros st' E. apply bind_ok_inv in E. destruct E as (sig & ES & E). apply ok_inj in E. subst st'. cbn [a_signed]. rewrite map_app. split; [|reflexivity].
    assert (V' : valid_public (Z.to_nat (p_kappa P / 8)) (p_k P) (pk_seed (sk_pkey (a_sk st))) (pk_t (sk_pkey (a_sk st)))) by (rewrite Es; exact V).
    destruct (sign_verifies O fuel P (a_sk st) msg buf tp sig HP V' (secret_49 _ _ _ Hd Hs) Hop ES) as (L & B & _ & VT). rewrite Es in VT.
    split; [exact V|]. cbn [a_sk a_pk a_signed]. split; [exact Ep|]. split; [exact Es|]. split; [exact Eu|]. split; [exact Hs|].
    apply Forall_app. split; [exact Fs|]. constructor; [|constructor]. cbn [fst snd]. split; [exact L|split; [exact B|exact VT]].
  - split; [|intros _ N; exfalso; apply (N msg sig); reflexivity]. intros st' E. apply bind_ok_inv in E. destruct E as (b & EV & E). apply ok_inj in E. subst st'. cbn [a_signed].
    split; [|rewrite app_nil_r; reflexivity]. split; [exact V|]. cbn [a_sk a_pk a_signed]. split; [exact Ep|]. split; [exact Es|]. split; [exact Eu|]. split; [exact Hs|exact Fs].
Qed.
Lemma api_run_inv ops : forall st, api_inv st -> Forall (op_ok P) ops ->
  (forall st', api_run O fuel P st ops = Ok st' -> api_inv st' /\ map fst (a_signed st') = map fst (a_signed st) ++ concat (map signs ops)) /\
  (concat (map signs ops) = [] -> (forall m s, ~ In (op_verify m s) ops) -> api_run O fuel P st ops <> UB).
Proof.
  unfold api_run. induction ops as [|op ops IH]; intros st Hst Hops; cbn [foldM map concat].
  - split; [intros st' E; apply ok_inj in E; subst st'; split; [exact Hst|rewrite app_nil_r; reflexivity]|intros _ _ E; discriminate E].
  - inversion Hops as [|? ? H1 H2]; subst. destruct (api_step_inv st op Hst H1) as [S1 S2].
    destruct (api_step O fuel P st op) as [st1| |]; cbn [bind].
    + destruct (S1 st1 eq_refl) as [I1 E1]. destruct (IH st1 I1 H2) as [R1 R2]. split.
      * intros st' E. destruct (R1 st' E) as [I2 E2]. split; [exact I2|]. rewrite E2, E1, app_assoc. reflexivity.
      * intros C N. apply app_eq_nil in C. destruct C as [_ C]. apply R2; [exact C|]. intros m s HI. apply (N m s). right. exact HI.
    + split; [intros st' E; discriminate E|]. intros C N _. apply app_eq_nil in C. destruct C as [C _]. apply S2; [exact C|intros m s ->; apply (N m s); left; reflexivity|reflexivity].
    + split; [intros st' E; discriminate E|intros _ _ E; discriminate E].
Qed.
(* the results of all calls of verify *)
Lemma api_run_verified ops : forall st st', api_inv st -> Forall (op_ok P) ops -> api_run O fuel P st ops = Ok st' ->
  exists bs, a_verified st' = a_verified st ++ bs /\
    Forall2 (fun ms b => zlen (snd ms) = p_siglen P /\ Forall is_byte (snd ms) /\ verify O fuel P pk0 (fst ms) (snd ms) = Ok b) (concat (map verifies ops)) bs.
Proof.
  unfold api_run. induction ops as [|op ops IH]; intros st st' Hst Hops E; cbn [foldM map concat] in *.
  - apply ok_inj in E. subst st'. exists []. rewrite app_nil_r. split; [reflexivity|constructor].
  - inversion Hops as [|? ? H1 H2]; subst. apply bind_ok_inv in E. destruct E as (st1 & E1 & E). destruct (api_step_inv st op Hst H1) as [S1 _].
    destruct (S1 st1 E1) as [I1 _]. destruct (IH st1 st' I1 H2 E) as (bs & Eb & F).
    destruct op as [|buf tp|buf| |msg buf tp|msg sig]; cbn [api_step verifies app] in *; try (repeat (apply bind_ok_inv in E1; destruct E1 as (? & _ & E1));
      try (match type of E1 with context [match ?x with pair _ _ => _ end] => destruct x end; apply bind_ok_inv in E1; destruct E1 as (? & _ & E1));
      apply ok_inj in E1; subst st1; exists bs; split; [exact Eb|exact F]).
    apply bind_ok_inv in E1. destruct E1 as (b & EV & E1). apply ok_inj in E1. subst st1. cbn [a_verified] in Eb. exists (b :: bs).
    split; [rewrite Eb, <- app_assoc; reflexivity|]. constructor; [|exact F]. cbn [fst snd]. destruct H1 as [L B]. split; [exact L|]. split; [exact B|].
    destruct Hst as (_ & Ep & _). rewrite <- Ep. exact EV.
Qed.
End Hist.

Lemma api_start_inv O fuel P st : params_ok P = true -> api_start O fuel P st ->
  api_inv O fuel P (a_pk st) (map unmask (sk_s (a_sk st))) st /\ a_signed st = [] /\ a_verified st = [].
Proof.
  intros HP H. destruct (params_facts P HP) as (kb & e & F). pose proof (d1 P kb e F) as Hd.
  destruct H as [(seed & tp & Bs & Ls & E)|(bytes & B & L & E)]; apply bind_ok_inv in E; destruct E as (sk & E1 & E2); apply ok_inj in E2; subst st.
  - pose proof (generate_spec O fuel P seed tp HP Bs Ls) as G. rewrite E1 in G. cbn [wp] in G. destruct G as (_ & V & M & _).
    split; [|split; reflexivity]. split; [exact V|]. cbn [a_sk a_pk a_signed]. split; [reflexivity|]. split; [reflexivity|]. split; [reflexivity|]. split; [|constructor].
    apply secret_of_masked; [exact Hd|exact M].
  - destruct (sk_decode_shape O fuel P bytes HP B L) as (_ & _ & G). destruct (G sk E1) as (V & S & _).
    split; [|split; reflexivity]. split; [exact V|]. cbn [a_sk a_pk a_signed]. split; [reflexivity|]. split; [reflexivity|]. split; [reflexivity|]. split; [exact S|constructor].
Qed.
Lemma api_history O fuel P st0 ops : params_ok P = true -> api_start O fuel P st0 -> Forall (op_ok P) ops ->
  (forall st, api_run O fuel P st0 ops = Ok st ->
     a_pk st = a_pk st0 /\ sk_pkey (a_sk st) = a_pk st0 /\ map unmask (sk_s (a_sk st)) = map unmask (sk_s (a_sk st0)) /\
     map fst (a_signed st) = concat (map signs ops) /\
     Forall (fun ms => verify O fuel P (a_pk st) (fst ms) (snd ms) = Ok true) (a_signed st) /\
     Forall2 (fun ms b => b = true <-> valid_signature (hash_of O) (row_of P) (pk_seed (a_pk st0)) (pk_t (a_pk st0)) (fst ms) (snd ms))
       (concat (map verifies ops)) (a_verified st) /\
     forall msg buf tp sig, zlen buf = p_siglen P -> sk_sign O fuel P (a_sk st) msg buf tp = Ok sig ->
       verify O fuel P (a_pk st) msg sig = Ok true) /\
  (concat (map signs ops) = [] -> (forall m s, ~ In (op_verify m s) ops) -> api_run O fuel P st0 ops <> UB).
Proof.
  intros HP H0 Hops. destruct (api_start_inv O fuel P st0 HP H0) as (I0 & E0 & E0').
  destruct (api_run_inv O fuel P (a_pk st0) _ HP ops st0 I0 Hops) as [R1 R2]. split; [|exact R2].
  intros st E. destruct (R1 st E) as [I1 E1]. pose proof I1 as (V & Ep & Es & Eu & Hs & Fs). rewrite E0 in E1. cbn [map app] in E1.
  split; [exact Ep|]. split; [exact Es|]. split; [exact Eu|]. split; [exact E1|]. split.
  - refine (Forall_impl _ _ Fs). intros ms (_ & _ & X). rewrite Ep. exact X.
  - split.
    { destruct (api_run_verified O fuel P (a_pk st0) _ HP ops st0 st I0 Hops E) as (bs & Eb & F2). rewrite E0' in Eb. cbn [app] in Eb. rewrite Eb.
      clear - F2 HP V. induction F2 as [|ms b l bs (L & B & VE) F2 IH]; constructor; [|exact IH].
      pose proof (verify_spec O fuel P (a_pk st0) (fst ms) (snd ms) HP V B L) as S. rewrite VE in S. exact S. }
    intros msg buf tp sig Lb ES. destruct (api_step_inv O fuel P (a_pk st0) (map unmask (sk_s (a_sk st0))) HP st (op_sign msg buf tp) I1 Lb) as [S1 _].
    cbn [api_step] in S1. rewrite ES in S1. cbn [bind] in S1. destruct (S1 _ eq_refl) as [(_ & _ & _ & _ & _ & X) _]. cbn [a_signed] in X.
    apply Forall_app in X. destruct X as [_ X]. inversion X as [|? ? (_ & _ & Y) _]; subst. rewrite Ep. exact Y.
Qed.
