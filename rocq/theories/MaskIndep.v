(* What a client sees does not depend on masking: equal public keys and equal shared secrets give equal
   signatures and verdicts, whatever the masks, the sharing and the refreshes in between. *)
From Coq Require Import ZArith Lia Bool List Arith.
From Verif Require Import ModelBase ModelU128 ModelField ModelUtils ModelPoly ModelVec ModelSerial ModelScheme ModelApi.
From Verif Require Import Spec SpecScheme SpecSig SpecVerify SpecApi SpecEnc.
From Verif Require Import Words FieldProofs ArithLemmas MaskedProofs PolyLemmas MaskedLemmas.
From Verif Require Import ParamProofs KeyLemmas SigEnc SigLemmas SigExact SchemeCore VerifyProofs SignProofs SignVerify KeygenProofs HistoryProofs FuelProofs TermProofs SignExact HashLemmas.
Import ListNotations.
Open Scope Z_scope.
Ltac Zify.zify_post_hook ::= idtac.

Lemma hash_eq O O' : shake256 O = shake256 O' -> hash_of O = hash_of O'.
Proof. intros E. unfold hash_of. rewrite E. reflexivity. Qed.

Lemma sign_inputs O fuel P sk msg buf tp : params_ok P = true ->
  valid_public (Z.to_nat (p_kappa P / 8)) (p_k P) (pk_seed (sk_pkey sk)) (pk_t (sk_pkey sk)) ->
  masked_vec49 (p_l P) (p_d P) (sk_s sk) -> zlen buf = p_siglen P -> sk_sign O fuel P sk msg buf tp <> OutOfFuel ->
  exists A pkb s, public_matrix (hash_of O) (pk_seed (sk_pkey sk)) (p_k P) (p_l P) A /\
    public_key_code (pk_seed (sk_pkey sk)) (pk_t (sk_pkey sk)) pkb /\ Forall is_poly s /\ map transform s = map unmask (sk_s sk).
Proof.
  intros HP V Hs Lb NF. pose proof (sign_spec_exact True 0 O fuel P sk msg buf tp HP V Hs Lb (or_intror Logic.I)) as S.
  destruct (sk_sign O fuel P sk msg buf tp) as [sig| |]; cbn [wpx] in S; [| |congruence].
  - destruct S as (_ & _ & _ & A & pkb & s & S1 & S2 & S3 & S4 & _). exists A, pkb, s. split; [exact S1|]. split; [exact S2|]. split; [exact S3|exact S4].
  - destruct S as (A & pkb & s & S1 & S2 & S3 & S4 & _). exists A, pkb, s. split; [exact S1|]. split; [exact S2|]. split; [exact S3|exact S4].
Qed.
Lemma sign_masks_irrelevant O O' fuel fuel' P sk sk' msg buf buf' tp : params_ok P = true -> shake256 O = shake256 O' ->
  valid_public (Z.to_nat (p_kappa P / 8)) (p_k P) (pk_seed (sk_pkey sk)) (pk_t (sk_pkey sk)) ->
  masked_vec49 (p_l P) (p_d P) (sk_s sk) -> masked_vec49 (p_l P) (p_d P) (sk_s sk') ->
  sk_pkey sk = sk_pkey sk' -> map unmask (sk_s sk) = map unmask (sk_s sk') ->
  zlen buf = p_siglen P -> zlen buf' = p_siglen P ->
  sk_sign O fuel P sk msg buf tp <> OutOfFuel -> sk_sign O' fuel' P sk' msg buf' tp <> OutOfFuel ->
  sk_sign O fuel P sk msg buf tp = sk_sign O' fuel' P sk' msg buf' tp.
Proof.
  intros HP EH V H1 H2 Ep Eu L1 L2 N1 N2. apply hash_eq in EH.
  destruct (sign_inputs O fuel P sk msg buf tp HP V H1 L1 N1) as (A & pkb & s & S1 & S2 & S3 & S4).
  destruct (proj1 (sign_exact O fuel P sk msg buf tp A pkb s HP V H1 L1 S1 S2 S3 S4) N1) as [X1 U1].
  rewrite EH, Ep in S1. rewrite Ep in S2, V. rewrite Eu in S4.
  destruct (proj1 (sign_exact O' fuel' P sk' msg buf' tp A pkb s HP V H2 L2 S1 S2 S3 S4) N2) as [X2 U2].
  rewrite EH, Ep in X1, U1.
  destruct (sk_sign O fuel P sk msg buf tp) as [sig| |]; [| |congruence].
  - symmetry. apply X2. apply X1. reflexivity.
  - symmetry. apply U2. apply U1. reflexivity.
Qed.
Lemma verify_masks_irrelevant O O' fuel fuel' P pk msg sig : params_ok P = true -> shake256 O = shake256 O' ->
  valid_public (Z.to_nat (p_kappa P / 8)) (p_k P) (pk_seed pk) (pk_t pk) -> Forall is_byte sig -> zlen sig = p_siglen P ->
  verify O fuel P pk msg sig <> OutOfFuel -> verify O' fuel' P pk msg sig <> OutOfFuel ->
  verify O fuel P pk msg sig = verify O' fuel' P pk msg sig.
Proof.
  intros HP EH V B L N1 N2. apply hash_eq in EH.
  pose proof (verify_spec O fuel P pk msg sig HP V B L) as S1. pose proof (verify_spec O' fuel' P pk msg sig HP V B L) as S2. rewrite <- EH in S2.
  pose proof (verify_ub_exact O fuel P pk msg sig HP V B L) as U1. pose proof (verify_ub_exact O' fuel' P pk msg sig HP V B L) as U2.
  destruct (verify O fuel P pk msg sig) as [b| |]; [| |congruence].
  - destruct (verify O' fuel' P pk msg sig) as [b'| |]; [| |congruence].
    + f_equal. destruct b, b'; try reflexivity; exfalso; (assert (true = false -> False) by discriminate); assert (false = true -> False) by discriminate; tauto.
    + exfalso. assert (X : Ok b = UB) by (apply U1, U2; reflexivity). discriminate X.
  - symmetry. apply U2, U1. reflexivity.
Qed.
Lemma rows1_inj k a b : public_vec k a -> public_vec k b -> rows1 a = rows1 b -> a = b.
Proof.
  intros [La Fa] [Lb Fb] E. apply (nth_ext _ _ [] []); [congruence|]. intros i Hi.
  rewrite Forall_forall in Fa, Fb. destruct (Fa (nth i a []) ltac:(apply nth_In; exact Hi)) as (x & Ex & _).
  destruct (Fb (nth i b []) ltac:(apply nth_In; lia)) as (y & Ey & _). rewrite Ex, Ey.
  assert (X : nth i (rows1 a) [] = nth i (rows1 b) []) by (rewrite E; reflexivity). unfold rows1 in X.
  rewrite (nth_indep _ [] ((fun row => nth 0 row []) ([] : list (list Z)))) in X by (rewrite map_length; exact Hi).
  rewrite (nth_indep (map _ b) [] ((fun row => nth 0 row []) ([] : list (list Z)))) in X by (rewrite map_length; lia).
  rewrite !(map_nth (fun row => nth 0 row ([] : list Z))), Ex, Ey in X. cbn [nth] in X. rewrite X. reflexivity.
Qed.
Lemma generate_masks_irrelevant O O' fuel fuel' P seed tp sk sk' : params_ok P = true -> shake256 O = shake256 O' ->
  Forall is_byte seed -> length seed = Z.to_nat (p_kappa P / 8) ->
  sk_generate O fuel P seed tp = Ok sk -> sk_generate O' fuel' P seed tp = Ok sk' ->
  sk_pkey sk = sk_pkey sk' /\ map unmask (sk_s sk) = map unmask (sk_s sk').
Proof.
  intros HP EH B L E1 E2. apply hash_eq in EH.
  pose proof (generate_spec O fuel P seed tp HP B L) as G. pose proof (generate_spec O' fuel' P seed tp HP B L) as G'.
  rewrite E1 in G. rewrite E2, <- EH in G'. cbn [wp] in G, G'. cbv zeta in G, G'.
  destruct G as (G1 & (_ & _ & G2) & _ & A & G4 & G5 & G6 & _). destruct G' as (G1' & (_ & _ & G2') & _ & A' & G4' & G5' & G6' & _).
  split; [|rewrite G5; symmetry; exact G5'].
  destruct (sk_pkey sk) as [sd t], (sk_pkey sk') as [sd' t']. cbn [pk_seed pk_t] in *. f_equal; [congruence|].
  apply (rows1_inj (p_k P)); [exact G2|exact G2'|]. rewrite G6, G6', (public_matrix_fun _ _ _ _ _ _ G4 G4'). reflexivity.
Qed.

(* two clients *)
Definition seen_equal (st st' : api_state) : Prop :=
  a_pk st = a_pk st' /\ sk_pkey (a_sk st) = sk_pkey (a_sk st') /\ map unmask (sk_s (a_sk st)) = map unmask (sk_s (a_sk st')) /\
  a_signed st = a_signed st' /\ a_verified st = a_verified st'.
Lemma maintenance O fuel P pk0 us st op : params_ok P = true -> api_inv O fuel P pk0 us st -> op_ok P op -> visible op = [] ->
  api_step O fuel P st op <> OutOfFuel ->
  exists st', api_step O fuel P st op = Ok st' /\ api_inv O fuel P pk0 us st' /\ seen_equal st st'.
Proof.
  intros HP I Hop Hv NF. destruct (api_step_inv O fuel P pk0 us HP st op I Hop) as [S1 S2].
  assert (NU : api_step O fuel P st op <> UB).
  { apply S2; destruct op; cbn [visible] in Hv; try discriminate Hv; try reflexivity; intros; discriminate. }
  destruct (api_step O fuel P st op) as [st'| |] eqn:E; [|congruence|congruence]. exists st'. split; [reflexivity|].
  destruct (S1 st' eq_refl) as [I' _]. split; [exact I'|].
  destruct I as (_ & Ep & Es & Eu & _). destruct I' as (_ & Ep' & Es' & Eu' & _). unfold seen_equal.
  split; [congruence|]. split; [congruence|]. split; [congruence|]. clear S1 S2 NU NF Hop.
  destruct op; cbn [api_step visible] in E, Hv; try discriminate Hv.
  - apply bind_ok_inv in E. destruct E as (x & _ & E). apply ok_inj in E. subst st'. split; reflexivity.
  - apply bind_ok_inv in E. destruct E as ([b p] & _ & E). apply bind_ok_inv in E. destruct E as (x & _ & E). apply ok_inj in E. subst st'. split; reflexivity.
  - apply bind_ok_inv in E. destruct E as (b & _ & E). apply bind_ok_inv in E. destruct E as (x & _ & E). apply ok_inj in E. subst st'. split; reflexivity.
  - apply ok_inj in E. subst st'. split; reflexivity.
Qed.
Lemma seen_sym a b : seen_equal a b -> seen_equal b a.
Proof. intros (A & B & C & D & E). repeat split; symmetry; assumption. Qed.
Lemma seen_trans a b c : seen_equal a b -> seen_equal b c -> seen_equal a c.
Proof. intros (A & B & C & D & E) (A' & B' & C' & D' & E'). repeat split; etransitivity; eassumption. Qed.
Definition same_outcome (r r' : res api_state) : Prop :=
  (r = UB /\ r' = UB) \/ (exists st st', r = Ok st /\ r' = Ok st' /\ seen_equal st st').
Lemma visible_one op v : visible op = v -> v = [] \/ exists x, v = [x].
Proof. intros <-. destruct op; cbn [visible]; [left..|right|right]; try reflexivity; eexists; reflexivity. Qed.

Section Two.
Variables (O O' : oracles) (fuel fuel' : nat) (P : params) (pk0 : pkey) (us : list (list Z)).
Hypothesis HP : params_ok P = true.
Hypothesis EH : shake256 O = shake256 O'.
Lemma sync_step st st' op op' : api_inv O fuel P pk0 us st -> api_inv O' fuel' P pk0 us st' -> seen_equal st st' ->
  op_ok P op -> op_ok P op' -> visible op = visible op' -> visible op <> [] ->
  api_step O fuel P st op <> OutOfFuel -> api_step O' fuel' P st' op' <> OutOfFuel ->
  same_outcome (api_step O fuel P st op) (api_step O' fuel' P st' op').
Proof.
  intros (V & Ep & Es & Eu & Hs & _) (_ & Ep' & Es' & Eu' & Hs' & _) (Q1 & Q2 & Q3 & Q4 & Q5) H1 H2 Ev Nv N1 N2.
  destruct (params_facts P HP) as (kb & e & F). pose proof (d1 P kb e F) as Hd.
  destruct op as [|b t|b| |msg buf tp|msg sig]; cbn [visible] in *; try congruence;
  destruct op' as [|b' t'|b'| |msg' buf' tp'|msg' sig']; cbn [visible] in *; try discriminate Ev; injection Ev as <- <-; cbn [api_step op_ok] in *.
  - assert (X : sk_sign O fuel P (a_sk st) msg buf tp = sk_sign O' fuel' P (a_sk st') msg buf' tp).
    { apply sign_masks_irrelevant; try assumption; [rewrite Q2, Es'; exact V|apply secret_49; assumption|apply secret_49; assumption| |].
      - destruct (sk_sign O fuel P (a_sk st) msg buf tp); cbn [bind] in N1; congruence.
      - destruct (sk_sign O' fuel' P (a_sk st') msg buf' tp); cbn [bind] in N2; congruence. }
    rewrite X. destruct (sk_sign O' fuel' P (a_sk st') msg buf' tp) as [sig| |]; cbn [bind] in *; [right|left; split; reflexivity|congruence].
    eexists. eexists. split; [reflexivity|]. split; [reflexivity|]. unfold seen_equal. cbn [a_pk a_sk a_signed a_verified].
    do 3 (split; [assumption|]). split; [rewrite Q4; reflexivity|exact Q5].
  - destruct H1 as [H1 B1].
    assert (X : verify O fuel P (a_pk st) msg sig = verify O' fuel' P (a_pk st') msg sig).
    { rewrite <- Q1. apply verify_masks_irrelevant; try assumption; [rewrite Ep; exact V| |].
      - destruct (verify O fuel P (a_pk st) msg sig); cbn [bind] in N1; congruence.
      - rewrite Q1. destruct (verify O' fuel' P (a_pk st') msg sig); cbn [bind] in N2; congruence. }
    rewrite X. destruct (verify O' fuel' P (a_pk st') msg sig) as [b| |]; cbn [bind] in *; [right|left; split; reflexivity|congruence].
    eexists. eexists. split; [reflexivity|]. split; [reflexivity|]. unfold seen_equal. cbn [a_pk a_sk a_signed a_verified].
    do 4 (split; [assumption|]). rewrite Q5; reflexivity.
Qed.
Lemma same_runs n : forall ops ops' st st', (length ops + length ops' <= n)%nat ->
  api_inv O fuel P pk0 us st -> api_inv O' fuel' P pk0 us st' -> seen_equal st st' ->
  Forall (op_ok P) ops -> Forall (op_ok P) ops' -> concat (map visible ops) = concat (map visible ops') ->
  api_run O fuel P st ops <> OutOfFuel -> api_run O' fuel' P st' ops' <> OutOfFuel ->
  same_outcome (api_run O fuel P st ops) (api_run O' fuel' P st' ops').
Proof.
  induction n as [|n IH]; intros ops ops' st st' Ln I I' SE F F' Ev N N'.
  - destruct ops, ops'; cbn [length] in Ln; try (exfalso; lia). right. exists st, st'. repeat split; try reflexivity; apply SE.
  - assert (STEP : forall o op st ops f, api_run o f P st (op :: ops) = bind (api_step o f P st op) (fun s => api_run o f P s ops)) by reflexivity.
    destruct ops as [|op ops].
    + destruct ops' as [|op' ops']; [right; exists st, st'; repeat split; try reflexivity; apply SE|].
      inversion F' as [|? ? H1 H2]; subst. cbn [map concat] in Ev. symmetry in Ev. apply app_eq_nil in Ev. destruct Ev as [Ev1 Ev2]. rewrite STEP in N' |- *.
      destruct (maintenance O' fuel' P pk0 us st' op' HP I' H1 Ev1) as (s1 & E1 & I1 & Q1); [destruct (api_step O' fuel' P st' op'); cbn [bind] in N'; congruence|].
      rewrite E1 in N' |- *. cbn [bind] in *. apply IH; try assumption; [cbn [length] in *; lia|exact (seen_trans _ _ _ SE Q1)|cbn [map concat]; congruence].
    + inversion F as [|? ? H1 H2]; subst. rewrite STEP in N |- *. cbn [map concat] in Ev.
      destruct (visible op) as [|v vs] eqn:EV.
      * destruct (maintenance O fuel P pk0 us st op HP I H1 EV) as (s1 & E1 & I1 & Q1); [destruct (api_step O fuel P st op); cbn [bind] in N; congruence|].
        rewrite E1 in N |- *. cbn [bind] in *. apply IH; try assumption; [cbn [length] in *; lia|exact (seen_trans _ _ _ (seen_sym _ _ Q1) SE)].
      * destruct (visible_one op _ EV) as [X|[x X]]; [discriminate X|]. injection X as -> ->.
        destruct ops' as [|op' ops']; [discriminate Ev|]. inversion F' as [|? ? H1' H2']; subst. rewrite STEP in N' |- *. cbn [map concat] in Ev.
        destruct (visible op') as [|v' vs'] eqn:EV'.
        -- destruct (maintenance O' fuel' P pk0 us st' op' HP I' H1' EV') as (s1 & E1 & I1 & Q1); [destruct (api_step O' fuel' P st' op'); cbn [bind] in N'; congruence|].
           rewrite E1 in N' |- *. cbn [bind] in *. rewrite <- STEP in N |- *. apply IH; try assumption; [cbn [length] in *; lia|exact (seen_trans _ _ _ SE Q1)|].
           cbn [map concat]. rewrite EV. exact Ev.
        -- destruct (visible_one op' _ EV') as [X|[x' X]]; [discriminate X|]. injection X as -> ->. cbn [app] in Ev.
           pose proof (f_equal (hd x) Ev) as Ex. pose proof (f_equal (@tl _) Ev) as Et. cbn [hd tl] in Ex, Et. subst x'.
           assert (S : same_outcome (api_step O fuel P st op) (api_step O' fuel' P st' op')).
           { apply sync_step; try assumption; [rewrite EV, EV'; reflexivity|rewrite EV; discriminate| |].
             - destruct (api_step O fuel P st op); cbn [bind] in N; congruence.
             - destruct (api_step O' fuel' P st' op'); cbn [bind] in N'; congruence. }
           destruct S as [[E1 E2]|(s1 & s2 & E1 & E2 & SE1)]; rewrite E1, E2 in *; cbn [bind] in *; [left; split; reflexivity|].
           apply IH; try assumption; [cbn [length] in *; lia| |].
           ++ exact (proj1 (proj1 (api_step_inv O fuel P pk0 us HP st op I H1) s1 E1)).
           ++ exact (proj1 (proj1 (api_step_inv O' fuel' P pk0 us HP st' op' I' H1') s2 E2)).
Qed.
End Two.
Lemma histories_indep O O' fuel fuel' P st0 st0' ops ops' : params_ok P = true -> shake256 O = shake256 O' ->
  api_start O fuel P st0 -> api_start O' fuel' P st0' ->
  a_pk st0 = a_pk st0' -> map unmask (sk_s (a_sk st0)) = map unmask (sk_s (a_sk st0')) ->
  Forall (op_ok P) ops -> Forall (op_ok P) ops' -> concat (map visible ops) = concat (map visible ops') ->
  api_run O fuel P st0 ops <> OutOfFuel -> api_run O' fuel' P st0' ops' <> OutOfFuel ->
  same_outcome (api_run O fuel P st0 ops) (api_run O' fuel' P st0' ops').
Proof.
  intros HP EH S S' Ep Eu F F' Ev N N'. destruct (api_start_inv O fuel P st0 HP S) as (I & Z1 & Z2). destruct (api_start_inv O' fuel' P st0' HP S') as (I' & Z1' & Z2').
  apply (same_runs O O' fuel fuel' P (a_pk st0) (map unmask (sk_s (a_sk st0))) HP EH _ _ _ _ _ (le_n _)); try assumption; [rewrite Ep, Eu; exact I'|].
  unfold seen_equal. split; [exact Ep|]. split; [destruct I as (_ & _ & -> & _); destruct I' as (_ & _ & -> & _); exact Ep|]. split; [exact Eu|]. split; congruence.
Qed.
Lemma starts_indep O O' fuel fuel' P st0 st0' : params_ok P = true -> shake256 O = shake256 O' ->
  (exists seed tp, Forall is_byte seed /\ length seed = Z.to_nat (p_kappa P / 8) /\ api_generate O fuel P seed tp = Ok st0 /\ api_generate O' fuel' P seed tp = Ok st0') ->
  a_pk st0 = a_pk st0' /\ map unmask (sk_s (a_sk st0)) = map unmask (sk_s (a_sk st0')).
Proof.
  intros HP EH (seed & tp & B & L & E & E'). apply bind_ok_inv in E. destruct E as (sk & E1 & E2). apply ok_inj in E2. subst st0.
  apply bind_ok_inv in E'. destruct E' as (sk' & E1' & E2). apply ok_inj in E2. subst st0'. cbn [a_pk a_sk].
  exact (generate_masks_irrelevant O O' fuel fuel' P seed tp sk sk' HP EH B L E1 E1').
Qed.
