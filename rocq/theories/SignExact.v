(* Signing: the exact outcome of the rejection loop. *)
From Coq Require Import ZArith Lia Bool List Arith.
From Coq Require Import ZifyBool ZifyNat.
From Verif Require Import ModelBase ModelU128 ModelField ModelUtils ModelPoly ModelVec ModelSerial ModelScheme.
From Verif Require Import Spec SpecScheme SpecSig SpecVerify SpecEnc.
From Verif Require Import Words FieldProofs ArithLemmas BytesProofs PolyProofs NttLayers NttProofs Cong NttEval NttBounds MaskedProofs LinProofs SampleProofs SampleLemmas NoiseProofs PolyLemmas MaskedLemmas.
From Verif Require Import ParamProofs KeyLemmas PackProofs FinProofs SigEnc SigDec2 SigLemmas SchemeCore VerifyProofs SignProofs SignVerify KeygenProofs FuelProofs.
From Verif Require Import TermProofs.
Import ListNotations.
Open Scope Z_scope.
Ltac Zify.zify_post_hook ::= idtac.

Lemma sign_exact O fuel P sk msg buf tp A pkb s : params_ok P = true ->
  valid_public (Z.to_nat (p_kappa P / 8)) (p_k P) (pk_seed (sk_pkey sk)) (pk_t (sk_pkey sk)) ->
  masked_vec49 (p_l P) (p_d P) (sk_s sk) -> zlen buf = p_siglen P ->
  public_matrix (hash_of O) (pk_seed (sk_pkey sk)) (p_k P) (p_l P) A ->
  public_key_code (pk_seed (sk_pkey sk)) (pk_t (sk_pkey sk)) pkb ->
  Forall is_poly s -> map transform s = map unmask (sk_s sk) ->
  let att := sign_attempt (hash_of O) (tape_of tp) (row_of P) A (rows1 (pk_t (sk_pkey sk))) s
               (bound_message (hash_of O) (Z.to_nat (2 * p_kappa P / 8)) pkb msg) in
  let rejected i := exists c cp h z, att i c cp h z /\ ~ acceptable (row_of P) c h z /\ ~ attempt_overruns (row_of P) c h z in
  (sk_sign O fuel P sk msg buf tp <> OutOfFuel ->
    (forall sig, sk_sign O fuel P sk msg buf tp = Ok sig <->
       Forall is_byte sig /\ zlen sig = p_siglen P /\
       exists n c cp h z, att n c cp h z /\ acceptable (row_of P) c h z /\ signature_code c h z sig /\ forall i, (i < n)%nat -> rejected i) /\
    (sk_sign O fuel P sk msg buf tp = UB <->
       exists n c cp h z, att n c cp h z /\ attempt_overruns (row_of P) c h z /\ forall i, (i < n)%nat -> rejected i)) /\
  ((forall r c, (r < p_k P)%nat -> (c < p_l P)%nat -> (512 <= length (accepted49 (matrix_stream (hash_of O) (pk_seed (sk_pkey sk)) r c) fuel))%nat) ->
   ((2 <= p_d P)%nat -> window_accepts (fun t => a0 (Nat.iter t (ascon_permute O 6) ascon_zero) mod 2 ^ 49) fuel) ->
   (exists n c cp h z, (n < fuel)%nat /\ att n c cp h z /\ (acceptable (row_of P) c h z \/ attempt_overruns (row_of P) c h z) /\
     forall i, (i <= n)%nat -> exists c cp h z, att i c cp h z /\ (p_omega P <= length (distinct (map (chal_pos (challenge_stream (hash_of O) (p_omega P) c)) (seq 0 fuel))))%nat) ->
   sk_sign O fuel P sk msg buf tp <> OutOfFuel).
Proof.
  intros HP V Hs Lb PM CP Fs Es att rejected. destruct (params_facts P HP) as (kb & e & F).
  pose proof (pf_omega _ _ _ F) as Ho. assert (Ho256 : (p_omega P < 256)%nat) by lia. pose proof (pf_k _ _ _ F) as Hk. pose proof (pf_l _ _ _ F) as Hl.
  assert (EXCL : forall n c cp h z, att n c cp h z -> acceptable (row_of P) c h z -> ~ attempt_overruns (row_of P) c h z).
  { intros n c cp h z AT (BF & FIT & _). apply fits_no_overrun; [|intros Ez; revert BF; rewrite Ez; intros (_ & _ & zs & x & Ex & _); destruct zs; discriminate Ex|exact BF].
    cbn [row_of r_siglen] in FIT |- *. lia. }
  assert (ALL : forall G, signed O tp P sk msg G -> G att).
  { intros G (A' & pkb' & s' & PM' & CP' & Fs' & Es' & S).
    rewrite <- (public_matrix_fun _ _ _ _ _ _ PM PM'), <- (public_key_code_unique _ _ _ _ CP CP') in S.
    rewrite <- (transform_inj_list s s' Fs Fs' (eq_trans Es (eq_sym Es'))), (proj2 (sig_len_cl P HP)) in S. exact S. }
  assert (BACK : forall G : _ -> Prop, G att -> signed O tp P sk msg G).
  { intros G HG. exists A, pkb, s. do 4 (split; [assumption|]). rewrite (proj2 (sig_len_cl P HP)). exact HG. }
  assert (FUN : forall n c cp h z c' cp' h' z', att n c cp h z -> att n c' cp' h' z' -> c = c' /\ cp = cp' /\ h = h' /\ z = z')
    by (intros n c cp h z c' cp' h' z'; apply sign_attempt_fun).
  clearbody att.
  assert (KEY : forall n c cp h z n' c' cp' h' z', att n c cp h z -> att n' c' cp' h' z' ->
     acceptable (row_of P) c h z \/ attempt_overruns (row_of P) c h z -> acceptable (row_of P) c' h' z' \/ attempt_overruns (row_of P) c' h' z' ->
     (forall i, (i < n)%nat -> rejected i) -> (forall i, (i < n')%nat -> rejected i) -> n = n' /\ c = c' /\ cp = cp' /\ h = h' /\ z = z').
  { intros n c cp h z n' c' cp' h' z' A1 A2 S1 S2 R1 R2.
    assert (X : n = n').
    { destruct (lt_eq_lt_dec n n') as [[L|E]|L]; [exfalso|exact E|exfalso].
      - destruct (R2 n L) as (c1 & cp1 & h1 & z1 & T1 & T2 & T3). destruct (FUN _ _ _ _ _ _ _ _ _ T1 A1) as (-> & -> & -> & ->). tauto.
      - destruct (R1 n' L) as (c1 & cp1 & h1 & z1 & T1 & T2 & T3). destruct (FUN _ _ _ _ _ _ _ _ _ T1 A2) as (-> & -> & -> & ->). tauto. }
    subst n'. split; [reflexivity|]. exact (FUN _ _ _ _ _ _ _ _ _ A1 A2). }
  split.
  - intros NF. pose proof (sign_spec_exact True 0 O fuel P sk msg buf tp HP V Hs Lb (or_intror Logic.I)) as S.
    destruct (sk_sign O fuel P sk msg buf tp) as [sig0| |]; cbn [wpx] in S; [| |congruence].
    + destruct S as (S1 & S2 & _ & S). apply ALL in S. destruct S as (n & c & cp & h & z & A1 & A2 & A3 & _ & _ & _ & _ & _ & A4). split.
      * intros sig. split.
        -- intros E. apply ok_inj in E. subst sig0. split; [exact S2|]. split; [exact S1|]. exists n, c, cp, h, z. do 3 (split; [assumption|]). exact A4.
        -- intros (B1 & B2 & n' & c' & cp' & h' & z' & C1 & C2 & C3 & C4). f_equal.
           destruct (KEY _ _ _ _ _ _ _ _ _ _ A1 C1 (or_introl A2) (or_introl C2) A4 C4) as (_ & <- & _ & <- & <-).
           apply (signature_code_unique c h z); [exact S2|exact B1|unfold zlen in *; lia|exact A3|exact C3].
      * split; [discriminate|]. intros (n' & c' & cp' & h' & z' & C1 & C2 & C3). exfalso.
        destruct (KEY _ _ _ _ _ _ _ _ _ _ A1 C1 (or_introl A2) (or_intror C2) A4 C3) as (_ & <- & _ & <- & <-). exact (EXCL _ _ _ _ _ A1 A2 C2).
    + apply ALL in S. destruct S as (n & c & cp & h & z & A1 & A2 & _ & _ & A4). split.
      * intros sig. split; [discriminate|]. intros (_ & _ & n' & c' & cp' & h' & z' & C1 & C2 & _ & C3). exfalso.
        destruct (KEY _ _ _ _ _ _ _ _ _ _ A1 C1 (or_intror A2) (or_introl C2) A4 C3) as (_ & <- & _ & <- & <-). exact (EXCL _ _ _ _ _ A1 C2 A2).
      * split; [|reflexivity]. intros _. exists n, c, cp, h, z. split; [exact A1|]. split; [exact A2|exact A4].
  - intros G1 G3 (n & c & cp & h & z & Hn & A1 & A2 & G2) E.
    assert (HC : signed O tp P sk msg (fun att => forall i, (i <= n)%nat -> exists c cp h z, att i c cp h z /\ chal_poly O fuel (p_omega P) c <> OutOfFuel)).
    { apply BACK. intros i Hi. destruct (G2 i Hi) as (c0 & cp0 & h0 & z0 & T0 & D0). exists c0, cp0, h0, z0. split; [exact T0|]. intros E0.
      exact (Nat.lt_irrefl _ (Nat.lt_le_trans _ _ _ (proj1 (proj1 (proj2 (proj2 (challenge_facts O fuel (p_omega P) c0 Ho256)))) E0) D0)). }
    assert (HE : expandA O fuel (p_k P) (p_l P) (pk_seed (sk_pkey sk)) <> OutOfFuel) by (apply expandA_enough; [lia|lia|exact G1]).
    pose proof (sign_spec_exact False n O fuel P sk msg buf tp HP V Hs Lb (or_introl (conj G3 (conj HE HC)))) as S. rewrite E in S. cbn [wpx] in S.
    destruct S as [[]|S]. apply ALL in S. destruct (S n Hn (le_n n)) as (c1 & cp1 & h1 & z1 & T1 & T2 & T3).
    destruct (FUN _ _ _ _ _ _ _ _ _ T1 A1) as (-> & -> & -> & ->). tauto.
Qed.
