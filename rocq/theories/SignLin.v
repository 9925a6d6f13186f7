(* Probing several signing attempts: linear form, additivity, translation form. *)
From Coq Require Import ZArith Lia Bool List Arith.
From Coq Require Import ZifyBool ZifyNat.
From Verif Require Import ModelBase ModelU128 ModelField ModelUtils ModelPoly ModelVec.
From Verif Require Import Spec SpecScheme SpecMask SpecProbe SpecNoiseProbe SpecSchemeProbe SpecSignProbe.
From Verif Require Import Words FieldProofs ArithLemmas PolyProofs NttLayers Cong NttEval MaskedProofs LinProofs LatticeProofs PolyLemmas SigEnc MaskUniform MaskProg MoreProofs ProbeCore ProbeProofs ProbeProg ProbeFull NoiseProbe NoiseFull ProbeLin LweProbe LweAdd SignProbe.
Import ListNotations.
Open Scope Z_scope.
Ltac Zify.zify_post_hook ::= idtac.

Lemma key_at_ext e key M M' n : (forall i, (i < n)%nat -> M i = M' i) -> key_at e key M n = key_at e key M' n.
Proof. induction n as [|n IH]; intros H; [reflexivity|]. cbn [key_at]. rewrite (IH (fun i Hi => H i (Nat.lt_lt_succ_r _ _ Hi))), (H n (Nat.lt_succ_diag_r n)). reflexivity. Qed.
Lemma unmask_key_at e l key M : (forall j, (j < l)%nat -> masked (2 ^ e) (key j)) -> forall n j, (j < l)%nat -> unmask (key_at e key M n j) = unmask (key j).
Proof. intros H n j Hj. induction n as [|n IH]; [reflexivity|]. cbn [key_at]. unfold key_next. rewrite unmask_masks by (apply (key_at_masked e l); assumption). exact IH. Qed.
Lemma resp_total_key_at e l rep c key M n N j : (forall j, (j < l)%nat -> masked (2 ^ e) (key j)) -> (j < l)%nat -> resp_total rep c (key_at e key M n) N j = resp_total rep c key N j.
Proof. intros H Hj. unfold resp_total. rewrite (unmask_key_at e l) by assumption. reflexivity. Qed.

Lemma sign_lin e l k rep A (c : nat -> list Z) (Wf : nat -> list awire) : (0 < rep)%nat -> matrix_ok k l A -> (forall n, is_poly (c n)) -> (forall n, Forall (awire_ok e rep l k) (Wf n)) ->
  forall T (Oq : nat -> list nat), (forall j, (j < l)%nat -> Forall (fun kk => (kk < 2 ^ e)%nat) (Oq j) /\ (nsum T (fun n => length (Wf n)) + length (Oq j) < 2 ^ e)%nat) -> (nsum T (fun n => length (Wf n)) < 2 ^ e)%nat ->
  exists (K : nat -> list nat) (U V : list (nat * (nat * nat * nat))),
  (nsum l (fun j => length (K j)) + (length U + length V) <= nsum T (fun n => length (Wf n)) + (if (T =? 0)%nat then nsum l (fun j => length (Oq j)) else 0))%nat /\
  forall key N, (forall j, (j < l)%nat -> masked (2 ^ e) (key j)) -> (forall n, (n < T)%nat -> noise_ok e rep l k (N n)) -> (forall j kk, (j < l)%nat -> In kk (K j) -> nth kk (key j) [] = ring_zero) ->
    zero_at (fun n => n_s (N n)) U -> zero_at (fun n => n_e (N n)) V ->
    (forall n i, (n < T)%nat -> (i < k)%nat -> sample_total l rep A (N n) i = ring_zero) -> (forall n j, (n < T)%nat -> (j < l)%nat -> resp_total rep (c n) key (N n) j = ring_zero) ->
  exists M : nat -> att_masks, (forall n, (n < T)%nat -> att_masks_ok e rep l k (M n)) /\
    (forall n w, (n < T)%nat -> In w (Wf n) -> Forall (eq ring_zero) (awire_value e l rep A (c n) (key_at e key M n) (N n) (M n) w)) /\
    (forall n i, (n < T)%nat -> (i < k)%nat -> sample_row e l rep A (N n) (a_lwe (M n)) i = zshares e) /\
    (forall n j, (n < T)%nat -> (j < l)%nat -> resp_row e rep (c n) (key_at e key M n) (N n) (M n) j = zshares e) /\
    (forall j kk, (j < l)%nat -> In kk (Oq j) -> nth kk (key_at e key M T j) [] = ring_zero).
Proof.
  intros Hrep HA Hc FW. induction T as [|T IH]; intros Oq HO HL.
  - exists Oq, [], []. split; [cbn [nsum length Nat.eqb]; lia|]. intros key N Mk _ ZK _ _ _ _. exists (fun _ => AMasks (LMasks (fun _ => []) (fun _ _ => []) (fun _ _ => [])) (fun _ => []) (fun _ => []) (fun _ => [])).
    split; [intros; lia|]. split; [intros; lia|]. split; [intros; lia|]. split; [intros; lia|]. cbn [key_at]. exact ZK.
  - cbn [nsum] in HO, HL. destruct (att_lin e l k rep A (c T) (Wf T) Oq Hrep HA (Hc T) (FW T)) as (KT & UT & VT & CT & FKT & HT).
    { intros j Hj. destruct (HO j Hj) as [F1 L1]. split; [exact F1|]. lia. }
    { lia. }
    destruct (IH KT) as (K & U & V & C & H).
    { intros j Hj. destruct (FKT j Hj) as [F1 L1]. split; [exact F1|]. lia. }
    { lia. }
    exists K, (U ++ map (pair T) UT), (V ++ map (pair T) VT). split.
    { rewrite !app_length, !map_length. cbn [nsum Nat.eqb]. destruct (T =? 0)%nat; lia. }
    intros key N Mk MN ZK ZU ZV TS TR.
    destruct (H key N Mk (fun n Hn => MN n (Nat.lt_lt_succ_r _ _ Hn)) ZK) as (M & OKM & W1 & S1 & R1 & K1).
    { intros n t Hin. apply ZU. apply in_or_app. left. exact Hin. }
    { intros n t Hin. apply ZV. apply in_or_app. left. exact Hin. }
    { intros n i Hn Hi. apply TS; [lia|exact Hi]. }
    { intros n j Hn Hj. apply TR; [lia|exact Hj]. }
    destruct (HT (key_at e key M T) (N T)) as (MT & OKT & W2 & S2 & R2 & K2).
    { intros j Hj. apply (key_at_masked e l); assumption. }
    { apply MN. lia. }
    { exact K1. }
    { intros j i kk Hin. apply (ZU T (j, i, kk)); [|left; reflexivity]. apply in_or_app. right. apply in_map. exact Hin. }
    { intros j i kk Hin. apply (ZV T (j, i, kk)); [|left; reflexivity]. apply in_or_app. right. apply in_map. exact Hin. }
    { intros i Hi. apply TS; [lia|exact Hi]. }
    { intros j Hj. rewrite (resp_total_key_at e l) by assumption. apply TR; [lia|exact Hj]. }
    exists (fun n => if (n =? T)%nat then MT else M n).
    assert (KE : forall n, (n <= T)%nat -> key_at e key (fun n => if (n =? T)%nat then MT else M n) n = key_at e key M n).
    { intros n Hn. apply key_at_ext. intros i Hi. replace (i =? T)%nat with false by (symmetry; apply Nat.eqb_neq; lia). reflexivity. }
    split; [|split; [|split; [|split]]].
    + intros n Hn. destruct (Nat.eqb_spec n T); [exact OKT|apply OKM; lia].
    + intros n w Hn Hw. rewrite KE by lia. destruct (Nat.eqb_spec n T) as [->|X]; [apply W2, Hw|apply W1; [lia|exact Hw]].
    + intros n i Hn Hi. destruct (Nat.eqb_spec n T) as [->|X]; [apply S2, Hi|apply S1; [lia|exact Hi]].
    + intros n j Hn Hj. rewrite KE by lia. destruct (Nat.eqb_spec n T) as [->|X]; [apply R2, Hj|apply R1; [lia|exact Hj]].
    + intros j kk Hj Hk. cbn [key_at]. rewrite KE by lia. rewrite Nat.eqb_refl. apply K2; assumption.
Qed.

(* ---- additivity ---- *)
Definition key_plus (key key' : nat -> list (list Z)) (j : nat) : list (list Z) := tuple_add (key j) (key' j).
Section ADD.
  Context (e rep l k : nat) (A : list (list (list Z))) (HA : matrix_ok k l A) (c : list Z) (Hc : is_poly c) (N N' : lwe_noise) (M M' : att_masks) (key key' key2 : nat -> list (list Z)).
  Context (HN : noise_ok e rep l k N) (HN' : noise_ok e rep l k N') (HM : att_masks_ok e rep l k M) (HM' : att_masks_ok e rep l k M').
  Context (Mk : forall j, (j < l)%nat -> masked (2 ^ e) (key j)) (Mk' : forall j, (j < l)%nat -> masked (2 ^ e) (key' j)) (Ek : forall j, (j < l)%nat -> key2 j = tuple_add (key j) (key' j)).
  Lemma key_next_add j : (j < l)%nat -> key_next e key2 (att_plus M M') j = tuple_add (key_next e key M j) (key_next e key' M' j).
  Proof. intros Hj. unfold key_next. rewrite Ek by exact Hj. cbn [att_plus a_key]. apply add_masks_add; [apply Mk, Hj|apply Mk', Hj|apply (proj2 HM j Hj)|apply (proj2 HM' j Hj)]. Qed.
  Lemma asecret_add j : (j < l)%nat -> secret_row e rep (noise_plus N N') (a_lwe (att_plus M M')) j = tuple_add (secret_row e rep N (a_lwe M) j) (secret_row e rep N' (a_lwe M') j).
  Proof. intros Hj. apply (secret_row_add e rep l k N N' _ _ HN HN' (proj1 HM) (proj1 HM') j Hj). Qed.
  Lemma nonce_next_add j : (j < l)%nat -> nonce_next e rep (noise_plus N N') (att_plus M M') j = tuple_add (nonce_next e rep N M j) (nonce_next e rep N' M' j).
  Proof. intros Hj. unfold nonce_next. rewrite asecret_add by exact Hj. cbn [att_plus a_nonce]. apply add_masks_add; [apply secret_row_masked|apply secret_row_masked|apply (proj2 HM j Hj)|apply (proj2 HM' j Hj)]. Qed.
  Lemma resp_in_add j : (j < l)%nat -> resp_in e rep c key2 (noise_plus N N') (att_plus M M') j = tuple_add (resp_in e rep c key N M j) (resp_in e rep c key' N' M' j).
  Proof.
    intros Hj. unfold resp_in. rewrite key_next_add, nonce_next_add by exact Hj. rewrite mul_rows_add; [|exact Hc|apply key_next_masked|apply key_next_masked].
    apply (tuple_add_swap (2 ^ e)); try apply mul_rows_masked; try apply key_next_masked; apply nonce_next_masked.
  Qed.
  Lemma resp_row_add j : (j < l)%nat -> resp_row e rep c key2 (noise_plus N N') (att_plus M M') j = tuple_add (resp_row e rep c key N M j) (resp_row e rep c key' N' M' j).
  Proof. intros Hj. unfold resp_row. rewrite resp_in_add by exact Hj. cbn [att_plus a_resp]. apply add_masks_add; [apply resp_in_masked|apply resp_in_masked|apply (proj2 HM j Hj)|apply (proj2 HM' j Hj)]. Qed.
  Lemma share_vec_add s t u kk : (kk < 2 ^ e)%nat -> (forall j, (j < l)%nat -> masked (2 ^ e) (s j) /\ masked (2 ^ e) (t j) /\ u j = tuple_add (s j) (t j)) -> share_vec l u kk = tuple_add (share_vec l s kk) (share_vec l t kk).
  Proof.
    intros Hk H. unfold share_vec. apply (nth_ext _ _ [] []); [rewrite tuple_add_len; rewrite !map_length; reflexivity|]. intros j Hj. rewrite map_length, seq_length in Hj.
    rewrite nth_tuple_add by (rewrite map_length, seq_length; exact Hj). rewrite !nth_map_seq by exact Hj. destruct (H j Hj) as ([L1 _] & [L2 _] & ->). apply nth_tuple_add; lia.
  Qed.
  Lemma tuple_add_app (a b a' b' : list (list Z)) : length a = length a' -> tuple_add (a ++ b) (a' ++ b') = tuple_add a a' ++ tuple_add b b'.
  Proof. revert a'. induction a as [|x a IH]; intros [|y a'] L; cbn [length] in L; try lia; [reflexivity|]. unfold tuple_add in *. cbn [app combine map]. rewrite IH by lia. reflexivity. Qed.
  Lemma awire_add w : awire_ok e rep l k w -> awire_value e l rep A c key2 (noise_plus N N') (att_plus M M') w = tuple_add (awire_value e l rep A c key N M w) (awire_value e l rep A c key' N' M' w).
  Proof.
    intros Hw. destruct w as [v|j v|j v|kk|j v]; cbn [awire_value awire_ok] in *.
    - cbn [att_plus a_lwe]. apply (lwire_add e rep l k A HA N N' _ _ HN HN' (proj1 HM) (proj1 HM') v Hw).
    - destruct Hw as [Hj Hv]. rewrite Ek by exact Hj. cbn [att_plus a_key tuple_add combine map]. f_equal. apply wire_add; [apply Mk, Hj|apply Mk', Hj|apply (proj2 HM j Hj)|apply (proj2 HM' j Hj)|exact Hv].
    - destruct Hw as [Hj Hv]. rewrite asecret_add by exact Hj. cbn [att_plus a_nonce tuple_add combine map]. f_equal. apply wire_add; [apply secret_row_masked|apply secret_row_masked|apply (proj2 HM j Hj)|apply (proj2 HM' j Hj)|exact Hv].
    - rewrite tuple_add_app by (unfold share_vec; rewrite !map_length; reflexivity). f_equal; apply share_vec_add; try exact Hw; intros j Hj.
      + split; [apply key_next_masked|]. split; [apply key_next_masked|]. apply key_next_add, Hj.
      + split; [apply nonce_next_masked|]. split; [apply nonce_next_masked|]. apply nonce_next_add, Hj.
    - destruct Hw as [Hj Hv]. rewrite resp_in_add by exact Hj. cbn [att_plus a_resp tuple_add combine map]. f_equal. apply wire_add; [apply resp_in_masked|apply resp_in_masked|apply (proj2 HM j Hj)|apply (proj2 HM' j Hj)|exact Hv].
  Qed.
  Lemma awire_poly w : awire_ok e rep l k w -> Forall is_poly (awire_value e l rep A c key N M w).
  Proof.
    intros Hw. destruct w as [v|j v|j v|kk|j v]; cbn [awire_value awire_ok] in *.
    - apply (lwire_poly e rep l k); [exact HN|apply HM|exact Hw].
    - constructor; [|constructor]. destruct Hw as [Hj Hv]. apply wire_poly; [apply Mk, Hj|apply (proj2 HM j Hj)|exact Hv].
    - constructor; [|constructor]. destruct Hw as [Hj Hv]. apply wire_poly; [apply secret_row_masked|apply (proj2 HM j Hj)|exact Hv].
    - apply Forall_app. split; apply Forall_forall; intros y Hy; unfold share_vec in Hy; apply in_map_iff in Hy; destruct Hy as (j & <- & _); apply (masked_nth_poly (2 ^ e)); try exact Hw; [apply key_next_masked|apply nonce_next_masked].
    - constructor; [|constructor]. destruct Hw as [Hj Hv]. apply wire_poly; [apply resp_in_masked|apply (proj2 HM j Hj)|exact Hv].
  Qed.
End ADD.
Lemma awire_len e rep l A c key N M key' N' M' w : length (awire_value e l rep A c key N M w) = length (awire_value e l rep A c key' N' M' w).
Proof. destruct w; cbn [awire_value length]; try reflexivity; [apply lwire_len|]. unfold share_vec. rewrite !app_length, !map_length. reflexivity. Qed.
Lemma key_at_add e rep l k key key' (M M' : nat -> att_masks) T : (forall j, (j < l)%nat -> masked (2 ^ e) (key j)) -> (forall j, (j < l)%nat -> masked (2 ^ e) (key' j)) ->
  (forall n, (n < T)%nat -> att_masks_ok e rep l k (M n) /\ att_masks_ok e rep l k (M' n)) -> forall n, (n <= T)%nat -> forall j, (j < l)%nat ->
  key_at e (key_plus key key') (fun n => att_plus (M n) (M' n)) n j = tuple_add (key_at e key M n j) (key_at e key' M' n j).
Proof.
  intros Mk Mk' HM. induction n as [|n IH]; intros Hn j Hj; [reflexivity|]. cbn [key_at]. destruct (HM n ltac:(lia)) as [M1 M2].
  apply (key_next_add e rep l k _ _ _ _ _ M1 M2); [intros; apply (key_at_masked e l); assumption|intros; apply (key_at_masked e l); assumption|intros; apply IH; [lia|assumption]|exact Hj].
Qed.
Lemma tuple_add_zshares e v : masked (2 ^ e) v -> tuple_add v (zshares e) = v.
Proof. intros [L F]. apply tuple_add_zeros; [exact F| |unfold zshares; rewrite repeat_length, L; reflexivity]. apply Forall_forall. intros y Hy. apply repeat_spec in Hy. symmetry. exact Hy. Qed.

Definition wsel (n : nat) (w : nat * awire) : list awire := if Nat.eqb (fst w) n then [snd w] else [].
Lemma wsel_count T W : (nsum T (fun n => length (flat_map (wsel n) W)) <= length W)%nat.
Proof.
  induction W as [|w W IH]; [cbn [flat_map length]; rewrite nsum_zero; apply le_n|]. cbn [flat_map length].
  rewrite (nsum_ext T (fun n => length (wsel n w ++ flat_map (wsel n) W)) (fun n => length (wsel n w) + length (flat_map (wsel n) W))%nat) by (intros; apply app_length).
  rewrite nsum_plus. assert (X : (nsum T (fun n => length (wsel n w)) <= 1)%nat); [|lia].
  unfold wsel. rewrite (nsum_ext T _ (fun i => if Nat.eqb (fst w) i then 1 else 0)%nat) by (intros i _; destruct (Nat.eqb (fst w) i); reflexivity). rewrite nsum_single. destruct (fst w <? T)%nat; lia.
Qed.
Lemma sign_probe e l k rep A T (c : nat -> list Z) (W : list (nat * awire)) : (0 < rep)%nat -> (0 < T)%nat -> matrix_ok k l A -> (forall n, is_poly (c n)) ->
  Forall (fun nw => (fst nw < T)%nat /\ awire_ok e rep l k (snd nw)) W -> (length W < 2 ^ e)%nat ->
  exists (K : list (nat * nat)) (U V : list (nat * (nat * nat * nat))), (length K + length U + length V <= length W)%nat /\
  forall key' N', (forall j, (j < l)%nat -> masked (2 ^ e) (key' j)) -> (forall n, (n < T)%nat -> noise_ok e rep l k (N' n)) ->
    zero_shares key' K -> zero_at (fun n => n_s (N' n)) U -> zero_at (fun n => n_e (N' n)) V ->
    (forall n i, (n < T)%nat -> (i < k)%nat -> sample_total l rep A (N' n) i = ring_zero) -> (forall n j, (n < T)%nat -> (j < l)%nat -> resp_total rep (c n) key' (N' n) j = ring_zero) ->
  exists M' : nat -> att_masks, (forall n, (n < T)%nat -> att_masks_ok e rep l k (M' n)) /\
  forall key N M, (forall j, (j < l)%nat -> masked (2 ^ e) (key j)) -> (forall n, (n < T)%nat -> noise_ok e rep l k (N n)) -> (forall n, (n < T)%nat -> att_masks_ok e rep l k (M n)) ->
    let key2 := key_at e (fun j => tuple_add (key j) (key' j)) (fun n => att_plus (M n) (M' n)) in let key1 := key_at e key M in
    (forall n w, In (n, w) W -> awire_value e l rep A (c n) (key2 n) (noise_plus (N n) (N' n)) (att_plus (M n) (M' n)) w = awire_value e l rep A (c n) (key1 n) (N n) (M n) w) /\
    (forall n i, (n < T)%nat -> (i < k)%nat -> sample_row e l rep A (noise_plus (N n) (N' n)) (a_lwe (att_plus (M n) (M' n))) i = sample_row e l rep A (N n) (a_lwe (M n)) i) /\
    (forall n j, (n < T)%nat -> (j < l)%nat -> resp_row e rep (c n) (key2 n) (noise_plus (N n) (N' n)) (att_plus (M n) (M' n)) j = resp_row e rep (c n) (key1 n) (N n) (M n) j).
Proof.
  intros Hrep HT HA Hc FW HL. set (Wf := fun n => flat_map (wsel n) W).
  assert (FWf : forall n, Forall (awire_ok e rep l k) (Wf n)).
  { intros n. apply Forall_forall. intros w Hw. apply in_flat_map in Hw. destruct Hw as ([n' w'] & Hin & Hw). unfold wsel in Hw. cbn [fst snd] in Hw. destruct (Nat.eqb n' n); [|destruct Hw]. destruct Hw as [<-|[]].
    rewrite Forall_forall in FW. apply (FW _ Hin). }
  assert (INW : forall n w, In (n, w) W -> In w (Wf n)).
  { intros n w H. apply in_flat_map. exists (n, w). split; [exact H|]. unfold wsel. cbn [fst snd]. rewrite Nat.eqb_refl. left. reflexivity. }
  assert (CW : (nsum T (fun n => length (Wf n)) <= length W)%nat) by exact (wsel_count T W).
  destruct (sign_lin e l k rep A c Wf Hrep HA Hc FWf T (fun _ => [])) as (K & U & V & C & H).
  { intros j _. split; [constructor|]. cbn [length]. lia. }
  { lia. }
  replace (T =? 0)%nat with false in C by (symmetry; apply Nat.eqb_neq; lia).
  exists (concat (map (fun j => map (pair j) (K j)) (seq 0 l))), U, V. split.
  { rewrite concat_seq_length. rewrite (nsum_ext l _ (fun j => length (K j))) by (intros; apply map_length). lia. }
  intros key' N' Mk' MN' ZK ZU ZV TS TR. destruct (H key' N' Mk' MN') as (M' & OKM & W1 & S1 & R1 & _); [|exact ZU|exact ZV|exact TS|exact TR|].
  { intros j kk Hj Hk. apply ZK. apply (in_concat_seq _ l j); [exact Hj|]. apply in_map. exact Hk. }
  exists M'. split; [exact OKM|]. intros key N M Mk MN HM. cbv zeta. set (key2 := key_at e (fun j => tuple_add (key j) (key' j)) (fun n => att_plus (M n) (M' n))).
  assert (KA : forall n, (n <= T)%nat -> forall j, (j < l)%nat -> key2 n j = tuple_add (key_at e key M n j) (key_at e key' M' n j)).
  { intros n Hn j Hj. apply (key_at_add e rep l k key key' M M' T Mk Mk'); [intros i Hi; split; [apply HM, Hi|apply OKM, Hi]|exact Hn|exact Hj]. }
  assert (K1 : forall n j, (j < l)%nat -> masked (2 ^ e) (key_at e key M n j)) by (intros; apply (key_at_masked e l); assumption).
  assert (K2 : forall n j, (j < l)%nat -> masked (2 ^ e) (key_at e key' M' n j)) by (intros; apply (key_at_masked e l); assumption).
  rewrite Forall_forall in FW. split; [|split].
  - intros n w Hw. destruct (FW _ Hw) as [Hn OKw]. cbn [fst snd] in *.
    rewrite (awire_add e rep l k A HA (c n) (Hc n) (N n) (N' n) (M n) (M' n) (key_at e key M n) (key_at e key' M' n) (key2 n) (MN n Hn) (MN' n Hn) (HM n Hn) (OKM n Hn) (K1 n) (K2 n) (KA n ltac:(lia)) w OKw).
    apply tuple_add_zeros; [|apply W1; [exact Hn|apply INW, Hw]|apply awire_len].
    apply (awire_poly e rep l k A (c n) (N n) (M n) (key_at e key M n) (MN n Hn) (HM n Hn) (K1 n) w OKw).
  - intros n i Hn Hi. cbn [att_plus a_lwe]. rewrite (sample_row_add e rep l k A HA (N n) (N' n) _ _ (MN n Hn) (MN' n Hn) (proj1 (HM n Hn)) (proj1 (OKM n Hn)) i Hi), (S1 n i Hn Hi). apply tuple_add_zshares, sample_row_masked.
  - intros n j Hn Hj. rewrite (resp_row_add e rep l k (c n) (Hc n) (N n) (N' n) (M n) (M' n) (key_at e key M n) (key_at e key' M' n) (key2 n) (MN n Hn) (MN' n Hn) (HM n Hn) (OKM n Hn) (K1 n) (K2 n) (KA n ltac:(lia)) j Hj), (R1 n j Hn Hj).
    apply tuple_add_zshares, resp_row_masked.
Qed.
