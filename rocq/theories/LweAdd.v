(* The values inside a masked LWE sample are additive; translation form of the probing lemma. *)
From Coq Require Import ZArith Lia Bool List Arith.
From Coq Require Import ZifyBool ZifyNat.
From Verif Require Import ModelBase ModelU128 ModelField ModelUtils ModelPoly ModelVec.
From Verif Require Import Spec SpecScheme SpecMask SpecProbe SpecNoiseProbe SpecSchemeProbe.
From Verif Require Import Words FieldProofs ArithLemmas PolyProofs NttLayers Cong NttEval MaskedProofs LinProofs LatticeProofs PolyLemmas SigEnc MaskUniform MaskProg MoreProofs ProbeCore ProbeProofs ProbeProg ProbeFull NoiseProbe NoiseFull ProbeLin LweProbe.
Import ListNotations.
Open Scope Z_scope.
Ltac Zify.zify_post_hook ::= idtac.

Lemma start_row_masked e M j : masked (2 ^ e) (start_row e M j).
Proof. apply add_masks_masked. Qed.
Lemma secret_row_masked e rep N M j : masked (2 ^ e) (secret_row e rep N M j).
Proof. apply noise_state_masked, start_row_masked. Qed.
Lemma sample_row_masked e l rep A N M i : masked (2 ^ e) (sample_row e l rep A N M i).
Proof. apply noise_state_masked, product_masked. Qed.
Lemma product_ext e l A s t i : (forall j, (j < l)%nat -> s j = t j) -> product_row e l A s i = product_row e l A t i.
Proof. intros H. unfold product_row. apply map_ext_in. intros kk _. f_equal. unfold share_vec. apply map_ext_in. intros j Hj. apply in_seq in Hj. rewrite H by lia. reflexivity. Qed.
Section ADD.
  Context (e rep l k : nat) (A : list (list (list Z))) (HA : matrix_ok k l A) (N N' : lwe_noise) (M M' : lwe_masks).
  Context (HN : noise_ok e rep l k N) (HN' : noise_ok e rep l k N') (HM : masks_ok e rep l k M) (HM' : masks_ok e rep l k M').
  Lemma start_row_add j : (j < l)%nat -> start_row e (masks_plus M M') j = tuple_add (start_row e M j) (start_row e M' j).
  Proof.
    intros Hj. unfold start_row. change (repeat ring_zero (2 ^ e)) with (zshares e). cbn [masks_plus m_zero].
    rewrite <- (add_masks_add e _ _ _ _ (zshares_masked e) (zshares_masked e) (proj1 HM j Hj) (proj1 HM' j Hj)). rewrite (shares_add_zero e _ (zshares_masked e)). reflexivity.
  Qed.
  Lemma secret_terms j : (j < l)%nat -> forall i, (i < rep)%nat -> masked (2 ^ e) (n_s N j i) /\ masked (2 ^ e) (n_s N' j i) /\ mask_tuple e (m_s M j i) /\ mask_tuple e (m_s M' j i).
  Proof. intros Hj i Hi. destruct HN as [A1 _], HN' as [A2 _], HM as (_ & A3 & _), HM' as (_ & A4 & _). auto. Qed.
  Lemma error_terms j : (j < k)%nat -> forall i, (i < rep)%nat -> masked (2 ^ e) (n_e N j i) /\ masked (2 ^ e) (n_e N' j i) /\ mask_tuple e (m_e M j i) /\ mask_tuple e (m_e M' j i).
  Proof. intros Hj i Hi. destruct HN as [_ A1], HN' as [_ A2], HM as (_ & _ & A3), HM' as (_ & _ & A4). auto. Qed.
  Lemma secret_row_add j : (j < l)%nat -> secret_row e rep (noise_plus N N') (masks_plus M M') j = tuple_add (secret_row e rep N M j) (secret_row e rep N' M' j).
  Proof.
    intros Hj. unfold secret_row. rewrite start_row_add by exact Hj. cbn [noise_plus masks_plus n_s m_s]. apply noise_state_add; [apply start_row_masked|apply start_row_masked|apply secret_terms, Hj].
  Qed.
  Lemma product_row_add i : (i < k)%nat -> product_row e l A (secret_row e rep (noise_plus N N') (masks_plus M M')) i
    = tuple_add (product_row e l A (secret_row e rep N M) i) (product_row e l A (secret_row e rep N' M') i).
  Proof.
    intros Hi. rewrite <- (product_add e k l A _ _ i HA Hi) by (intros; apply secret_row_masked). apply product_ext. intros j Hj. apply secret_row_add, Hj.
  Qed.
  Lemma sample_row_add i : (i < k)%nat -> sample_row e l rep A (noise_plus N N') (masks_plus M M') i = tuple_add (sample_row e l rep A N M i) (sample_row e l rep A N' M' i).
  Proof.
    intros Hi. unfold sample_row. rewrite product_row_add by exact Hi. cbn [noise_plus masks_plus n_e m_e]. apply noise_state_add; [apply product_masked|apply product_masked|apply error_terms, Hi].
  Qed.
  Lemma lwire_add w : lwire_ok e rep l k w -> lwire_value e l rep A (noise_plus N N') (masks_plus M M') w = tuple_add (lwire_value e l rep A N M w) (lwire_value e l rep A N' M' w).
  Proof.
    intros Hw. destruct w as [j v|j v|kk|i v]; cbn [lwire_value lwire_ok] in *.
    - destruct Hw as [Hj Hv]. change (repeat ring_zero (2 ^ e)) with (zshares e). cbn [masks_plus m_zero tuple_add combine map]. f_equal.
      rewrite <- (wire_add e _ _ _ _ v (zshares_masked e) (zshares_masked e) (proj1 HM j Hj) (proj1 HM' j Hj) Hv). rewrite (shares_add_zero e _ (zshares_masked e)). reflexivity.
    - destruct Hw as [Hj Hv]. rewrite start_row_add by exact Hj. cbn [noise_plus masks_plus n_s m_s tuple_add combine map]. f_equal.
      apply (nwire_add e rep); [apply start_row_masked|apply start_row_masked|apply secret_terms, Hj|exact Hv].
    - unfold share_vec. apply (nth_ext _ _ [] []); [rewrite tuple_add_len; rewrite !map_length; reflexivity|]. intros j Hj. rewrite map_length, seq_length in Hj.
      rewrite nth_tuple_add by (rewrite map_length, seq_length; exact Hj). rewrite !nth_map_seq by exact Hj. rewrite secret_row_add by exact Hj.
      apply nth_tuple_add; rewrite (proj1 (secret_row_masked _ _ _ _ _)); exact Hw.
    - destruct Hw as [Hi Hv]. rewrite product_row_add by exact Hi. cbn [noise_plus masks_plus n_e m_e tuple_add combine map]. f_equal.
      apply (nwire_add e rep); [apply product_masked|apply product_masked|apply error_terms, Hi|exact Hv].
  Qed.
End ADD.
Lemma lwire_poly e rep l k A N M w : noise_ok e rep l k N -> masks_ok e rep l k M -> lwire_ok e rep l k w -> Forall is_poly (lwire_value e l rep A N M w).
Proof.
  intros [N1 N2] (M0 & M1 & M2) Hw. destruct w as [j v|j v|kk|i v]; cbn [lwire_value lwire_ok] in *.
  - constructor; [|constructor]. apply wire_poly; [apply zshares_masked|apply M0, Hw|apply Hw].
  - constructor; [|constructor]. destruct Hw as [Hj Hv]. apply (nwire_poly e rep); [apply start_row_masked|auto|exact Hv].
  - apply Forall_forall. intros y Hy. unfold share_vec in Hy. apply in_map_iff in Hy. destruct Hy as (j & <- & _). apply (masked_nth_poly (2 ^ e)); [apply secret_row_masked|exact Hw].
  - constructor; [|constructor]. destruct Hw as [Hj Hv]. apply (nwire_poly e rep); [apply product_masked|auto|exact Hv].
Qed.
Lemma lwire_len e rep l A N M N' M' w : length (lwire_value e l rep A N M w) = length (lwire_value e l rep A N' M' w).
Proof. destruct w; cbn [lwire_value length]; try reflexivity. unfold share_vec. rewrite !map_length. reflexivity. Qed.
Lemma tuple_add_zeros v z : Forall is_poly v -> Forall (eq ring_zero) z -> length z = length v -> tuple_add v z = v.
Proof.
  intros F Z L. assert (E : z = repeat ring_zero (length v)).
  { rewrite <- L. clear L F. induction Z as [|y z Hy F IH]; [reflexivity|]. cbn [length repeat]. rewrite <- IH, <- Hy. reflexivity. }
  subst z. clear Z L. induction v as [|y v IH] in F |- *; [reflexivity|]. inversion F; subst. cbn [length repeat tuple_add combine map]. unfold tuple_add in IH. rewrite IH by assumption. rewrite ring_add_zero_r by assumption. reflexivity.
Qed.
Lemma lwe_probe e l k rep A W : (0 < rep)%nat -> matrix_ok k l A -> Forall (lwire_ok e rep l k) W -> (length W < 2 ^ e)%nat ->
  exists U V : list (nat * nat * nat), (length U + length V <= length W)%nat /\
  forall N', noise_ok e rep l k N' -> zero_terms (n_s N') U -> zero_terms (n_e N') V -> (forall i, (i < k)%nat -> sample_total l rep A N' i = ring_zero) ->
  exists M', masks_ok e rep l k M' /\ forall N M, noise_ok e rep l k N -> masks_ok e rep l k M ->
    (forall w, In w W -> lwire_value e l rep A (noise_plus N N') (masks_plus M M') w = lwire_value e l rep A N M w) /\
    (forall i, (i < k)%nat -> sample_row e l rep A (noise_plus N N') (masks_plus M M') i = sample_row e l rep A N M i).
Proof.
  intros Hr HA FW HL. destruct (lwe_lin e l k rep A W (fun _ => []) Hr HA FW) as (U & V & LUV & H); [|exact HL|].
  { intros j _. split; [constructor|]. cbn [length]. rewrite Nat.add_0_r. exact HL. }
  exists U, V. split; [exact LUV|]. intros N' HN' ZU ZV TOT. destruct (H N' HN' ZU ZV TOT) as (M' & HM' & H1 & H2 & _). exists M'. split; [exact HM'|].
  intros N M HN HM. rewrite Forall_forall in FW. split.
  - intros w Hw. rewrite (lwire_add e rep l k A HA N N' M M' HN HN' HM HM' w (FW w Hw)). apply tuple_add_zeros; [apply (lwire_poly e rep l k); auto|apply H1, Hw|apply lwire_len].
  - intros i Hi. rewrite (sample_row_add e rep l k A HA N N' M M' HN HN' HM HM' i Hi), (H2 i Hi). pose proof (sample_row_masked e l rep A N M i) as [L F].
    apply tuple_add_zeros; [exact F| |unfold zshares; rewrite repeat_length, L; reflexivity]. apply Forall_forall. intros y Hy. apply repeat_spec in Hy. symmetry. exact Hy.
Qed.

(* translations of masks are onto (and, by tuple_add_perm, injective) *)
Lemma masks_onto e rep l k M' M'' : masks_ok e rep l k M' -> masks_ok e rep l k M'' -> exists M, masks_ok e rep l k M /\ (forall j, (j < l)%nat -> m_zero (masks_plus M M') j = m_zero M'' j) /\
     (forall j i, (j < l)%nat -> (i < rep)%nat -> m_s (masks_plus M M') j i = m_s M'' j i) /\ (forall j i, (j < k)%nat -> (i < rep)%nat -> m_e (masks_plus M M') j i = m_e M'' j i).
Proof.
  intros (A0 & A1 & A2) (B0 & B1 & B2).
  assert (G : forall n (f g : nat -> list (list Z)), (forall i, (i < n)%nat -> mask_tuple e (f i)) -> (forall i, (i < n)%nat -> mask_tuple e (g i)) ->
    exists h : nat -> list (list Z), forall i, (i < n)%nat -> mask_tuple e (h i) /\ tuple_add (h i) (f i) = g i).
  { intros n f g Hf Hg. destruct (list_choice [] (fun i (y : list (list Z)) => mask_tuple e y /\ tuple_add y (f i) = g i) n) as (L & _ & HLL).
    - intros i Hi. destruct (tuple_add_perm e (f i) (Hf i Hi) (g i) (Hg i Hi)) as (y & Hy & _). exists y. exact Hy.
    - exists (fun i => nth i L []). exact HLL. }
  assert (G2 : forall n (f g : nat -> nat -> list (list Z)), (forall j i, (j < n)%nat -> (i < rep)%nat -> mask_tuple e (f j i)) -> (forall j i, (j < n)%nat -> (i < rep)%nat -> mask_tuple e (g j i)) ->
    exists h : nat -> nat -> list (list Z), forall j i, (j < n)%nat -> (i < rep)%nat -> mask_tuple e (h j i) /\ tuple_add (h j i) (f j i) = g j i).
  { intros n f g Hf Hg. destruct (list_choice (fun _ : nat => []) (fun j (h : nat -> list (list Z)) => forall i, (i < rep)%nat -> mask_tuple e (h i) /\ tuple_add (h i) (f j i) = g j i) n) as (L & _ & HLL).
    - intros j Hj. apply G; intros i Hi; auto.
    - exists (fun j => nth j L (fun _ => [])). intros j i Hj Hi. apply (HLL j Hj i Hi). }
  destruct (G l _ _ A0 B0) as (h0 & H0). destruct (G2 l _ _ A1 B1) as (h1 & H1). destruct (G2 k _ _ A2 B2) as (h2 & H2).
  exists (LMasks h0 h1 h2). split; [split; [intros j Hj; apply H0, Hj|split; [intros j i Hj Hi; apply (H1 j i Hj Hi)|intros j i Hj Hi; apply (H2 j i Hj Hi)]]|].
  split; [intros j Hj; apply (H0 j Hj)|split; [intros j i Hj Hi; apply (H1 j i Hj Hi)|intros j i Hj Hi; apply (H2 j i Hj Hi)]].
Qed.
