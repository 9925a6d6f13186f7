(* Probing the signing loop. *)
From Coq Require Import ZArith Lia Bool List Arith.
From Coq Require Import ZifyBool ZifyNat.
From Verif Require Import ModelBase ModelU128 ModelField ModelUtils ModelPoly ModelVec.
From Verif Require Import Spec SpecScheme SpecMask SpecProbe SpecNoiseProbe SpecSchemeProbe SpecSignProbe.
From Verif Require Import Words FieldProofs ArithLemmas PolyProofs NttLayers Cong NttEval MaskedProofs LinProofs LatticeProofs PolyLemmas SigEnc MaskUniform MaskProg MoreProofs ProbeCore ProbeProofs ProbeProg ProbeFull NoiseProbe NoiseFull ProbeLin LweProbe LweAdd.
Import ListNotations.
Open Scope Z_scope.
Ltac Zify.zify_post_hook ::= idtac.

Lemma mul_rows_masked d c x : length x = d -> masked d (map (fun y => ring_mul y c) x).
Proof. intros L. split; [rewrite map_length; exact L|]. apply Forall_forall. intros y Hy. apply in_map_iff in Hy. destruct Hy as (z & <- & _). apply ring_mul_poly. Qed.
Lemma nth_mul_rows c x kk : (kk < length x)%nat -> nth kk (map (fun y => ring_mul y c) x) [] = ring_mul (nth kk x []) c.
Proof. intros H. rewrite (nth_indep _ [] (ring_mul [] c)) by (rewrite map_length; exact H). apply (map_nth (fun y => ring_mul y c)). Qed.
Lemma unmask_mul_rows c x : is_poly c -> Forall is_poly x -> unmask (map (fun y => ring_mul y c) x) = ring_mul (unmask x) c.
Proof. intros Hc F. apply (unmask_additive (fun y => ring_mul y c)); [intros a b Ha Hb; apply mul_add_l; assumption|apply ring_mul_zero_l|exact F]. Qed.
Lemma mul_rows_add c x v : is_poly c -> Forall is_poly x -> Forall is_poly v ->
  map (fun y => ring_mul y c) (tuple_add x v) = tuple_add (map (fun y => ring_mul y c) x) (map (fun y => ring_mul y c) v).
Proof.
  intros Hc Fx. revert v. induction Fx as [|y x Hy Fx IH]; intros [|z v] Fv; try reflexivity. inversion Fv; subst. unfold tuple_add in *. cbn [combine map]. rewrite IH by assumption. f_equal. apply mul_add_l; assumption.
Qed.
Lemma key_next_masked e key M j : masked (2 ^ e) (key_next e key M j).
Proof. apply add_masks_masked. Qed.
Lemma nonce_next_masked e rep N M j : masked (2 ^ e) (nonce_next e rep N M j).
Proof. apply add_masks_masked. Qed.
Lemma resp_in_masked e rep c key N M j : masked (2 ^ e) (resp_in e rep c key N M j).
Proof. apply tuple_add_masked; [apply mul_rows_masked, key_next_masked|apply nonce_next_masked]. Qed.
Lemma resp_row_masked e rep c key N M j : masked (2 ^ e) (resp_row e rep c key N M j).
Proof. apply add_masks_masked. Qed.
Lemma key_at_masked e l key M : (forall j, (j < l)%nat -> masked (2 ^ e) (key j)) -> forall n j, (j < l)%nat -> masked (2 ^ e) (key_at e key M n j).
Proof. intros H [|n] j Hj; [apply H, Hj|apply key_next_masked]. Qed.

(* observations by kind and row *)
Definition asel_l (w : awire) : list lwire := match w with aw_lwe w => [w] | _ => [] end.
Definition asel_k (j : nat) (w : awire) : list wire := match w with aw_key j' v => if Nat.eqb j' j then [v] else [] | _ => [] end.
Definition asel_n (j : nat) (w : awire) : list wire := match w with aw_nonce j' v => if Nat.eqb j' j then [v] else [] | _ => [] end.
Definition asel_z (j : nat) (w : awire) : list wire := match w with aw_resp j' v => if Nat.eqb j' j then [v] else [] | _ => [] end.
Definition asel_h (w : awire) : list nat := match w with aw_share kk => [kk] | _ => [] end.
Lemma asel_count l W : (length (flat_map asel_l W) + length (flat_map asel_h W) + (nsum l (fun j => length (flat_map (asel_k j) W)) + nsum l (fun j => length (flat_map (asel_n j) W)) + nsum l (fun j => length (flat_map (asel_z j) W))) <= length W)%nat.
Proof.
  induction W as [|w W IH]; [cbn [flat_map length]; rewrite !nsum_zero; apply le_n|]. cbn [flat_map length].
  rewrite (nsum_ext l (fun j => length (asel_k j w ++ flat_map (asel_k j) W)) (fun j => length (asel_k j w) + length (flat_map (asel_k j) W))%nat) by (intros; apply app_length).
  rewrite (nsum_ext l (fun j => length (asel_n j w ++ flat_map (asel_n j) W)) (fun j => length (asel_n j w) + length (flat_map (asel_n j) W))%nat) by (intros; apply app_length).
  rewrite (nsum_ext l (fun j => length (asel_z j w ++ flat_map (asel_z j) W)) (fun j => length (asel_z j w) + length (flat_map (asel_z j) W))%nat) by (intros; apply app_length).
  rewrite !nsum_plus, !app_length.
  assert (X : (length (asel_l w) + length (asel_h w) + (nsum l (fun j => length (asel_k j w)) + nsum l (fun j => length (asel_n j w)) + nsum l (fun j => length (asel_z j w))) <= 1)%nat); [|lia].
  assert (G : forall j (v : wire), (nsum l (fun i => length (if Nat.eqb j i then [v] else [])) <= 1)%nat).
  { intros j v. rewrite (nsum_ext l _ (fun i => if Nat.eqb j i then 1 else 0)%nat) by (intros i _; destruct (Nat.eqb j i); reflexivity). rewrite nsum_single. destruct (j <? l)%nat; lia. }
  destruct w as [v|j v|j v|kk|j v]; cbn [asel_l asel_h asel_k asel_n asel_z length]; rewrite ?nsum_zero; try lia; pose proof (G j v); lia.
Qed.
Lemma asel_in W : (forall w, In (aw_lwe w) W -> In w (flat_map asel_l W)) /\ (forall j w, In (aw_key j w) W -> In w (flat_map (asel_k j) W)) /\
  (forall j w, In (aw_nonce j w) W -> In w (flat_map (asel_n j) W)) /\ (forall j w, In (aw_resp j w) W -> In w (flat_map (asel_z j) W)) /\ (forall kk, In (aw_share kk) W -> In kk (flat_map asel_h W)).
Proof.
  split; [|split; [|split; [|split]]].
  - intros w H. apply in_flat_map. exists (aw_lwe w). split; [exact H|left; reflexivity].
  - intros j w H. apply in_flat_map. exists (aw_key j w). split; [exact H|]. cbn [asel_k]. rewrite Nat.eqb_refl. left. reflexivity.
  - intros j w H. apply in_flat_map. exists (aw_nonce j w). split; [exact H|]. cbn [asel_n]. rewrite Nat.eqb_refl. left. reflexivity.
  - intros j w H. apply in_flat_map. exists (aw_resp j w). split; [exact H|]. cbn [asel_z]. rewrite Nat.eqb_refl. left. reflexivity.
  - intros kk H. apply in_flat_map. exists (aw_share kk). split; [exact H|left; reflexivity].
Qed.
Lemma asel_ok e rep l k W : Forall (awire_ok e rep l k) W ->
  Forall (lwire_ok e rep l k) (flat_map asel_l W) /\ (forall j, Forall (wire_ok e) (flat_map (asel_k j) W)) /\ (forall j, Forall (wire_ok e) (flat_map (asel_n j) W)) /\
  (forall j, Forall (wire_ok e) (flat_map (asel_z j) W)) /\ Forall (fun kk => (kk < 2 ^ e)%nat) (flat_map asel_h W).
Proof.
  intros F. rewrite Forall_forall in F. split; [|split; [|split; [|split]]]; intros; apply Forall_forall; intros y Hy; apply in_flat_map in Hy; destruct Hy as (w & Hw & Hy); specialize (F w Hw);
    destruct w as [v|j' v|j' v|kk|j' v]; cbn [asel_l asel_k asel_n asel_z asel_h awire_ok] in *; try (destruct (Nat.eqb j' j)); try destruct Hy as [<-|[]]; try destruct Hy; try apply F.
Qed.

Lemma att_lin e l k rep A c W (Oq : nat -> list nat) : (0 < rep)%nat -> matrix_ok k l A -> is_poly c -> Forall (awire_ok e rep l k) W ->
  (forall j, (j < l)%nat -> Forall (fun kk => (kk < 2 ^ e)%nat) (Oq j) /\ (length W + length (Oq j) < 2 ^ e)%nat) -> (length W < 2 ^ e)%nat ->
  exists (K : nat -> list nat) (U V : list (nat * nat * nat)), (nsum l (fun j => length (K j)) + (length U + length V) <= length W)%nat /\ (forall j, (j < l)%nat -> Forall (fun kk => (kk < 2 ^ e)%nat) (K j) /\ (length (K j) <= length W)%nat) /\
  forall key N, (forall j, (j < l)%nat -> masked (2 ^ e) (key j)) -> noise_ok e rep l k N -> (forall j kk, (j < l)%nat -> In kk (K j) -> nth kk (key j) [] = ring_zero) ->
    zero_terms (n_s N) U -> zero_terms (n_e N) V -> (forall i, (i < k)%nat -> sample_total l rep A N i = ring_zero) -> (forall j, (j < l)%nat -> resp_total rep c key N j = ring_zero) ->
  exists M, att_masks_ok e rep l k M /\ (forall w, In w W -> Forall (eq ring_zero) (awire_value e l rep A c key N M w)) /\
    (forall i, (i < k)%nat -> sample_row e l rep A N (a_lwe M) i = zshares e) /\ (forall j, (j < l)%nat -> resp_row e rep c key N M j = zshares e) /\
    (forall j kk, (j < l)%nat -> In kk (Oq j) -> nth kk (key_next e key M j) [] = ring_zero).
Proof.
  intros Hrep HA Hc FW HO HL. destruct (asel_ok e rep l k W FW) as (FL & FK & FN & FZ & FH). destruct (asel_in W) as (IL & IK & INn & IZ & IH).
  set (WK := fun j => flat_map (asel_k j) W) in *. set (WN := fun i => flat_map (asel_n i) W) in *. set (WZ := fun i => flat_map (asel_z i) W) in *. set (SH := flat_map asel_h W) in *. set (WL := flat_map asel_l W) in *.
  assert (CNT : (length WL + length SH + (nsum l (fun j => length (WK j)) + nsum l (fun j => length (WN j)) + nsum l (fun j => length (WZ j))) <= length W)%nat) by exact (asel_count l W).
  assert (CN : forall j, (j < l)%nat -> (length WL + length SH + length (WK j) + length (WN j) + length (WZ j) <= length W)%nat).
  { intros j Hj. pose proof (nsum_ge l (fun j => length (WK j)) j Hj) as G1. pose proof (nsum_ge l (fun j => length (WN j)) j Hj) as G2. pose proof (nsum_ge l (fun j => length (WZ j)) j Hj) as G3. cbv beta in G1, G2, G3.
    revert G1 G2 G3 CNT. clear. generalize (nsum l (fun j => length (WK j))), (nsum l (fun j => length (WN j))), (nsum l (fun j => length (WZ j))). intros; lia. }
  (* responses *)
  destruct (list_choice [] (fun j (K : list nat) => (length K <= length (WZ j))%nat /\ Forall (fun kk => (kk < 2 ^ e)%nat) K /\
    forall v, masked (2 ^ e) v -> (forall kk, In kk K -> nth kk v [] = ring_zero) -> unmask v = ring_zero ->
      exists delta, mask_tuple e delta /\ (forall w, In w (WZ j) -> wire_value e v delta w = ring_zero) /\ add_masks e v delta = zshares e) l) as (LZ & _ & HZ).
  { intros j Hj. apply refresh_lin_full; [apply FZ|]. specialize (CN j Hj). lia. }
  set (KZ := fun j => nth j LZ []) in *.
  (* key *)
  destruct (list_choice [] (fun j (K : list nat) => (length K <= length (WK j))%nat /\ Forall (fun kk => (kk < 2 ^ e)%nat) K /\
    forall v, masked (2 ^ e) v -> (forall kk, In kk K -> nth kk v [] = ring_zero) ->
      exists delta, mask_tuple e delta /\ (forall w, In w (WK j) -> wire_value e v delta w = ring_zero) /\ (forall kk, In kk (KZ j ++ SH ++ Oq j) -> nth kk (add_masks e v delta) [] = ring_zero)) l) as (LK & _ & HK).
  { intros j Hj. destruct (HO j Hj) as [FO LO]. destruct (HZ j Hj) as (LKZ & FKZ & _). fold (KZ j) in LKZ, FKZ. apply refresh_lin; [apply FK| |].
    - apply Forall_app. split; [exact FKZ|]. apply Forall_app. split; [exact FH|exact FO].
    - rewrite !app_length. specialize (CN j Hj). lia. }
  set (KK := fun j => nth j LK []) in *.
  (* nonce *)
  destruct (list_choice [] (fun j (K : list nat) => (length K <= length (WN j))%nat /\ Forall (fun kk => (kk < 2 ^ e)%nat) K /\
    forall v, masked (2 ^ e) v -> (forall kk, In kk K -> nth kk v [] = ring_zero) ->
      exists delta, mask_tuple e delta /\ (forall w, In w (WN j) -> wire_value e v delta w = ring_zero) /\ (forall kk, In kk (KZ j ++ SH) -> nth kk (add_masks e v delta) [] = ring_zero)) l) as (LN & _ & HN).
  { intros j Hj. destruct (HZ j Hj) as (LKZ & FKZ & _). fold (KZ j) in LKZ, FKZ. apply refresh_lin; [apply FN| |].
    - apply Forall_app. split; [exact FKZ|exact FH].
    - rewrite !app_length. specialize (CN j Hj). lia. }
  set (KN := fun j => nth j LN []) in *.
  destruct (lwe_lin e l k rep A WL KN Hrep HA FL) as (U & V & LUV & HLWE).
  { intros j Hj. destruct (HN j Hj) as (L1 & F1 & _). split; [exact F1|]. specialize (CN j Hj). unfold KN. lia. }
  { revert CNT HL. clear. intros. lia. }
  exists KK, U, V. split; [|split].
  { assert (X : (nsum l (fun j => length (KK j)) <= nsum l (fun j => length (WK j)))%nat) by (apply nsum_le; intros j Hj; apply (HK j Hj)). revert X LUV CNT. clear.
    generalize (nsum l (fun j => length (KK j))), (nsum l (fun j => length (WK j))), (nsum l (fun j => length (WN j))), (nsum l (fun j => length (WZ j))). intros; lia. }
  { intros j Hj. destruct (HK j Hj) as (L1 & F1 & _). split; [exact F1|]. specialize (CN j Hj). unfold KK. lia. }
  intros key N Mkey MN ZK ZU ZV TOT TOTZ.
  destruct (HLWE N MN ZU ZV TOT) as (ML & HML & WLz & SRz & NZ).
  destruct (list_choice [] (fun j (delta : list (list Z)) => mask_tuple e delta /\ (forall w, In w (WK j) -> wire_value e (key j) delta w = ring_zero) /\ (forall kk, In kk (KZ j ++ SH ++ Oq j) -> nth kk (add_masks e (key j) delta) [] = ring_zero)) l) as (DK & _ & HDK).
  { intros j Hj. apply (HK j Hj); [apply Mkey, Hj|]. intros kk Hkk. apply ZK; [exact Hj|exact Hkk]. }
  set (dk := fun j => nth j DK []) in *.
  destruct (list_choice [] (fun j (delta : list (list Z)) => mask_tuple e delta /\ (forall w, In w (WN j) -> wire_value e (secret_row e rep N ML j) delta w = ring_zero) /\ (forall kk, In kk (KZ j ++ SH) -> nth kk (add_masks e (secret_row e rep N ML j) delta) [] = ring_zero)) l) as (DN & _ & HDN).
  { intros j Hj. apply (HN j Hj); [apply secret_row_masked|]. intros kk Hkk. apply NZ; [exact Hj|exact Hkk]. }
  set (dn := fun j => nth j DN []) in *.
  set (ri := fun j => tuple_add (map (fun y => ring_mul y c) (add_masks e (key j) (dk j))) (add_masks e (secret_row e rep N ML j) (dn j))).
  assert (Mri : forall j, masked (2 ^ e) (ri j)) by (intros j; apply tuple_add_masked; [apply mul_rows_masked, add_masks_masked|apply add_masks_masked]).
  assert (SRu : forall j, (j < l)%nat -> unmask (secret_row e rep N ML j) = noise_total (n_s N j) rep).
  { intros j Hj. unfold secret_row. rewrite unmask_state; [|apply start_row_masked|intros i Hi; apply MN; assumption]. unfold start_row. rewrite unmask_masks by apply zshares_masked. change (repeat ring_zero (2 ^ e)) with (zshares e).
    rewrite unmask_zshares. apply ring_add_zero_l. destruct rep; [apply ring_zero_poly|apply ring_add_poly]. }
  destruct (list_choice [] (fun j (delta : list (list Z)) => mask_tuple e delta /\ (forall w, In w (WZ j) -> wire_value e (ri j) delta w = ring_zero) /\ add_masks e (ri j) delta = zshares e) l) as (DZ & _ & HDZ).
  { intros j Hj. destruct (HZ j Hj) as (_ & FKZ & H). apply H; [apply Mri| |].
    - intros kk Hkk. assert (Hb : (kk < 2 ^ e)%nat) by (rewrite Forall_forall in FKZ; apply FKZ, Hkk).
      assert (L1 := proj1 (add_masks_masked e (key j) (dk j))). assert (L2 := proj1 (add_masks_masked e (secret_row e rep N ML j) (dn j))).
      unfold ri. rewrite nth_tuple_add by (rewrite ?map_length, ?L1, ?L2; exact Hb). rewrite nth_mul_rows by (rewrite L1; exact Hb).
      assert (Z1 : nth kk (add_masks e (key j) (dk j)) [] = ring_zero) by (apply (HDK j Hj); apply in_or_app; left; exact Hkk).
      assert (Z2 : nth kk (add_masks e (secret_row e rep N ML j) (dn j)) [] = ring_zero) by (apply (HDN j Hj); apply in_or_app; left; exact Hkk).
      rewrite Z1, Z2, ring_mul_zero_l. apply ring_add_zero_r, ring_zero_poly.
    - unfold ri. rewrite (ProbeProg.unmask_add (2 ^ e)) by (try apply mul_rows_masked; apply add_masks_masked). rewrite unmask_mul_rows; [|exact Hc|apply add_masks_masked].
      rewrite !unmask_masks by (try apply Mkey; try exact Hj; apply secret_row_masked). rewrite SRu by exact Hj. apply (TOTZ j Hj). }
  set (dz := fun j => nth j DZ []) in *.
  exists (AMasks ML dk dn dz). split; [split; [exact HML|]|split; [|split; [|split]]].
  - intros j Hj. cbn [a_key a_nonce a_resp]. split; [apply (HDK j Hj)|]. split; [apply (HDN j Hj)|apply (HDZ j Hj)].
  - rewrite Forall_forall in FW. intros w Hw. pose proof (FW w Hw) as OK. destruct w as [v|j v|j v|kk|j v]; cbn [awire_value awire_ok a_lwe a_key a_nonce a_resp] in *.
    + apply WLz, IL, Hw.
    + constructor; [|constructor]. symmetry. apply (HDK j (proj1 OK)), IK, Hw.
    + constructor; [|constructor]. symmetry. apply (HDN j (proj1 OK)), INn, Hw.
    + apply Forall_app. split; apply Forall_forall; intros y Hy; unfold share_vec in Hy; apply in_map_iff in Hy; destruct Hy as (j & <- & Hj); apply in_seq in Hj; symmetry.
      * apply (HDK j ltac:(lia)). apply in_or_app. right. apply in_or_app. left. apply IH, Hw.
      * apply (HDN j ltac:(lia)). apply in_or_app. right. apply IH, Hw.
    + constructor; [|constructor]. symmetry. apply (HDZ j (proj1 OK)), IZ, Hw.
  - exact SRz.
  - intros j Hj. apply (HDZ j Hj).
  - intros j kk Hj Hkk. apply (HDK j Hj). apply in_or_app. right. apply in_or_app. right. exact Hkk.
Qed.
