(* The values inside the model of refresh are the wires of SpecProbe.v; translations of sharings. *)
From Coq Require Import ZArith Lia Bool List Arith.
From Coq Require Import ZifyBool ZifyNat.
From Verif Require Import ModelBase ModelU128 ModelField ModelUtils ModelPoly ModelVec.
From Verif Require Import Spec SpecMask SpecProbe.
From Verif Require Import Words FieldProofs ArithLemmas PolyProofs NttLayers Cong MaskedProofs PolyLemmas SigEnc MaskUniform MaskProg ProbeCore ProbeProofs.
Import ListNotations.
Open Scope Z_scope.
Ltac Zify.zify_post_hook ::= idtac.

Lemma drawn_prefix O fuel d : forall ps g rs g' n rs1 g1, drawn O fuel d ps g rs g' -> drawn O fuel d (firstn n ps) g rs1 g1 -> rs1 = firstn n rs.
Proof.
  induction ps as [|[i j] ps IH]; intros g rs g' n rs1 g1 H H1.
  - rewrite firstn_nil in H1. destruct rs; [|destruct H]. destruct rs1; [|destruct H1]. rewrite firstn_nil. reflexivity.
  - destruct rs as [|r rs]; [destruct H|]. destruct n as [|n]; [destruct rs1; [reflexivity|destruct H1]|].
    cbn [firstn] in *. destruct rs1 as [|r1 rs1]; [destruct H1|]. cbn [drawn] in *. destruct H as (ga & Ea & H). destruct H1 as (gb & Eb & H1).
    rewrite Ea in Eb. injection Eb as <- <-. f_equal. eapply IH; eassumption.
Qed.
Lemma zenc_states O fuel e g z g' : mp_zero_encoding O fuel (2 ^ e) g = Ok (z, g') ->
  exists rs, mask_tuple e rs /\ drawn O fuel (2 ^ e) (mask_pairs e) g rs g' /\
  forall n, (n <= length (mask_pairs e))%nat -> exists gn,
    foldM (fun st ij => zenc_step O fuel (2 ^ e) (snd ij - fst ij) st (fst ij)) (firstn n (mask_pairs e)) (repeat (poly_fill 0) (2 ^ e), g)
    = Ok (map (accumulator e rs n) (seq 0 (2 ^ e)), gn).
Proof.
  intros Ez. rewrite zenc_network in Ez. destruct (network_masks O fuel (2 ^ e) _ _ _ _ _ (proj1 (zero_shares_ok (2 ^ e))) (pairs_range e) Ez) as (rs & Lr & Fr & Dr & Hz & Sum).
  exists rs. split; [split; assumption|]. split; [exact Dr|]. intros n Hn. change (fun st ij => zenc_step O fuel (2 ^ e) (snd ij - fst ij) st (fst ij)) with (pstep O fuel (2 ^ e)).
  rewrite <- (firstn_skipn n (mask_pairs e)), foldM_app in Ez. apply bind_ok_inv in Ez. destruct Ez as ([zn gn] & En & _). exists gn. etransitivity; [exact En|].
  assert (PR : forall i j, In (i, j) (firstn n (mask_pairs e)) -> (i < j < 2 ^ e)%nat).
  { intros i j H. apply pairs_range. rewrite <- (firstn_skipn n (mask_pairs e)). apply in_or_app. left. exact H. }
  destruct (network_masks O fuel (2 ^ e) _ _ _ _ _ (proj1 (zero_shares_ok (2 ^ e))) PR En) as (rs1 & Lr1 & _ & Dr1 & [Lz Fz] & Sum1).
  rewrite (drawn_prefix _ _ _ _ _ _ _ _ _ _ Dr Dr1) in Sum1. refine (f_equal (fun x => Ok (x, gn)) _). clear - Lz Fz Sum1. unfold poly, mpoly in *.
  apply (nth_ext _ _ [] []); [rewrite map_length, seq_length; exact Lz|]. intros k Hk. assert (Hk' : (k < 2 ^ e)%nat) by exact (eq_ind _ (fun n => (k < n)%nat) Hk _ Lz). clear Hk. rename Hk' into Hk. etransitivity; [|symmetry; apply nth_map_seq; exact Hk].
  assert (Pk : is_poly (nth k zn [])) by (rewrite Forall_forall in Fz; apply Fz, nth_In; exact (eq_ind_r (fun n => (k < n)%nat) Hk Lz)).
  apply poly_ext; [apply Pk|unfold accumulator; rewrite map_length; apply seq_length|]. intros c Hc. unfold accumulator. rewrite coef_map_seq by exact Hc.
  etransitivity; [symmetry; apply mod_q_reduced, is_poly_coef'; exact Pk|]. rewrite combine_firstn.
  change (coef (nth k zn []) c == mask_coef k c (combine (firstn n (mask_pairs e)) (firstn n rs))). etransitivity; [exact (Sum1 k c Hk Hc)|].
  assert (Z0 : coef (nth k (repeat (poly_fill 0) (2 ^ e)) []) c = 0).
  { change (poly_fill 0) with poly_zero. rewrite poly_zero_eq. assert (X : nth k (repeat ring_zero (2 ^ e)) [] = ring_zero) by (rewrite (nth_indep _ [] ring_zero) by (rewrite repeat_length; exact Hk); apply nth_repeat). etransitivity; [exact (f_equal (fun p => coef p c) X)|apply coef_ring_zero]. }
  unfold poly, mpoly in *. rewrite Z0. apply cg_refl'. ring.
Qed.
Lemma refresh_states O fuel e a g a1 g' : masked (2 ^ e) a -> mp_refresh O fuel (2 ^ e) a g = Ok (a1, g') ->
  exists rs, mask_tuple e rs /\ drawn O fuel (2 ^ e) (mask_pairs e) g rs g' /\ a1 = add_masks e a rs /\
  forall n, (n <= length (mask_pairs e))%nat -> exists gn,
    foldM (fun st ij => zenc_step O fuel (2 ^ e) (snd ij - fst ij) st (fst ij)) (firstn n (mask_pairs e)) (repeat (poly_fill 0) (2 ^ e), g)
    = Ok (map (accumulator e rs n) (seq 0 (2 ^ e)), gn).
Proof.
  intros Ha E. destruct (refresh_masks O fuel e a g a1 g' Ha E) as (rs & Mt & Dr & Ea). exists rs. split; [exact Mt|]. split; [exact Dr|]. split; [exact Ea|].
  unfold mp_refresh in E. apply bind_ok_inv in E. destruct E as ([z g1] & Ez & E). injection E as _ <-.
  destruct (zenc_states O fuel e g z g1 Ez) as (rs' & Mt' & Dr' & St).
  assert (R : rs' = rs).
  { pose proof (drawn_prefix O fuel (2 ^ e) (mask_pairs e) g rs g1 (length (mask_pairs e)) rs' g1 Dr) as X. rewrite !firstn_all2 in X; [apply X; exact Dr'|rewrite (proj1 Mt); apply le_n|apply le_n]. }
  subst rs'. exact St.
Qed.

(* translations *)
Lemma tuple_add_len x v : length x = length v -> length (tuple_add x v) = length x.
Proof. intros H. unfold tuple_add. rewrite map_length, combine_length, H. apply Nat.min_id. Qed.
Lemma translation_perm d : forall v, masked d v -> forall y, masked d y -> exists! x, masked d x /\ tuple_add x v = y.
Proof.
  unfold masked. intros v [Lv Fv]. subst d. induction Fv as [|s v Hs Fv IH]; intros [|r y] [L F]; cbn [length] in L; try lia.
  - exists []. split; [split; [split; [reflexivity|constructor]|reflexivity]|]. intros [|w ws] [[Hl _] _]; [reflexivity|discriminate].
  - inversion F as [|? ? Hr F']; subst. assert (L' : length y = length v) by lia. destruct (IH y (conj L' F')) as (x & [[Lx Fx] E] & U).
    exists (ring_sub r s :: x). split.
    + split; [split; [cbn [length]; lia|constructor; [apply ring_sub_poly|exact Fx]]|]. unfold tuple_add in *. cbn [combine map]. rewrite E. f_equal. apply ring_add_cancel; assumption.
    + intros ys [[Ly Fy] Ey]. destruct ys as [|w ys]; [discriminate|]. cbn [length] in Ly. inversion Fy as [|? ? Py Fy']; subst. unfold tuple_add in Ey. cbn [combine map] in Ey. injection Ey as E1 E2.
      f_equal; [|apply U; split; [split; [lia|exact Fy']|exact E2]].
      apply (ring_add_inj _ _ s); [apply ring_sub_poly|exact Py|]. rewrite ring_add_cancel by assumption. symmetry. exact E1.
Qed.
Lemma masked_add d x v : masked d x -> masked d v -> masked d (tuple_add x v).
Proof.
  intros [Lx Fx] [Lv Fv]. split; [rewrite tuple_add_len; congruence|]. apply Forall_forall. intros p Hp. apply in_map_iff in Hp. destruct Hp as ([r s] & <- & _). apply ring_add_poly.
Qed.
Lemma usum_add c : (c < 512)%nat -> forall x v, length x = length v -> usum c (tuple_add x v) == usum c x + usum c v.
Proof.
  intros Hc. induction x as [|r x IH]; intros [|s v] L; cbn [length] in L; try lia; [reflexivity|].
  change (tuple_add (r :: x) (s :: v)) with (ring_add r s :: tuple_add x v). unfold usum in *. cbn [map fold_right]. rewrite (IH v ltac:(lia)).
  unfold ring_add. rewrite coef_map_seq by exact Hc. assert (M : (coef r c + coef s c) mod q == coef r c + coef s c) by (unfold cg; apply Zmod_mod). rewrite M. apply cg_refl'. ring.
Qed.
Lemma unmask_add d x v : masked d x -> masked d v -> unmask (tuple_add x v) = ring_add (unmask x) (unmask v).
Proof.
  intros [Lx _] [Lv _]. apply poly_ext; [apply is_poly_length, unmask_poly|apply is_poly_length, ring_add_poly|]. intros c Hc.
  unfold ring_add. rewrite coef_map_seq, !coef_unmask by exact Hc. rewrite <- Zplus_mod. apply (usum_add c Hc). congruence.
Qed.
Definition one_share (d p : nat) (s : list Z) : list (list Z) := map (fun k => if Nat.eqb k p then s else ring_zero) (seq 0 d).
Lemma one_share_masked d p s : is_poly s -> masked d (one_share d p s).
Proof.
  intros Hs. split; [unfold one_share; rewrite map_length; apply seq_length|]. apply Forall_forall. intros y Hy. apply in_map_iff in Hy. destruct Hy as (k & <- & _).
  destruct (Nat.eqb k p); [exact Hs|apply ring_zero_poly].
Qed.
Lemma usum_one c p s : forall d, usum c (one_share d p s) = if (p <? d)%nat then coef s c else 0.
Proof.
  unfold one_share. induction d as [|d IH]; [reflexivity|]. rewrite seq_S, map_app, usum_app, IH. cbn [Nat.add map]. unfold usum at 1. cbn [map fold_right].
  destruct (Nat.eqb_spec d p) as [->|N].
  - replace (p <? p)%nat with false by (symmetry; apply Nat.ltb_irrefl). replace (p <? S p)%nat with true by (symmetry; apply Nat.ltb_lt; lia). ring.
  - replace (p <? S d)%nat with (p <? d)%nat by (destruct (Nat.ltb_spec p d), (Nat.ltb_spec p (S d)); try reflexivity; lia). rewrite coef_ring_zero. ring.
Qed.
Lemma unmask_one d p s : (p < d)%nat -> is_poly s -> unmask (one_share d p s) = s.
Proof.
  intros Hp Hs. apply poly_ext; [apply is_poly_length, unmask_poly|apply Hs|]. intros c Hc. rewrite coef_unmask, usum_one by exact Hc.
  replace (p <? d)%nat with true by (symmetry; apply Nat.ltb_lt; exact Hp). apply mod_q_reduced, is_poly_coef'. exact Hs.
Qed.
Lemma probe_secret e W Oq : Forall (wire_ok e) W -> Forall (fun k => (k < 2 ^ e)%nat) Oq -> (length W + length Oq < 2 ^ e)%nat ->
  forall s, is_poly s -> exists v delta, masked (2 ^ e) v /\ mask_tuple e delta /\
  (forall x, masked (2 ^ e) x -> masked (2 ^ e) (tuple_add x v) /\ unmask (tuple_add x v) = ring_add (unmask x) s) /\
  forall x rs, masked (2 ^ e) x -> mask_tuple e rs ->
    (forall w, In w W -> wire_value e x rs w = wire_value e (tuple_add x v) (tuple_add rs delta) w) /\
    (forall k, In k Oq -> nth k (add_masks e x rs) [] = nth k (add_masks e (tuple_add x v) (tuple_add rs delta)) []).
Proof.
  intros FW FO L s Hs. destruct (probe_shift e W Oq FW FO L) as (K & LK & FK & H). destruct (free_position (2 ^ e) K) as (p & Hp & Np); [lia|].
  pose proof (one_share_masked (2 ^ e) p s Hs) as Mv. destruct (H _ Mv) as (delta & Hd & V).
  { intros k Hk. unfold one_share. rewrite nth_map_seq by (rewrite Forall_forall in FK; apply FK, Hk). destruct (Nat.eqb_spec k p) as [->|_]; [contradiction|reflexivity]. }
  exists (one_share (2 ^ e) p s), delta. split; [exact Mv|]. split; [exact Hd|]. split; [|exact V].
  intros x Hx. split; [apply masked_add; assumption|]. rewrite (unmask_add (2 ^ e)), unmask_one by assumption. reflexivity.
Qed.
