(* Composition of the probing property of refresh over the repetitions of add_rep_noise. *)
From Coq Require Import ZArith Lia Bool List Arith.
From Coq Require Import ZifyBool ZifyNat.
From Verif Require Import ModelBase ModelU128 ModelField ModelUtils ModelPoly ModelVec.
From Verif Require Import Spec SpecMask SpecProbe SpecNoiseProbe.
From Verif Require Import Words FieldProofs ArithLemmas PolyProofs NttLayers Cong MaskedProofs PolyLemmas SigEnc MaskUniform MaskProg ProbeCore ProbeProofs ProbeProg.
Import ListNotations.
Open Scope Z_scope.
Ltac Zify.zify_post_hook ::= idtac.

Lemma tuple_add_masked d x v : masked d x -> masked d v -> masked d (tuple_add x v).
Proof.
  intros [Lx Fx] [Lv Fv]. split; [rewrite tuple_add_len; congruence|]. apply Forall_forall. intros y Hy. unfold tuple_add in Hy.
  apply in_map_iff in Hy. destruct Hy as ([r s] & <- & _). apply ring_add_poly.
Qed.
Lemma add_masks_masked e x rs : masked (2 ^ e) (add_masks e x rs).
Proof.
  split; [unfold add_masks; rewrite map_length; apply seq_length|]. apply Forall_forall. intros y Hy. unfold add_masks in Hy.
  apply in_map_iff in Hy. destruct Hy as (k & <- & _). apply mod_poly.
Qed.
Lemma masked_nth_poly d x k : masked d x -> (k < d)%nat -> is_poly (nth k x []).
Proof. intros [L F] H. rewrite Forall_forall in F. apply F, nth_In. lia. Qed.
Lemma add_masks_coef e x rs k c : (k < 2 ^ e)%nat -> (c < 512)%nat ->
  coef (nth k (add_masks e x rs) []) c == coef (nth k x []) c + mask_coef k c (combine (mask_pairs e) rs).
Proof. intros Hk Hc. unfold add_masks. rewrite nth_map_seq by exact Hk. rewrite coef_map_seq by exact Hc. apply cg_mod. Qed.
Lemma mask_coef_add e rs ss k c : mask_tuple e rs -> mask_tuple e ss -> (c < 512)%nat ->
  mask_coef k c (combine (mask_pairs e) (tuple_add rs ss)) == mask_coef k c (combine (mask_pairs e) rs) + mask_coef k c (combine (mask_pairs e) ss).
Proof.
  intros [Lr _] [Ls _] Hc. rewrite !mask_coef_esum. rewrite (tuple_add_map c Hc rs ss) by congruence. reflexivity.
Qed.
Lemma sharing_ext d x y : masked d x -> masked d y -> (forall k c, (k < d)%nat -> (c < 512)%nat -> coef (nth k x []) c == coef (nth k y []) c) -> x = y.
Proof.
  intros Mx My H. apply (nth_ext _ _ [] []); [destruct Mx, My; congruence|]. intros k Hk. rewrite (proj1 Mx) in Hk.
  pose proof (masked_nth_poly d x k Mx Hk) as Px. pose proof (masked_nth_poly d y k My Hk) as Py.
  apply poly_ext; [apply Px|apply Py|]. intros c Hc. rewrite <- (mod_q_reduced (coef (nth k x []) c)) by (apply is_poly_coef'; exact Px).
  rewrite <- (mod_q_reduced (coef (nth k y []) c)) by (apply is_poly_coef'; exact Py). exact (H k c Hk Hc).
Qed.
Lemma tuple_add_coef d x v k c : masked d x -> masked d v -> (k < d)%nat -> (c < 512)%nat ->
  coef (nth k (tuple_add x v) []) c == coef (nth k x []) c + coef (nth k v []) c.
Proof.
  intros [Lx _] [Lv _] Hk Hc. rewrite nth_tuple_add by lia. unfold ring_add. rewrite coef_map_seq by exact Hc. apply cg_mod.
Qed.
Lemma add_masks_add e x v rs ss : masked (2 ^ e) x -> masked (2 ^ e) v -> mask_tuple e rs -> mask_tuple e ss ->
  add_masks e (tuple_add x v) (tuple_add rs ss) = tuple_add (add_masks e x rs) (add_masks e v ss).
Proof.
  intros Mx Mv Mr Ms. apply (sharing_ext (2 ^ e)); [apply add_masks_masked|apply tuple_add_masked; apply add_masks_masked|].
  intros k c Hk Hc. rewrite (add_masks_coef e _ _ k c Hk Hc), (tuple_add_coef (2 ^ e) x v k c Mx Mv Hk Hc), (mask_coef_add e rs ss k c Mr Ms Hc).
  rewrite (tuple_add_coef (2 ^ e) _ _ k c (add_masks_masked e x rs) (add_masks_masked e v ss) Hk Hc), (add_masks_coef e x rs k c Hk Hc), (add_masks_coef e v ss k c Hk Hc).
  apply cg_refl'. ring.
Qed.
Lemma tuple_add_swap d a b x v : masked d a -> masked d b -> masked d x -> masked d v ->
  tuple_add (tuple_add a b) (tuple_add x v) = tuple_add (tuple_add a x) (tuple_add b v).
Proof.
  intros Ma Mb Mx Mv. apply (sharing_ext d); try (repeat apply tuple_add_masked; assumption). intros k c Hk Hc.
  rewrite (tuple_add_coef d _ _ k c (tuple_add_masked d a b Ma Mb) (tuple_add_masked d x v Mx Mv) Hk Hc), (tuple_add_coef d _ _ k c (tuple_add_masked d a x Ma Mx) (tuple_add_masked d b v Mb Mv) Hk Hc).
  rewrite (tuple_add_coef d a b k c), (tuple_add_coef d x v k c), (tuple_add_coef d a x k c), (tuple_add_coef d b v k c) by assumption. apply cg_refl'. ring.
Qed.
Lemma noise_state_masked e x us rss n : masked (2 ^ e) x -> masked (2 ^ e) (noise_state e x us rss n).
Proof. intros M. destruct n; [exact M|apply add_masks_masked]. Qed.
Lemma noise_state_add e x vx us v rss ds n : masked (2 ^ e) x -> masked (2 ^ e) vx ->
  (forall i, (i < n)%nat -> masked (2 ^ e) (us i) /\ masked (2 ^ e) (v i) /\ mask_tuple e (rss i) /\ mask_tuple e (ds i)) ->
  noise_state e (tuple_add x vx) (family_add us v) (family_add rss ds) n = tuple_add (noise_state e x us rss n) (noise_state e vx v ds n).
Proof.
  intros Mx Mv. induction n as [|n IH]; intros H; [reflexivity|]. cbn [noise_state]. rewrite IH by (intros i Hi; apply H; lia).
  destruct (H n ltac:(lia)) as (Mu & Mn & Mr & Md). unfold family_add.
  rewrite (tuple_add_swap (2 ^ e)) by (try assumption; apply noise_state_masked; assumption).
  apply add_masks_add; try assumption; apply tuple_add_masked; try assumption; apply noise_state_masked; assumption.
Qed.
Lemma noise_state_ext e x us rss us' rss' n : (forall i, (i < n)%nat -> us i = us' i /\ rss i = rss' i) -> noise_state e x us rss n = noise_state e x us' rss' n.
Proof. induction n as [|n IH]; intros H; [reflexivity|]. cbn [noise_state]. rewrite IH by (intros i Hi; apply H; lia). destruct (H n ltac:(lia)) as [-> ->]. reflexivity. Qed.
(* a change that leaves a share as it is is zero there *)
Lemma zero_change d x v k : masked d x -> masked d v -> (k < d)%nat -> nth k x [] = nth k (tuple_add x v) [] -> nth k v [] = ring_zero.
Proof.
  intros Mx Mv Hk E. pose proof (masked_nth_poly d v k Mv Hk) as Pv. apply poly_ext; [apply Pv|apply is_poly_length, ring_zero_poly|]. intros c Hc. rewrite coef_ring_zero.
  rewrite <- (mod_q_reduced (coef (nth k v []) c)) by (apply is_poly_coef'; exact Pv). change 0 with (0 mod q). change (coef (nth k v []) c == 0).
  transitivity (coef (nth k (tuple_add x v) []) c - coef (nth k x []) c); [rewrite (tuple_add_coef d x v k c Mx Mv Hk Hc); apply cg_refl'; ring|rewrite <- E; apply cg_refl'; ring].
Qed.
Lemma add_zero d x v k : masked d x -> masked d v -> (k < d)%nat -> nth k v [] = ring_zero -> nth k (tuple_add x v) [] = nth k x [].
Proof.
  intros Mx Mv Hk E. destruct Mx as [Lx Fx] eqn:EM. rewrite nth_tuple_add by (destruct Mv; lia). rewrite E. pose proof (masked_nth_poly d x k (conj Lx Fx) Hk) as Px.
  apply poly_ext; [apply is_poly_length, ring_add_poly|apply Px|]. intros c Hc. unfold ring_add. rewrite coef_map_seq by exact Hc. rewrite coef_ring_zero, Z.add_0_r. apply mod_q_reduced, is_poly_coef'. exact Px.
Qed.

Definition idx (w : nwire) : nat := match w with nw_share i _ | nw_noise i _ | nw_refresh i _ => i end.
(* observations of repetition n *)
Fixpoint split_w (n : nat) (W : list nwire) : list nwire * list nat * list nat * list wire :=
  match W with
  | [] => ([], [], [], [])
  | w :: W =>
      let '(A, Sh, U, R) := split_w n W in
      if (idx w =? n)%nat then match w with
        | nw_share _ k => (A, k :: Sh, U, R)
        | nw_noise _ k => (A, Sh, k :: U, R)
        | nw_refresh _ w => (A, Sh, U, w :: R)
        end
      else (w :: A, Sh, U, R)
  end.
Lemma split_w_spec e n W : Forall (nwire_ok e (S n)) W -> let '(A, Sh, U, R) := split_w n W in
  (length A + length Sh + length U + length R = length W)%nat /\ Forall (nwire_ok e n) A /\
  Forall (fun k => (k < 2 ^ e)%nat) Sh /\ Forall (fun k => (k < 2 ^ e)%nat) U /\ Forall (wire_ok e) R /\
  forall w, In w W -> match w with
    | nw_share i k => In (nw_share i k) A \/ i = n /\ In k Sh
    | nw_noise i k => In (nw_noise i k) A \/ i = n /\ In k U
    | nw_refresh i v => In (nw_refresh i v) A \/ i = n /\ In v R
    end.
Proof.
  induction W as [|w W IH]; intros F; cbn [split_w]; [repeat (split; [constructor|]); intros w []|].
  inversion F as [|? ? Hw F']; subst. specialize (IH F'). destruct (split_w n W) as [[[A Sh] U] R]. destruct IH as (L & FA & FS & FU & FR & H).
  destruct (idx w =? n)%nat eqn:E.
  - apply Nat.eqb_eq in E. destruct w as [i k|i k|i v]; cbn [idx nwire_ok] in *; subst i.
    + split; [cbn [length]; lia|]. split; [exact FA|]. split; [constructor; [apply Hw|exact FS]|]. split; [exact FU|]. split; [exact FR|].
      intros w [<-|Hi]; [right; split; [reflexivity|left; reflexivity]|]. pose proof (H w Hi) as X. destruct w; destruct X as [X|[X Y]]; try (left; exact X); right; (split; [exact X|]); try (right; exact Y); exact Y.
    + split; [cbn [length]; lia|]. split; [exact FA|]. split; [exact FS|]. split; [constructor; [apply Hw|exact FU]|]. split; [exact FR|].
      intros w [<-|Hi]; [right; split; [reflexivity|left; reflexivity]|]. pose proof (H w Hi) as X. destruct w; destruct X as [X|[X Y]]; try (left; exact X); right; (split; [exact X|]); try (right; exact Y); exact Y.
    + split; [cbn [length]; lia|]. split; [exact FA|]. split; [exact FS|]. split; [exact FU|]. split; [constructor; [apply Hw|exact FR]|].
      intros w [<-|Hi]; [right; split; [reflexivity|left; reflexivity]|]. pose proof (H w Hi) as X. destruct w; destruct X as [X|[X Y]]; try (left; exact X); right; (split; [exact X|]); try (right; exact Y); exact Y.
  - apply Nat.eqb_neq in E. split; [cbn [length]; lia|]. split.
    { constructor; [|exact FA]. destruct w; cbn [idx nwire_ok] in *; destruct Hw as [Hw1 Hw2]; (split; [lia|exact Hw2]). }
    split; [exact FS|]. split; [exact FU|]. split; [exact FR|]. intros w' [<-|Hi]; [destruct w; left; left; reflexivity|].
    pose proof (H w' Hi) as X. destruct w'; destruct X as [X|X]; try (left; right; exact X); right; exact X.
Qed.
Lemma nwire_value_ext e x us rss us' rss' n w : nwire_ok e n w -> (forall i, (i < n)%nat -> us i = us' i /\ rss i = rss' i) ->
  nwire_value e x us rss w = nwire_value e x us' rss' w.
Proof.
  intros Hw H. assert (Hi : (idx w < n)%nat) by (destruct w; apply Hw). assert (NS : noise_state e x us rss (idx w) = noise_state e x us' rss' (idx w)) by (apply noise_state_ext; intros i Hi'; apply H; lia).
  destruct (H _ Hi) as [E1 E2]. destruct w; cbn [idx nwire_value] in *; rewrite ?NS, ?E1, ?E2; reflexivity.
Qed.

Lemma noise_probe e : forall n W Oq, Forall (nwire_ok e n) W -> Forall (fun k => (k < 2 ^ e)%nat) Oq -> (length W + length Oq < 2 ^ e)%nat ->
  exists (U : list (nat * nat)) (K : list nat), (length U <= length W)%nat /\ (length K <= length W + match n with 0 => length Oq | _ => 0 end)%nat /\
  Forall (fun ik => (fst ik < n /\ snd ik < 2 ^ e)%nat) U /\ Forall (fun k => (k < 2 ^ e)%nat) K /\
  forall vx v, masked (2 ^ e) vx -> (forall i, (i < n)%nat -> masked (2 ^ e) (v i)) ->
    (forall k, In k K -> nth k vx [] = ring_zero) -> (forall i k, In (i, k) U -> nth k (v i) [] = ring_zero) ->
  exists delta : nat -> list (list Z), (forall i, (i < n)%nat -> mask_tuple e (delta i)) /\
  forall x us rss, masked (2 ^ e) x -> (forall i, (i < n)%nat -> masked (2 ^ e) (us i)) -> (forall i, (i < n)%nat -> mask_tuple e (rss i)) ->
    (forall w, In w W -> nwire_value e x us rss w = nwire_value e (tuple_add x vx) (family_add us v) (family_add rss delta) w) /\
    (forall k, In k Oq -> nth k (noise_state e x us rss n) [] = nth k (noise_state e (tuple_add x vx) (family_add us v) (family_add rss delta) n) []).
Proof.
  induction n as [|n IH]; intros W Oq FW FO HL.
  - exists [], Oq. split; [cbn [length]; lia|]. split; [lia|]. split; [constructor|]. split; [exact FO|]. intros vx v Mvx _ HK _.
    exists (fun _ => []). split; [intros i Hi; lia|]. intros x us rss Mx _ _. split.
    + intros w Hw. rewrite Forall_forall in FW. specialize (FW w Hw). destruct w; cbn [nwire_ok] in FW; lia.
    + intros k Hk. cbn [noise_state]. rewrite Forall_forall in FO. symmetry. apply (add_zero (2 ^ e)); auto.
  - pose proof (split_w_spec e n W FW) as SW. destruct (split_w n W) as [[[A SS] UU] R]. destruct SW as (LW & FA & FS & FU & FR & HW).
    destruct (probe_shift e R Oq FR FO ltac:(lia)) as (K & LK & FK & HK).
    destruct (IH A (K ++ SS) FA) as (U & X & LU & LX & FUn & FX & HX); [apply Forall_app; split; assumption|rewrite app_length; lia|].
    exists (U ++ map (pair n) (K ++ UU)), X. split; [rewrite app_length, map_length, app_length; lia|].
    split; [rewrite app_length in LX; destruct n; lia|]. split.
    { apply Forall_app. split; [eapply Forall_impl; [|exact FUn]; intros [i k]; cbn [fst snd]; lia|]. apply Forall_map. cbn [fst snd].
      apply Forall_app. split; [eapply Forall_impl; [|exact FK]|eapply Forall_impl; [|exact FU]]; cbn beta; intros; lia. }
    split; [exact FX|]. intros vx v Mvx Mv Zx Zv.
    destruct (HX vx v Mvx) as (delta & Md & HD); [intros i Hi; apply Mv; lia|exact Zx|intros i k Hi; apply Zv, in_or_app; left; exact Hi|].
    (* the change of the shares before repetition n *)
    set (D := noise_state e vx v delta n).
    assert (MD : masked (2 ^ e) D) by (apply noise_state_masked; exact Mvx).
    assert (Mvn : masked (2 ^ e) (v n)) by (apply Mv; lia).
    assert (ZP : masked (2 ^ e) (repeat ring_zero (2 ^ e))) by (split; [apply repeat_length|]; apply Forall_forall; intros y Hy; apply repeat_spec in Hy; subst y; apply ring_zero_poly).
    assert (ZT : mask_tuple e (repeat ring_zero (length (mask_pairs e)))) by (split; [apply repeat_length|]; apply Forall_forall; intros y Hy; apply repeat_spec in Hy; subst y; apply ring_zero_poly).
    assert (ZD : forall k, In k (K ++ SS) -> nth k D [] = ring_zero).
    { intros k Hk. assert (Hkd : (k < 2 ^ e)%nat) by (apply in_app_or in Hk; rewrite Forall_forall in FK, FS; destruct Hk; auto).
      destruct (HD (repeat ring_zero (2 ^ e)) (fun _ => repeat ring_zero (2 ^ e)) (fun _ => repeat ring_zero (length (mask_pairs e))) ZP (fun _ _ => ZP) (fun _ _ => ZT)) as [_ HO].
      specialize (HO k Hk). rewrite noise_state_add in HO; [|exact ZP|exact Mvx|intros i Hi; split; [exact ZP|split; [apply Mv; lia|split; [exact ZT|apply Md, Hi]]]].
      eapply (zero_change (2 ^ e)); [|exact MD|exact Hkd|exact HO]. apply noise_state_masked. exact ZP. }
    destruct (HK (tuple_add D (v n))) as (dn & Mdn & Hdn); [apply tuple_add_masked; assumption| |].
    { intros k Hk. assert (Hkd : (k < 2 ^ e)%nat) by (rewrite Forall_forall in FK; auto). rewrite (add_zero (2 ^ e)); [apply ZD, in_or_app; left; exact Hk|exact MD|exact Mvn|exact Hkd|].
      apply Zv, in_or_app. right. apply in_map, in_or_app. left. exact Hk. }
    exists (fun i => if (i =? n)%nat then dn else delta i). split.
    { intros i Hi. destruct (Nat.eqb_spec i n) as [->|N]; [exact Mdn|apply Md; lia]. }
    intros x us rss Mx Mu Mr. destruct (HD x us rss Mx) as [HA HO]; [intros i Hi; apply Mu; lia|intros i Hi; apply Mr; lia|].
    set (d' := fun i => if (i =? n)%nat then dn else delta i).
    assert (EX : forall i, (i < n)%nat -> family_add us v i = family_add us v i /\ family_add rss delta i = family_add rss d' i).
    { intros i Hi. split; [reflexivity|]. unfold family_add, d'. replace (i =? n)%nat with false by (symmetry; apply Nat.eqb_neq; lia). reflexivity. }
    assert (NS : noise_state e (tuple_add x vx) (family_add us v) (family_add rss d') n = tuple_add (noise_state e x us rss n) D).
    { rewrite <- (noise_state_ext e (tuple_add x vx) (family_add us v) (family_add rss delta) (family_add us v) (family_add rss d') n EX). apply noise_state_add; [exact Mx|exact Mvx|].
      intros i Hi. split; [apply Mu; lia|]. split; [apply Mv; lia|]. split; [apply Mr; lia|apply Md; exact Hi]. }
    assert (MS : masked (2 ^ e) (noise_state e x us rss n)) by (apply noise_state_masked; exact Mx).
    assert (Mun : masked (2 ^ e) (us n)) by (apply Mu; lia).
    assert (RIN : tuple_add (noise_state e (tuple_add x vx) (family_add us v) (family_add rss d') n) (family_add us v n) = tuple_add (tuple_add (noise_state e x us rss n) (us n)) (tuple_add D (v n))).
    { rewrite NS. unfold family_add. apply (tuple_add_swap (2 ^ e)); assumption. }
    assert (Dn : family_add rss d' n = tuple_add (rss n) dn) by (unfold family_add, d'; rewrite Nat.eqb_refl; reflexivity).
    destruct (Hdn (tuple_add (noise_state e x us rss n) (us n)) (rss n)) as [HR HOut]; [apply tuple_add_masked; assumption|apply Mr; lia|].
    split.
    + intros w Hw. pose proof (HW w Hw) as C. rewrite Forall_forall in FA, FS, FU.
      assert (OLD : In w A -> nwire_value e x us rss w = nwire_value e (tuple_add x vx) (family_add us v) (family_add rss d') w).
      { intros Hi. rewrite (HA w Hi). apply (nwire_value_ext e _ _ _ _ _ n); [apply FA, Hi|exact EX]. }
      destruct w as [i k|i k|i w]; destruct C as [C|[-> C]]; try (apply OLD; exact C); cbn [nwire_value].
      * rewrite NS. symmetry. apply (add_zero (2 ^ e)); [exact MS|exact MD|apply FS, C|apply ZD, in_or_app; right; exact C].
      * unfold family_add. symmetry. apply (add_zero (2 ^ e)); [exact Mun|exact Mvn|apply FU, C|]. apply Zv, in_or_app. right. apply in_map, in_or_app. right. exact C.
      * rewrite RIN, Dn. apply HR. exact C.
    + intros k Hk. cbn [noise_state]. rewrite RIN, Dn. apply HOut. exact Hk.
Qed.
