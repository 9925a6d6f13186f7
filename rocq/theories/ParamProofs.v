(* Parameter validation. *)
From Coq Require Import ZArith Lia Bool List Arith.
From Coq Require Import ZifyBool ZifyNat.
From Verif Require Import ModelBase ModelU128 ModelField ModelUtils ModelPoly ModelVec ModelSerial ModelScheme.
From Verif Require Import Spec.
Import ListNotations.
Open Scope Z_scope.
Ltac Zify.zify_post_hook ::= idtac.

Lemma is_d_valid_cases d : is_d_valid d = true -> In d [1; 2; 4; 8; 16; 32].
Proof.
  unfold is_d_valid. intros H. apply andb_true_iff in H. destruct H as [H H3]. apply andb_true_iff in H. destruct H as [H1 H2].
  assert (B : 0 < d <= 32) by lia. clear H1 H3.
  assert (E : d = Z.of_nat (Z.to_nat d)) by lia. assert (N : (Z.to_nat d <= 32)%nat) by lia. rewrite E in *.
  assert (NZ : (Z.to_nat d <> 0)%nat) by lia.
  revert H2 NZ. generalize (Z.to_nat d) N. clear. intros n N.
  do 33 (destruct n as [|n]; [vm_compute; intros; first [discriminate|congruence|tauto]|]). lia.
Qed.
Ltac split_ands := repeat match goal with H : _ && _ = true |- _ => apply andb_true_iff in H; destruct H end.
Ltac pick_row := first [left; reflexivity | right; pick_row].
Lemma keygen_args_rows kappa k l d ut nut rep :
  validate_keygen_args kappa k l d ut nut rep = true <->
  exists r, In r param_table /\
    (kappa, k, l, d, ut, nut, rep) = (r_kappa r, r_k r, r_l r, r_d r, r_ut r, r_nut r, r_rep r).
Proof.
  split.
  - unfold validate_keygen_args. intros H.
    apply orb_true_iff in H. destruct H as [H|H]; [apply orb_true_iff in H; destruct H as [H|H]|]; split_ands;
      match goal with Hd : is_d_valid d = true |- _ => apply is_d_valid_cases in Hd; cbn [In] in Hd end;
      repeat match goal with H : (_ =? _) = true |- _ => apply Z.eqb_eq in H end; subst kappa k l nut;
      repeat match goal with H : _ \/ _ |- _ => destruct H as [H|H] end; try contradiction; subst d;
      unfold is_ut_valid, is_rep_valid in *; cbn [Z.eqb Pos.eqb] in *;
      repeat match goal with H : (_ =? _) = true |- _ => apply Z.eqb_eq in H end; subst ut rep.
    + exists (nth 0 param_table (Row 0 0 0 0 0 0 0 0 0 0 0 0 0)). split; [apply nth_In; cbn; lia|reflexivity].
    + exists (nth 1 param_table (Row 0 0 0 0 0 0 0 0 0 0 0 0 0)). split; [apply nth_In; cbn; lia|reflexivity].
    + exists (nth 2 param_table (Row 0 0 0 0 0 0 0 0 0 0 0 0 0)). split; [apply nth_In; cbn; lia|reflexivity].
    + exists (nth 3 param_table (Row 0 0 0 0 0 0 0 0 0 0 0 0 0)). split; [apply nth_In; cbn; lia|reflexivity].
    + exists (nth 4 param_table (Row 0 0 0 0 0 0 0 0 0 0 0 0 0)). split; [apply nth_In; cbn; lia|reflexivity].
    + exists (nth 5 param_table (Row 0 0 0 0 0 0 0 0 0 0 0 0 0)). split; [apply nth_In; cbn; lia|reflexivity].
    + exists (nth 6 param_table (Row 0 0 0 0 0 0 0 0 0 0 0 0 0)). split; [apply nth_In; cbn; lia|reflexivity].
    + exists (nth 7 param_table (Row 0 0 0 0 0 0 0 0 0 0 0 0 0)). split; [apply nth_In; cbn; lia|reflexivity].
    + exists (nth 8 param_table (Row 0 0 0 0 0 0 0 0 0 0 0 0 0)). split; [apply nth_In; cbn; lia|reflexivity].
    + exists (nth 9 param_table (Row 0 0 0 0 0 0 0 0 0 0 0 0 0)). split; [apply nth_In; cbn; lia|reflexivity].
    + exists (nth 10 param_table (Row 0 0 0 0 0 0 0 0 0 0 0 0 0)). split; [apply nth_In; cbn; lia|reflexivity].
    + exists (nth 11 param_table (Row 0 0 0 0 0 0 0 0 0 0 0 0 0)). split; [apply nth_In; cbn; lia|reflexivity].
    + exists (nth 12 param_table (Row 0 0 0 0 0 0 0 0 0 0 0 0 0)). split; [apply nth_In; cbn; lia|reflexivity].
    + exists (nth 13 param_table (Row 0 0 0 0 0 0 0 0 0 0 0 0 0)). split; [apply nth_In; cbn; lia|reflexivity].
    + exists (nth 14 param_table (Row 0 0 0 0 0 0 0 0 0 0 0 0 0)). split; [apply nth_In; cbn; lia|reflexivity].
    + exists (nth 15 param_table (Row 0 0 0 0 0 0 0 0 0 0 0 0 0)). split; [apply nth_In; cbn; lia|reflexivity].
    + exists (nth 16 param_table (Row 0 0 0 0 0 0 0 0 0 0 0 0 0)). split; [apply nth_In; cbn; lia|reflexivity].
    + exists (nth 17 param_table (Row 0 0 0 0 0 0 0 0 0 0 0 0 0)). split; [apply nth_In; cbn; lia|reflexivity].
  - intros (r & Hr & E). inversion E; subst. clear E. unfold param_table in Hr. cbn [In] in Hr.
    repeat (destruct Hr as [<-|Hr]; [reflexivity|]). contradiction.
Qed.
Lemma sign_args_rows kappa k l d uw nuw nut rep omega siglen Binf B22 :
  validate_sign_args kappa k l d uw nuw nut rep omega siglen Binf B22 = true <->
  exists r, In r param_table /\
    (kappa, k, l, d, uw, nuw, nut, rep, omega, siglen, Binf, B22)
    = (r_kappa r, r_k r, r_l r, r_d r, r_uw r, r_nuw r, r_nut r, r_rep r, r_omega r, r_siglen r, r_Binf r, r_B22 r).
Proof.
  split.
  - unfold validate_sign_args. intros H.
    apply orb_true_iff in H. destruct H as [H|H]; [apply orb_true_iff in H; destruct H as [H|H]|]; split_ands;
      match goal with Hd : is_d_valid d = true |- _ => apply is_d_valid_cases in Hd; cbn [In] in Hd end;
      repeat match goal with H : (_ =? _) = true |- _ => apply Z.eqb_eq in H end; subst kappa k l nut nuw omega siglen Binf B22;
      repeat match goal with H : _ \/ _ |- _ => destruct H as [H|H] end; try contradiction; subst d;
      unfold is_uw_valid, is_rep_valid in *; cbn [Z.eqb Pos.eqb] in *;
      repeat match goal with H : (_ =? _) = true |- _ => apply Z.eqb_eq in H end; subst uw rep.
    + exists (nth 0 param_table (Row 0 0 0 0 0 0 0 0 0 0 0 0 0)). split; [apply nth_In; cbn; lia|reflexivity].
    + exists (nth 1 param_table (Row 0 0 0 0 0 0 0 0 0 0 0 0 0)). split; [apply nth_In; cbn; lia|reflexivity].
    + exists (nth 2 param_table (Row 0 0 0 0 0 0 0 0 0 0 0 0 0)). split; [apply nth_In; cbn; lia|reflexivity].
    + exists (nth 3 param_table (Row 0 0 0 0 0 0 0 0 0 0 0 0 0)). split; [apply nth_In; cbn; lia|reflexivity].
    + exists (nth 4 param_table (Row 0 0 0 0 0 0 0 0 0 0 0 0 0)). split; [apply nth_In; cbn; lia|reflexivity].
    + exists (nth 5 param_table (Row 0 0 0 0 0 0 0 0 0 0 0 0 0)). split; [apply nth_In; cbn; lia|reflexivity].
    + exists (nth 6 param_table (Row 0 0 0 0 0 0 0 0 0 0 0 0 0)). split; [apply nth_In; cbn; lia|reflexivity].
    + exists (nth 7 param_table (Row 0 0 0 0 0 0 0 0 0 0 0 0 0)). split; [apply nth_In; cbn; lia|reflexivity].
    + exists (nth 8 param_table (Row 0 0 0 0 0 0 0 0 0 0 0 0 0)). split; [apply nth_In; cbn; lia|reflexivity].
    + exists (nth 9 param_table (Row 0 0 0 0 0 0 0 0 0 0 0 0 0)). split; [apply nth_In; cbn; lia|reflexivity].
    + exists (nth 10 param_table (Row 0 0 0 0 0 0 0 0 0 0 0 0 0)). split; [apply nth_In; cbn; lia|reflexivity].
    + exists (nth 11 param_table (Row 0 0 0 0 0 0 0 0 0 0 0 0 0)). split; [apply nth_In; cbn; lia|reflexivity].
    + exists (nth 12 param_table (Row 0 0 0 0 0 0 0 0 0 0 0 0 0)). split; [apply nth_In; cbn; lia|reflexivity].
    + exists (nth 13 param_table (Row 0 0 0 0 0 0 0 0 0 0 0 0 0)). split; [apply nth_In; cbn; lia|reflexivity].
    + exists (nth 14 param_table (Row 0 0 0 0 0 0 0 0 0 0 0 0 0)). split; [apply nth_In; cbn; lia|reflexivity].
    + exists (nth 15 param_table (Row 0 0 0 0 0 0 0 0 0 0 0 0 0)). split; [apply nth_In; cbn; lia|reflexivity].
    + exists (nth 16 param_table (Row 0 0 0 0 0 0 0 0 0 0 0 0 0)). split; [apply nth_In; cbn; lia|reflexivity].
    + exists (nth 17 param_table (Row 0 0 0 0 0 0 0 0 0 0 0 0 0)). split; [apply nth_In; cbn; lia|reflexivity].
  - intros (r & Hr & E). inversion E; subst. clear E. unfold param_table in Hr. cbn [In] in Hr.
    repeat (destruct Hr as [<-|Hr]; [reflexivity|]). contradiction.
Qed.
Lemma verify_args_rows kappa k l nuw nut omega siglen Binf B22 :
  validate_verify_args kappa k l nuw nut omega siglen Binf B22 = true <->
  exists r, In r param_table /\
    (kappa, k, l, nuw, nut, omega, siglen, Binf, B22)
    = (r_kappa r, r_k r, r_l r, r_nuw r, r_nut r, r_omega r, r_siglen r, r_Binf r, r_B22 r).
Proof.
  split.
  - unfold validate_verify_args. intros H.
    apply orb_true_iff in H. destruct H as [H|H]; [apply orb_true_iff in H; destruct H as [H|H]|]; split_ands;
      repeat match goal with H : (_ =? _) = true |- _ => apply Z.eqb_eq in H end; subst kappa k l nut nuw omega siglen Binf B22.
    + exists (nth 0 param_table (Row 0 0 0 0 0 0 0 0 0 0 0 0 0)). split; [apply nth_In; cbn; lia|reflexivity].
    + exists (nth 6 param_table (Row 0 0 0 0 0 0 0 0 0 0 0 0 0)). split; [apply nth_In; cbn; lia|reflexivity].
    + exists (nth 12 param_table (Row 0 0 0 0 0 0 0 0 0 0 0 0 0)). split; [apply nth_In; cbn; lia|reflexivity].
  - intros (r & Hr & E). inversion E; subst. clear E. unfold param_table in Hr. cbn [In] in Hr.
    repeat (destruct Hr as [<-|Hr]; [reflexivity|]). contradiction.
Qed.
(* one record of all template arguments *)
Definition row_of (P : params) : param_row :=
  Row (p_kappa P) (Z.of_nat (p_k P)) (Z.of_nat (p_l P)) (Z.of_nat (p_d P)) (p_ut P) (p_nut P) (p_uw P) (p_nuw P)
      (Z.of_nat (p_rep P)) (Z.of_nat (p_omega P)) (p_siglen P) (p_Binf P) (p_B22 P).
Lemma row_eq r r' :
  r_kappa r = r_kappa r' -> r_k r = r_k r' -> r_l r = r_l r' -> r_d r = r_d r' -> r_ut r = r_ut r' -> r_nut r = r_nut r' ->
  r_uw r = r_uw r' -> r_nuw r = r_nuw r' -> r_rep r = r_rep r' -> r_omega r = r_omega r' -> r_siglen r = r_siglen r' ->
  r_Binf r = r_Binf r' -> r_B22 r = r_B22 r' -> r = r'.
Proof. destruct r, r'. cbn. intros. subst. reflexivity. Qed.
(* kappa and d select the row *)
Lemma row_key r r' : In r param_table -> In r' param_table -> r_kappa r = r_kappa r' -> r_d r = r_d r' -> r = r'.
Proof.
  assert (G : forallb (fun r => forallb (fun r' => negb ((r_kappa r =? r_kappa r') && (r_d r =? r_d r')) ||
     ((r_ut r =? r_ut r') && (r_k r =? r_k r') && (r_l r =? r_l r') && (r_nut r =? r_nut r') && (r_uw r =? r_uw r') && (r_nuw r =? r_nuw r') &&
      (r_rep r =? r_rep r') && (r_omega r =? r_omega r') && (r_siglen r =? r_siglen r') && (r_Binf r =? r_Binf r') && (r_B22 r =? r_B22 r')))
     param_table) param_table = true) by (vm_compute; reflexivity).
  intros H1 H2 E1 E2. rewrite forallb_forall in G. specialize (G r H1). rewrite forallb_forall in G. specialize (G r' H2).
  rewrite E1, E2, !Z.eqb_refl in G. cbn [andb negb orb] in G. split_ands.
  repeat match goal with H : (_ =? _) = true |- _ => apply Z.eqb_eq in H end.
  apply row_eq; assumption.
Qed.
Lemma params_ok_rows P : params_ok P = true <-> In (row_of P) param_table.
Proof.
  unfold params_ok. split.
  - intros H. apply andb_true_iff in H. destruct H as [H1 H2].
    apply keygen_args_rows in H1. apply sign_args_rows in H2.
    destruct H1 as (r & Hr & E). destruct H2 as (r' & Hr' & E'). inversion E. inversion E'.
    assert (r = r') by (apply row_key; try assumption; congruence). subst r'.
    replace (row_of P) with r; [exact Hr|]. apply row_eq; cbn; congruence.
  - intros H. apply andb_true_iff. split.
    + apply keygen_args_rows. exists (row_of P). split; [exact H|reflexivity].
    + apply sign_args_rows. exists (row_of P). split; [exact H|reflexivity].
Qed.
Definition dvals : list nat := [1; 2; 4; 8; 16; 32]%nat.

Lemma api_tables d : In d dvals ->
  params_ok (raccoon128_params d) = true /\ params_ok (raccoon192_params d) = true /\ params_ok (raccoon256_params d) = true.
Proof.
  intros H. cbn [dvals In] in H.
  repeat (destruct H as [<-|H]; [vm_compute; exact (conj eq_refl (conj eq_refl eq_refl))|]). contradiction.
Qed.
(* every accepted parameter set is one of the API ones *)
Lemma params_ok_cases P : params_ok P = true ->
  exists d, In d dvals /\ (P = raccoon128_params d \/ P = raccoon192_params d \/ P = raccoon256_params d).
Proof.
  intros H. apply params_ok_rows in H.
  assert (Inj : forall P P', row_of P = row_of P' -> P = P').
  { intros [] [] E. unfold row_of in E. cbn in E. inversion E. f_equal; lia. }
  unfold param_table in H. cbn [In] in H.
  destruct H as [H|H]; [exists 1%nat; split; [cbn; tauto|]; left; apply Inj; rewrite <- H; reflexivity|].
  destruct H as [H|H]; [exists 2%nat; split; [cbn; tauto|]; left; apply Inj; rewrite <- H; reflexivity|].
  destruct H as [H|H]; [exists 4%nat; split; [cbn; tauto|]; left; apply Inj; rewrite <- H; reflexivity|].
  destruct H as [H|H]; [exists 8%nat; split; [cbn; tauto|]; left; apply Inj; rewrite <- H; reflexivity|].
  destruct H as [H|H]; [exists 16%nat; split; [cbn; tauto|]; left; apply Inj; rewrite <- H; reflexivity|].
  destruct H as [H|H]; [exists 32%nat; split; [cbn; tauto|]; left; apply Inj; rewrite <- H; reflexivity|].
  destruct H as [H|H]; [exists 1%nat; split; [cbn; tauto|]; right; left; apply Inj; rewrite <- H; reflexivity|].
  destruct H as [H|H]; [exists 2%nat; split; [cbn; tauto|]; right; left; apply Inj; rewrite <- H; reflexivity|].
  destruct H as [H|H]; [exists 4%nat; split; [cbn; tauto|]; right; left; apply Inj; rewrite <- H; reflexivity|].
  destruct H as [H|H]; [exists 8%nat; split; [cbn; tauto|]; right; left; apply Inj; rewrite <- H; reflexivity|].
  destruct H as [H|H]; [exists 16%nat; split; [cbn; tauto|]; right; left; apply Inj; rewrite <- H; reflexivity|].
  destruct H as [H|H]; [exists 32%nat; split; [cbn; tauto|]; right; left; apply Inj; rewrite <- H; reflexivity|].
  destruct H as [H|H]; [exists 1%nat; split; [cbn; tauto|]; right; right; apply Inj; rewrite <- H; reflexivity|].
  destruct H as [H|H]; [exists 2%nat; split; [cbn; tauto|]; right; right; apply Inj; rewrite <- H; reflexivity|].
  destruct H as [H|H]; [exists 4%nat; split; [cbn; tauto|]; right; right; apply Inj; rewrite <- H; reflexivity|].
  destruct H as [H|H]; [exists 8%nat; split; [cbn; tauto|]; right; right; apply Inj; rewrite <- H; reflexivity|].
  destruct H as [H|H]; [exists 16%nat; split; [cbn; tauto|]; right; right; apply Inj; rewrite <- H; reflexivity|].
  destruct H as [H|H]; [exists 32%nat; split; [cbn; tauto|]; right; right; apply Inj; rewrite <- H; reflexivity|].
  contradiction.
Qed.
Lemma byte_lengths P : params_ok P = true ->
  ((p_kappa P = 128 /\ pk_byte_len P = 2256 /\ sk_byte_len P = 14800 + 16 * (Z.of_nat (p_d P) - 1) /\ p_siglen P = 11524) \/
   (p_kappa P = 192 /\ pk_byte_len P = 3160 /\ sk_byte_len P = 18840 + 24 * (Z.of_nat (p_d P) - 1) /\ p_siglen P = 14544) \/
   (p_kappa P = 256 /\ pk_byte_len P = 4064 /\ sk_byte_len P = 26016 + 32 * (Z.of_nat (p_d P) - 1) /\ p_siglen P = 20330)).
Proof.
  intros H. apply params_ok_cases in H. destruct H as (d & Hd & H).
  cbn [dvals In] in Hd.
  destruct H as [->|[->| ->]]; [left|right; left|right; right];
    repeat (destruct Hd as [<-|Hd]; [vm_compute; exact (conj eq_refl (conj eq_refl (conj eq_refl eq_refl)))|]); contradiction.
Qed.

Lemma param_facts :
  (forall kappa k l d ut nut rep,
     validate_keygen_args kappa k l d ut nut rep = true <->
     exists r, In r param_table /\
       (kappa, k, l, d, ut, nut, rep) = (r_kappa r, r_k r, r_l r, r_d r, r_ut r, r_nut r, r_rep r)) /\
  (forall kappa k l d uw nuw nut rep omega siglen Binf B22,
     validate_sign_args kappa k l d uw nuw nut rep omega siglen Binf B22 = true <->
     exists r, In r param_table /\
       (kappa, k, l, d, uw, nuw, nut, rep, omega, siglen, Binf, B22)
       = (r_kappa r, r_k r, r_l r, r_d r, r_uw r, r_nuw r, r_nut r, r_rep r, r_omega r, r_siglen r, r_Binf r, r_B22 r)) /\
  (forall kappa k l nuw nut omega siglen Binf B22,
     validate_verify_args kappa k l nuw nut omega siglen Binf B22 = true <->
     exists r, In r param_table /\
       (kappa, k, l, nuw, nut, omega, siglen, Binf, B22)
       = (r_kappa r, r_k r, r_l r, r_nuw r, r_nut r, r_omega r, r_siglen r, r_Binf r, r_B22 r)) /\
  (forall d, In d [1; 2; 4; 8; 16; 32]%nat ->
     params_ok (raccoon128_params d) = true /\ params_ok (raccoon192_params d) = true /\
     params_ok (raccoon256_params d) = true) /\
  (forall P, params_ok P = true ->
     exists d, In d [1; 2; 4; 8; 16; 32]%nat /\
       (P = raccoon128_params d \/ P = raccoon192_params d \/ P = raccoon256_params d)) /\
  (forall P, params_ok P = true ->
   (p_kappa P = 128 /\ pk_byte_len P = 2256 /\ sk_byte_len P = 14800 + 16 * (Z.of_nat (p_d P) - 1) /\ p_siglen P = 11524) \/
   (p_kappa P = 192 /\ pk_byte_len P = 3160 /\ sk_byte_len P = 18840 + 24 * (Z.of_nat (p_d P) - 1) /\ p_siglen P = 14544) \/
   (p_kappa P = 256 /\ pk_byte_len P = 4064 /\ sk_byte_len P = 26016 + 32 * (Z.of_nat (p_d P) - 1) /\ p_siglen P = 20330)).
Proof.
  split; [exact keygen_args_rows|]. split; [exact sign_args_rows|]. split; [exact verify_args_rows|].
  split; [exact api_tables|]. split; [exact params_ok_cases|]. exact byte_lengths.
Qed.
