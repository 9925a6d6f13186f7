(* Lattice relations of accepted signatures, from the specification of verification (C03). *)
From Coq Require Import ZArith Lia Bool List Arith.
From Verif Require Import ModelBase ModelU128 ModelField ModelUtils ModelPoly ModelVec ModelSerial ModelScheme.
From Verif Require Import Spec SpecScheme SpecSig SpecVerify SpecLattice.
From Verif Require Import FieldProofs ArithLemmas PolyProofs Cong PolyLemmas NttProofs NttEval LinProofs MaskUniform.
From Verif Require Import ParamProofs KeyLemmas VerifyProofs SchemeCore SignProofs SignVerify KeygenProofs BoundProofs HashLemmas LatticeProofs.
Import ListNotations.
Open Scope Z_scope.
Ltac Zify.zify_post_hook ::= idtac.

Lemma row_of_flat_spec k (xs : list Z) (Q : Z -> Prop) i : length xs = (k * 512)%nat -> (i < k)%nat -> Forall Q xs ->
  length (row_of_flat xs i) = 512%nat /\ Forall Q (row_of_flat xs i).
Proof.
  intros L Hi F. unfold row_of_flat. split.
  - rewrite firstn_length, skipn_length. assert ((i + 1) * 512 <= k * 512)%nat by (apply Nat.mul_le_mono_r; lia). lia.
  - apply Forall_forall. intros x Hx. rewrite Forall_forall in F. apply F.
    rewrite <- (firstn_skipn (i * 512) xs). apply in_or_app. right.
    rewrite <- (firstn_skipn 512 (skipn (i * 512) xs)). apply in_or_app. left. exact Hx.
Qed.
Lemma rows_bounded k z B : length z = (k * 512)%nat -> Forall (fun x => Z.abs x <= B) z ->
  Forall (bounded_by B) (map to_ring (rows_of_flat k z)).
Proof.
  intros L F. unfold rows_of_flat. apply Forall_map, Forall_map, Forall_forall. intros i Hi. apply in_seq in Hi.
  destruct (row_of_flat_spec k z _ i L ltac:(lia) F) as [H1 H2]. exists (row_of_flat z i). auto.
Qed.
Lemma coef_abs_rows k h b : 0 <= b -> length h = (k * 512)%nat -> Forall (fun x => Z.abs x <= b) h ->
  Forall (fun p => forall j, (j < 512)%nat -> Z.abs (coef p j) <= b) (rows_of_flat k h).
Proof.
  intros Hb L F. unfold rows_of_flat. apply Forall_map, Forall_forall. intros i Hi. apply in_seq in Hi.
  destruct (row_of_flat_spec k h _ i L ltac:(lia) F) as [H1 H2]. intros j Hj. rewrite Forall_forall in H2. apply H2, nth_In. lia.
Qed.
Lemma hint_room P : params_ok P = true -> 0 <= p_Binf P / 2 ^ p_nuw P < q / 2 ^ p_nuw P.
Proof.
  intros HP. rewrite q_Q, Q_val. destruct (params_ok_cases P HP) as (d & _ & C). destruct C as [->|[->| ->]]; split; vm_compute; congruence.
Qed.
Lemma accepted_opens O fuel P pk msg sig : params_ok P = true ->
  valid_public (Z.to_nat (p_kappa P / 8)) (p_k P) (pk_seed pk) (pk_t pk) -> Forall is_byte sig -> zlen sig = p_siglen P ->
  verify O fuel P pk msg sig = Ok true ->
  let n := Z.to_nat (2 * p_kappa P / 8) in
  exists c h z A cp pkb w e,
    length c = n /\ length h = (p_k P * 512)%nat /\ length z = (p_l P * 512)%nat /\ signature_code c h z sig /\
    public_matrix (hash_of O) (pk_seed pk) (p_k P) (p_l P) A /\
    challenge_poly (challenge_stream (hash_of O) (p_omega P) c) (p_omega P) cp /\
    public_key_code (pk_seed pk) (pk_t pk) pkb /\
    claimed_commitment (hash_of O) (row_of P) (pk_seed pk) (pk_t pk) sig w /\
    c = challenge_value (hash_of O) n w (bound_message (hash_of O) n pkb msg) /\
    opens (row_of P) A (rows1 (pk_t pk)) cp w (map to_ring (rows_of_flat (p_l P) z)) e.
Proof.
  intros HP V Hb Ls E n. destruct (params_facts P HP) as (kb & e0 & F).
  pose proof (verify_spec O fuel P pk msg sig HP V Hb Ls) as G. rewrite E in G. apply proj1 in G. specialize (G eq_refl).
  destruct G as (c & h & z & A & cp & b & Lc & Lh & Lz & S & W & N & PM & CO & Cpk & Ec).
  cbn [row_of r_k r_l r_kappa r_nut r_nuw r_Binf r_B22 r_omega] in *. rewrite !Nat2Z.id in *. fold n in Lc, Ec.
  destruct (rows1_public _ _ (proj2 (proj2 V))) as (_ & Lt & _).
  destruct (params_rounding P HP) as (N1 & N2 & N3 & N4). pose proof (hint_room P HP) as HR. destruct N as (Nh & Nz & _).
  destruct (commitment_relation (p_nut P) (p_nuw P) cp (map to_ring (rows_of_flat (p_l P) z)) (p_Binf P / 2 ^ p_nuw P) N2 N4 (proj2 HR) A (rows1 (pk_t pk)) (rows_of_flat (p_k P) h)) as (e & Le & Fe & Ee).
  - rewrite Lt. symmetry. apply PM.
  - unfold rows_of_flat. rewrite map_length, seq_length. symmetry. apply PM.
  - apply coef_abs_rows; [lia|exact Lh|exact Nh].
  - exists c, h, z, A, cp, b, (commitment (p_nut P) (p_nuw P) A (rows1 (pk_t pk)) cp (map to_ring (rows_of_flat (p_l P) z)) (rows_of_flat (p_k P) h)), e.
    do 7 (split; [assumption|]). split; [|split; [exact Ec|]].
    + exists c, h, z, A, cp. cbn [row_of r_k r_l r_kappa r_nut r_nuw r_Binf r_B22 r_omega]. rewrite !Nat2Z.id. fold n. split; [exact Lc|].
      split; [rewrite Ec; apply digest_bytes|]. do 5 (split; [assumption|]). reflexivity.
    + unfold opens, key_times, opening_error. cbn [row_of r_k r_l r_kappa r_nut r_nuw r_Binf r_B22 r_omega]. rewrite !Nat2Z.id.
      split; [unfold rows_of_flat; rewrite !map_length; apply seq_length|]. split; [rewrite Le; apply PM|]. split; [apply rows_bounded; assumption|]. split; [exact Fe|exact Ee].
Qed.
Lemma bounded_sub B C a b : bounded_by B a -> bounded_by C b -> bounded_by (B + C) (ring_sub a b).
Proof.
  intros HA HB. pose proof (bounded_poly _ _ HA) as PA. pose proof (bounded_poly _ _ HB) as PB.
  destruct HA as (xs & Lx & Ex & Fx). destruct HB as (ys & Ly & Ey & Fy). apply bounded_intro; [apply ring_sub_poly|]. intros k Hk.
  exists (coef xs k - coef ys k). split.
  - rewrite coef_sub by exact Hk. rewrite Ex, Ey, !coef_to_ring by assumption. rewrite <- Zminus_mod. reflexivity.
  - rewrite Forall_forall in Fx, Fy. pose proof (Fx (coef xs k) ltac:(apply nth_In; lia)). pose proof (Fy (coef ys k) ltac:(apply nth_In; lia)). cbv beta in *. lia.
Qed.
Lemma bounded_sub_list B C : forall a b, Forall (bounded_by B) a -> Forall (bounded_by C) b -> Forall (bounded_by (B + C)) (zipw ring_sub a b).
Proof.
  induction a as [|x a IH]; intros [|y b] FA FB; try (constructor; fail). inversion FA; inversion FB; subst.
  change (zipw ring_sub (x :: a) (y :: b)) with (ring_sub x y :: zipw ring_sub a b). constructor; [apply bounded_sub; assumption|apply IH; assumption].
Qed.
Lemma challenge_bounded O omega c cp : (omega < 256)%nat -> challenge_poly (challenge_stream (hash_of O) omega c) omega cp -> bounded_by 1 cp.
Proof.
  intros Ho HC. destruct (challenge_poly_facts O omega c cp Ho HC) as (Lc & Fc & _). apply bounded_intro.
  - split; [exact Lc|]. refine (Forall_impl _ _ Fc). intros x [->|[->| ->]]; unfold reduced; rewrite q_Q, Q_val; lia.
  - intros k Hk. rewrite Forall_forall in Fc. destruct (Fc (coef cp k) ltac:(apply nth_In; lia)) as [E|[E|E]]; rewrite E.
    + exists 0. split; [reflexivity|lia].
    + exists 1. split; [reflexivity|lia].
    + exists (-1). split; [|lia]. rewrite q_Q, Q_val. reflexivity.
Qed.
Lemma sub_zero_eq a b : is_poly a -> is_poly b -> ring_sub a b = ring_zero -> a = b.
Proof.
  intros Ha Hb E. rewrite <- (sub_add_cancel a b Ha), E. apply ring_add_zero, Hb.
Qed.
Lemma two_answers O O' fuel fuel' P pk msg msg' sig sig' A w : params_ok P = true ->
  valid_public (Z.to_nat (p_kappa P / 8)) (p_k P) (pk_seed pk) (pk_t pk) ->
  Forall is_byte sig -> zlen sig = p_siglen P -> Forall is_byte sig' -> zlen sig' = p_siglen P ->
  verify O fuel P pk msg sig = Ok true -> verify O' fuel' P pk msg' sig' = Ok true ->
  public_matrix (hash_of O) (pk_seed pk) (p_k P) (p_l P) A -> public_matrix (hash_of O') (pk_seed pk) (p_k P) (p_l P) A ->
  claimed_commitment (hash_of O) (row_of P) (pk_seed pk) (pk_t pk) sig w ->
  claimed_commitment (hash_of O') (row_of P) (pk_seed pk) (pk_t pk) sig' w ->
  let n := Z.to_nat (2 * p_kappa P / 8) in
  exists c h z cp c' h' z' cp' u v,
    length c = n /\ signature_code c h z sig /\ challenge_poly (challenge_stream (hash_of O) (p_omega P) c) (p_omega P) cp /\
    length c' = n /\ signature_code c' h' z' sig' /\ challenge_poly (challenge_stream (hash_of O') (p_omega P) c') (p_omega P) cp' /\
    length u = p_l P /\ length v = p_k P /\
    Forall (bounded_by (2 * p_Binf P)) u /\ Forall (bounded_by (2 * opening_error (row_of P))) v /\
    bounded_by 2 (ring_sub cp cp') /\ (cp <> cp' -> ring_sub cp cp' <> ring_zero) /\
    zipw ring_add (ring_matvec A u) v = key_times (row_of P) (rows1 (pk_t pk)) (ring_sub cp cp').
Proof.
  intros HP V Hb Ls Hb' Ls' E E' PA PA' CW CW' n. destruct (params_facts P HP) as (kb & e0 & F). pose proof (pf_omega _ _ _ F) as Ho.
  destruct (accepted_opens O fuel P pk msg sig HP V Hb Ls E) as (c & h & z & A1 & cp & b & w1 & e & S1 & S2 & S3 & S4 & S5 & S6 & S7 & S8 & S9 & O1 & O2 & O3 & O4 & O5).
  destruct (accepted_opens O' fuel' P pk msg' sig' HP V Hb' Ls' E') as (c' & h' & z' & A2 & cp' & b' & w2 & e' & S1' & S2' & S3' & S4' & S5' & S6' & S7' & S8' & S9' & O1' & O2' & O3' & O4' & O5').
  rewrite (public_matrix_fun _ _ _ _ _ _ S5 PA) in O5. rewrite (public_matrix_fun _ _ _ _ _ _ S5' PA') in O5'.
  rewrite (claimed_commitment_fun _ _ _ _ _ _ _ S8 CW) in O5. rewrite (claimed_commitment_fun _ _ _ _ _ _ _ S8' CW') in O5'.
  cbn [row_of r_k r_l r_Binf] in O1, O2, O3, O1', O2', O3'. rewrite Nat2Z.id in O1, O2, O1', O2'.
  pose proof (challenge_bounded O (p_omega P) c cp ltac:(lia) S6) as Bc. pose proof (challenge_bounded O' (p_omega P) c' cp' ltac:(lia) S6') as Bc'.
  pose proof (bounded_poly _ _ Bc) as Pc. pose proof (bounded_poly _ _ Bc') as Pc'.
  set (zz := map to_ring (rows_of_flat (p_l P) z)) in *. set (zz' := map to_ring (rows_of_flat (p_l P) z')) in *.
  exists c, h, z, cp, c', h', z', cp', (zipw ring_sub zz zz'), (zipw ring_sub e e').
  do 6 (split; [assumption|]).
  split; [unfold zipw; rewrite map_length, combine_length, O1, O1'; apply Nat.min_id|].
  split; [unfold zipw; rewrite map_length, combine_length, O2, O2'; apply Nat.min_id|].
  split; [replace (2 * p_Binf P) with (p_Binf P + p_Binf P) by ring; apply bounded_sub_list; assumption|].
  split; [replace (2 * opening_error (row_of P)) with (opening_error (row_of P) + opening_error (row_of P)) by ring; apply bounded_sub_list; assumption|].
  split; [exact (bounded_sub 1 1 cp cp' Bc Bc')|]. split; [intros NE X; apply NE, sub_zero_eq; assumption|].
  destruct (rows1_public _ _ (proj2 (proj2 V))) as (_ & Lt & _).
  refine (two_openings (p_nut P) (p_nuw P) A (rows1 (pk_t pk)) cp cp' zz zz' w e e' (p_k P) (p_l P) (p_Binf P) (opening_error (row_of P)) (proj1 PA) (proj1 (proj2 PA)) Lt O1 O1' Pc Pc' O3 O3' O4 O4' O2 O2' _ O5 O5').
  destruct CW as (c1 & h1 & z1 & A3 & cp1 & Q1 & Q2 & Q3 & Q4 & Q5 & Q6 & Q7 & Q8).
  cbn [row_of r_k r_l r_nuw r_nut r_omega r_kappa] in *. rewrite !Nat2Z.id in *. rewrite Q8. unfold commitment. rewrite zipw_map2, map2_length.
  unfold noisy_product. rewrite map_length, zipw_map2, map2_length, map_length, Lt. unfold ring_matvec, rows_of_flat. rewrite !map_length, seq_length, (proj1 Q6). rewrite !Nat.min_id. reflexivity.
Qed.
