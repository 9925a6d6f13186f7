(* A second accepted signature with the challenge of the signature of zeros, for the non-vacuity example of
   PropForge.v: its last response coefficient is one. *)
From Coq Require Import ZArith Lia Bool List Arith.
From Verif Require Import ModelBase ModelU128 ModelField ModelUtils ModelPoly ModelVec ModelSerial ModelScheme.
From Verif Require Import Spec SpecScheme SpecSig SpecVerify.
From Verif Require Import FieldProofs ArithLemmas PolyProofs NttProofs NttEval LinProofs SampleProofs SampleLemmas PolyLemmas.
From Verif Require Import ParamProofs KeyLemmas FinProofs ExOracle ExGood KeyExamples SigEnc SigLemmas SchemeCore VerifyProofs SignProofs BoundProofs HashLemmas ExSign ExLattice.
Import ListNotations.
Open Scope Z_scope.
Ltac Zify.zify_post_hook ::= idtac.

Definition one_z : list Z := repeat 0 2047 ++ [1].
Definition one_tail : list Z := repeat 0 (Z.to_nat 10810) ++ [128] ++ repeat 0 681.
Definition one_sig (O : oracles) (P : params) (pkb msg : list Z) : list Z :=
  let n := Z.to_nat (2 * p_kappa P / 8) in
  challenge_value (hash_of O) n (repeat ring_zero (p_k P)) (bound_message (hash_of O) n pkb msg) ++ one_tail.
Lemma bits_app a b : bits_of_bytes (a ++ b) = bits_of_bytes a ++ bits_of_bytes b.
Proof. unfold bits_of_bytes. rewrite map_app, concat_app. reflexivity. Qed.
Lemma rep_glue n m (l : list bool) : repeat false n ++ repeat false m ++ l = repeat false (n + m) ++ l.
Proof. rewrite app_assoc, <- repeat_app. reflexivity. Qed.
Lemma one_code c : signature_code c (repeat 0 (5 * 512)) one_z (c ++ one_tail).
Proof.
  exists (681 * 8 - 41)%nat. unfold sig_code. rewrite bits_app. apply (f_equal (app (bits_of_bytes c))). unfold one_tail, one_z.
  rewrite (codes_zero code_h 1) by reflexivity. rewrite map_app, concat_app, (codes_zero code_z 41) by reflexivity.
  rewrite !bits_app, !bits_zero. change (bits_of_bytes [128]) with (repeat false 7 ++ [true]).
  change (concat (map code_z [1])) with (true :: repeat false 41). rewrite <- !app_assoc. cbn [app].
  rewrite <- repeat_app. rewrite !rep_glue.
  replace (Z.to_nat 10810 * 8 + 7)%nat with (5 * 512 * 1 + 2047 * 41)%nat by (apply Nat.eqb_eq; vm_compute; reflexivity).
  reflexivity.
Qed.
Lemma one_norms d : params_ok (raccoon128_params d) = true ->
  let P := raccoon128_params d in norms_ok (p_nuw P) (p_Binf P) (p_B22 P) (repeat 0 (p_k P * 512)) one_z.
Proof.
  intros HP P. destruct (zero_norms P HP) as (H1 & H2 & H3).
  split; [exact H1|]. split.
  - unfold one_z. apply Forall_app. split; [apply Forall_repeat; discriminate|]. constructor; [discriminate|constructor].
  - replace (fold_right Z.add 0 (map (fun x => (Z.abs x / 2 ^ 32) ^ 2) one_z)) with (fold_right Z.add 0 (map (fun x => (Z.abs x / 2 ^ 32) ^ 2) (repeat 0 (p_l P * 512)))); [exact H3|].
    change (p_l P * 512)%nat with (2047 + 1)%nat. rewrite repeat_app. unfold one_z. rewrite !map_app, !fold_right_app. reflexivity.
Qed.
Lemma any_commitment P cp z : params_ok P = true ->
  commitment (p_nut P) (p_nuw P) (repeat (repeat ring_zero (p_l P)) (p_k P)) (rows1 (repeat [ring_zero] (p_k P))) cp
    z (rows_of_flat (p_k P) (repeat 0 (p_k P * 512))) = repeat ring_zero (p_k P).
Proof.
  intros HP. destruct (params_facts P HP) as (kb & e & F). pose proof (pf_nuw _ _ _ F) as Hnuw. rewrite Hnuw.
  unfold commitment, noisy_product, rows1. rewrite !rows_of_zero, matvec_zero, !map_rep. cbn [nth].
  rewrite scale_zero, mul_zero_l, zip_rep, sub_zero_zero, map_rep, round_zero by (lia || exact nuw_mod).
  rewrite zip_rep, add_mod_zero by exact nuw_mod. reflexivity.
Qed.
Lemma exK_one_sig j d pkb msg : params_ok (raccoon128_params d) = true -> j = 0 \/ j = 1 -> public_key_code (repeat 200 16) (repeat [ring_zero] 5) pkb ->
  let P := raccoon128_params d in let sig := one_sig (ex_K j) P pkb msg in
  Forall is_byte sig /\ zlen sig = 11524 /\
  valid_signature (hash_of (ex_K j)) (row_of P) (repeat 200 16) (repeat [ring_zero] 5) msg sig.
Proof.
  intros HP Hj Hpk P sig. subst P sig. unfold one_sig. cbn [raccoon128_params p_kappa p_k p_siglen].
  change (Z.to_nat (2 * 128 / 8)) with 32%nat.
  set (c := challenge_value (hash_of (ex_K j)) 32 (repeat ring_zero 5) (bound_message (hash_of (ex_K j)) 32 pkb msg)).
  assert (Lc : length c = 32%nat) by apply digest_length.
  assert (Bc : Forall is_byte c) by apply digest_bytes.
  pose proof (any_commitment (raccoon128_params d) (ex_cp j) (map to_ring (rows_of_flat 4 one_z)) HP) as ZC. cbn [raccoon128_params p_nut p_nuw p_l p_k] in ZC.
  assert (Lz : length one_z = (4 * 512)%nat) by (unfold one_z; rewrite app_length, repeat_length; reflexivity).
  split; [apply Forall_app; split; [exact Bc|]|].
  { unfold one_tail. apply Forall_app. split; [apply Forall_repeat; split; [discriminate|reflexivity]|]. apply Forall_app. split; [constructor; [split; [discriminate|reflexivity]|constructor]|apply Forall_repeat; split; [discriminate|reflexivity]]. }
  split; [unfold zlen, one_tail; rewrite !app_length, !repeat_length, Lc; reflexivity|].
  exists c, (repeat 0 (5 * 512)), one_z, (repeat (repeat ring_zero 4) 5), (ex_cp j), pkb.
  split; [exact Lc|]. split; [apply repeat_length|]. split; [exact Lz|]. split; [apply one_code|].
  split. { apply buffer_windows, small_buffer_fits; [apply Forall_repeat; discriminate| |discriminate].
    unfold one_z. apply Forall_app. split; [apply Forall_repeat; reflexivity|]. constructor; [reflexivity|constructor]. }
  split; [exact (one_norms d HP)|]. split; [exact (exK_matrix j _ 5 4)|]. split; [exact (exK_chal j c Hj)|]. split; [exact Hpk|].
  refine (f_equal (fun w => challenge_value (hash_of (ex_K j)) 32 w (bound_message (hash_of (ex_K j)) 32 pkb msg)) (eq_sym ZC)).
Qed.
