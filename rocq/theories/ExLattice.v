(* Two hash functions that differ only in the challenge streams, and signatures of zeros, for the
   non-vacuity examples of PropLattice.v. *)
From Coq Require Import ZArith Lia Bool List Arith.
From Verif Require Import ModelBase ModelU128 ModelField ModelUtils ModelPoly ModelVec ModelSerial ModelScheme.
From Verif Require Import Spec SpecScheme SpecSig SpecVerify.
From Verif Require Import FieldProofs ArithLemmas PolyProofs NttProofs NttEval LinProofs SampleProofs SampleLemmas PolyLemmas.
From Verif Require Import ParamProofs KeyLemmas FinProofs ExOracle ExGood KeyExamples SigEnc SigLemmas SchemeCore VerifyProofs SignProofs BoundProofs HashLemmas ExSign.
Import ListNotations.
Open Scope Z_scope.
Ltac Zify.zify_post_hook ::= idtac.

Definition ex_count_from (j : Z) (i : nat) : Z := (j + Z.of_nat (i / 2)) mod 128.
Definition ex_Kval (j : Z) (m : list Z) (i : nat) : Z :=
  let h := hd 0 m in
  if (h =? 65) || (h =? 117) then 0
  else if h =? 99 then ex_count_from j i
  else (Z.of_nat (length m) + Z.of_nat i) mod 128.
Definition ex_K (j : Z) : oracles := {|
  shake256 := fun m i => ex_byte (ex_Kval j m i);
  ascon_permute := fun _ st => Ascon ((a0 st + 1) mod 2 ^ 40) (a1 st) (a2 st) (a3 st) (a4 st);
  ascon80pq_iv := 0
|}.
Lemma exK_range j m i : 0 <= ex_Kval j m i < 128.
Proof. unfold ex_Kval, ex_count_from. destruct (_ || _); [lia|]. destruct (_ =? _); apply Z.mod_pos_bound; reflexivity. Qed.
Lemma exK_hash j m i : hash_of (ex_K j) m i = ex_Kval j m i.
Proof. unfold hash_of, ex_K, shake256. rewrite ex_byte_val. apply Z.mod_small. pose proof (exK_range j m i). lia. Qed.
Lemma exK_matrix j seed k l : public_matrix (hash_of (ex_K j)) seed k l (repeat (repeat ring_zero l) k).
Proof.
  split; [apply repeat_length|]. split.
  - apply Forall_repeat. split; [apply repeat_length|]. apply Forall_repeat. exact zero_poly.
  - intros r c Hr Hc. rewrite nth_rep by exact Hr. rewrite nth_rep by exact Hc. rewrite transform_zero.
    apply uniform_zero. intros i. unfold matrix_stream. rewrite exK_hash. reflexivity.
Qed.
Lemma exK_stream j omega c i : challenge_stream (hash_of (ex_K j)) omega c i = ex_count_from j i.
Proof. unfold challenge_stream. rewrite exK_hash. reflexivity. Qed.
Lemma chal_pos_same S S' t : (forall i, S i = S' i) -> chal_pos S t = chal_pos S' t.
Proof. intros E. unfold chal_pos, chal_word, stream_bytes. cbn [seq map]. rewrite !E. reflexivity. Qed.
Lemma chal_sign_same S S' t : (forall i, S i = S' i) -> chal_sign S t = chal_sign S' t.
Proof. intros E. unfold chal_sign, chal_word, stream_bytes. cbn [seq map]. rewrite !E. reflexivity. Qed.
Lemma find_same {A} (f g : A -> bool) l : (forall x, f x = g x) -> find f l = find g l.
Proof. intros E. induction l as [|x l IH]; [reflexivity|]. cbn [find]. rewrite E, IH. reflexivity. Qed.
Lemma challenge_poly_same S S' omega c : (forall i, S i = S' i) -> challenge_poly S omega c -> challenge_poly S' omega c.
Proof.
  intros E (n & D & ->). exists n. split.
  - rewrite <- D. f_equal. f_equal. apply map_ext. intros t. symmetry. apply chal_pos_same, E.
  - apply map_ext. intros i. unfold chal_coef. rewrite (find_same _ (fun t => (chal_pos S' t =? i)%nat)).
    + destruct (find _ _) as [t|]; [apply chal_sign_same, E|reflexivity].
    + intros t. rewrite (chal_pos_same S S' t E). reflexivity.
Qed.
Definition ex_cp (j : Z) : list Z := map (chal_coef (ex_count_from j) 19) (seq 0 512).
Lemma exK_chal j c : j = 0 \/ j = 1 -> challenge_poly (challenge_stream (hash_of (ex_K j)) 19 c) 19 (ex_cp j).
Proof.
  intros Hj. apply (challenge_poly_same (ex_count_from j)); [intros i; symmetry; apply exK_stream|]. exists 19%nat. split; [|reflexivity].
  destruct Hj as [-> | ->]; vm_compute; reflexivity.
Qed.
Lemma coef_map_seq (f : nat -> Z) n : (0 < n)%nat -> coef (map f (seq 0 n)) 0 = f 0%nat.
Proof. destruct n as [|n]; [lia|reflexivity]. Qed.
Lemma ex_cp_differ : ex_cp 0 <> ex_cp 1.
Proof.
  intros E. apply (f_equal (fun p => coef p 0)) in E. cbv beta in E. unfold ex_cp in E.
  rewrite (coef_map_seq _ 512), (coef_map_seq _ 512) in E by (apply Nat.ltb_lt; reflexivity).
  vm_compute in E. discriminate E.
Qed.
Definition bits_zero n : bits_of_bytes (repeat 0 n) = repeat false (n * 8).
Proof. unfold bits_of_bytes. induction n as [|n IH]; [reflexivity|]. cbn [repeat map concat]. rewrite IH. reflexivity. Qed.
Lemma codes_zero (code : Z -> list bool) w n : code 0 = repeat false w -> concat (map code (repeat 0 n)) = repeat false (n * w).
Proof. intros E. induction n as [|n IH]; [reflexivity|]. cbn [repeat map concat]. rewrite IH, E, <- repeat_app. reflexivity. Qed.
Lemma row_of_zero n i : (i < n)%nat -> row_of_flat (repeat 0 (n * 512)) i = ring_zero.
Proof.
  intros H. unfold row_of_flat, ring_zero.
  replace (n * 512)%nat with (i * 512 + (512 + (n - i - 1) * 512))%nat.
  - rewrite repeat_app, skipn_app, repeat_length, Nat.sub_diag, skipn_all2 by (rewrite repeat_length; apply le_n). cbn [app skipn].
    rewrite repeat_app, firstn_app, repeat_length, Nat.sub_diag, firstn_O, app_nil_r. apply firstn_all2. rewrite repeat_length. apply le_n.
  - replace n with (i + (1 + (n - i - 1)))%nat at 2 by lia. rewrite !Nat.mul_add_distr_r. reflexivity.
Qed.
Lemma rows_of_zero n : rows_of_flat n (repeat 0 (n * 512)) = repeat ring_zero n.
Proof.
  unfold rows_of_flat. assert (E : map (row_of_flat (repeat 0 (n * 512))) (seq 0 n) = map (fun _ => ring_zero) (seq 0 n)).
  { apply map_ext_in. intros i Hi. apply in_seq in Hi. apply row_of_zero. lia. }
  rewrite E. apply map_const_seq. reflexivity.
Qed.
(* the signature of zeros *)
Definition zero_sig (O : oracles) (P : params) (pkb msg : list Z) : list Z :=
  let n := Z.to_nat (2 * p_kappa P / 8) in
  challenge_value (hash_of O) n (repeat ring_zero (p_k P)) (bound_message (hash_of O) n pkb msg)
  ++ repeat 0 (Z.to_nat (p_siglen P) - n).
Lemma add_mod_zero m : 0 < m -> add_mod_poly m ring_zero ring_zero = ring_zero.
Proof. intros H. apply map_const_seq. intros k. rewrite coef_zero. apply Z.mod_0_l. lia. Qed.
Lemma zero_commitment P cp : params_ok P = true ->
  commitment (p_nut P) (p_nuw P) (repeat (repeat ring_zero (p_l P)) (p_k P)) (rows1 (repeat [ring_zero] (p_k P))) cp
    (map to_ring (rows_of_flat (p_l P) (repeat 0 (p_l P * 512)))) (rows_of_flat (p_k P) (repeat 0 (p_k P * 512))) = repeat ring_zero (p_k P).
Proof.
  intros HP. destruct (params_facts P HP) as (kb & e & F). pose proof (pf_nuw _ _ _ F) as Hnuw. rewrite Hnuw.
  unfold commitment, noisy_product, rows1. rewrite !rows_of_zero, matvec_zero, !map_rep. cbn [nth].
  rewrite scale_zero, mul_zero_l, zip_rep, sub_zero_zero, map_rep, round_zero by (lia || exact nuw_mod).
  rewrite zip_rep, add_mod_zero by exact nuw_mod. reflexivity.
Qed.
Lemma zero_code P c n : length c = n -> (n * 8 + p_k P * 512 + p_l P * 512 * 41 <= Z.to_nat (p_siglen P) * 8)%nat ->
  signature_code c (repeat 0 (p_k P * 512)) (repeat 0 (p_l P * 512)) (c ++ repeat 0 (Z.to_nat (p_siglen P) - n)).
Proof.
  intros L H. exists ((Z.to_nat (p_siglen P) - n) * 8 - (p_k P * 512 + p_l P * 512 * 41))%nat.
  unfold sig_code. rewrite (codes_zero code_h 1) by reflexivity. rewrite (codes_zero code_z 41) by reflexivity.
  unfold bits_of_bytes at 1. rewrite map_app, concat_app. fold (bits_of_bytes c). f_equal. fold (bits_of_bytes (repeat 0 (Z.to_nat (p_siglen P) - n))). rewrite bits_zero.
  rewrite <- !repeat_app. f_equal. rewrite Nat.mul_1_r. rewrite Nat.mul_sub_distr_r.
  revert H. generalize (p_k P * 512)%nat (p_l P * 512 * 41)%nat (Z.to_nat (p_siglen P) * 8)%nat (n * 8)%nat. intros. lia.
Qed.
Lemma zero_norms P : params_ok P = true -> norms_ok (p_nuw P) (p_Binf P) (p_B22 P) (repeat 0 (p_k P * 512)) (repeat 0 (p_l P * 512)).
Proof.
  intros HP. destruct (params_facts P HP) as (kb & e & F). pose proof (pf_Binf _ _ _ F) as HBi. pose proof (pf_B22 _ _ _ F) as HB2. pose proof (pf_nuw _ _ _ F) as Hnuw. rewrite Hnuw.
  assert (Z0 : forall (f : Z -> Z) n, f 0 = 0 -> fold_right Z.add 0 (map f (repeat 0 n)) = 0).
  { intros f n Hf. rewrite map_rep, Hf. induction n as [|n IH]; [reflexivity|]. cbn [repeat fold_right]. rewrite IH. reflexivity. }
  split; [|split].
  - apply Forall_repeat. apply Z.div_pos; [lia|reflexivity].
  - apply Forall_repeat. rewrite Z.abs_0. lia.
  - rewrite !Z0 by reflexivity. lia.
Qed.
(* Raccoon-128, the key with zero public vector: signatures of zeros *)
Definition ex_pk : pkey := Pkey (repeat 200 16) (repeat [ring_zero] 5).
Lemma exK_zero_sig j d pkb msg : params_ok (raccoon128_params d) = true -> j = 0 \/ j = 1 -> public_key_code (repeat 200 16) (repeat [ring_zero] 5) pkb ->
  let P := raccoon128_params d in let sig := zero_sig (ex_K j) P pkb msg in
  Forall is_byte sig /\ zlen sig = 11524 /\
  valid_signature (hash_of (ex_K j)) (row_of P) (repeat 200 16) (repeat [ring_zero] 5) msg sig /\
  claimed_commitment (hash_of (ex_K j)) (row_of P) (repeat 200 16) (repeat [ring_zero] 5) sig (repeat ring_zero 5) /\
  exists c, length c = 32%nat /\ signature_code c (repeat 0 (5 * 512)) (repeat 0 (4 * 512)) sig.
Proof.
  intros HP Hj Hpk P sig. subst P sig. unfold zero_sig. cbn [raccoon128_params p_kappa p_k p_siglen].
  change (Z.to_nat (2 * 128 / 8)) with 32%nat.
  set (c := challenge_value (hash_of (ex_K j)) 32 (repeat ring_zero 5) (bound_message (hash_of (ex_K j)) 32 pkb msg)).
  assert (Lc : length c = 32%nat) by apply digest_length.
  assert (Bc : Forall is_byte c) by apply digest_bytes.
  assert (SC : signature_code c (repeat 0 (5 * 512)) (repeat 0 (4 * 512)) (c ++ repeat 0 (Z.to_nat 11524 - 32))).
  { apply (zero_code (raccoon128_params d)); [exact Lc|]. apply Nat.leb_le. vm_compute. reflexivity. }
  pose proof (zero_commitment (raccoon128_params d) (ex_cp j) HP) as ZC. cbn [raccoon128_params p_nut p_nuw p_l p_k] in ZC.
  split; [apply Forall_app; split; [exact Bc|apply Forall_repeat; split; [discriminate|reflexivity]]|].
  split; [unfold zlen; rewrite app_length, repeat_length, Lc; reflexivity|].
  split; [|split; [|exists c; split; [exact Lc|exact SC]]].
  - exists c, (repeat 0 (5 * 512)), (repeat 0 (4 * 512)), (repeat (repeat ring_zero 4) 5), (ex_cp j), pkb.
    split; [exact Lc|]. split; [apply repeat_length|]. split; [apply repeat_length|]. split; [exact SC|].
    split; [apply buffer_windows, small_buffer_fits; [apply Forall_repeat; discriminate|apply Forall_repeat; reflexivity|discriminate]|].
    split; [exact (zero_norms (raccoon128_params d) HP)|]. split; [exact (exK_matrix j _ 5 4)|]. split; [exact (exK_chal j c Hj)|]. split; [exact Hpk|].
    refine (f_equal (fun w => challenge_value (hash_of (ex_K j)) 32 w (bound_message (hash_of (ex_K j)) 32 pkb msg)) (eq_sym ZC)).
  - exists c, (repeat 0 (5 * 512)), (repeat 0 (4 * 512)), (repeat (repeat ring_zero 4) 5), (ex_cp j).
    split; [exact Lc|]. split; [exact Bc|]. split; [apply repeat_length|]. split; [apply repeat_length|]. split; [exact SC|].
    split; [exact (exK_matrix j _ 5 4)|]. split; [exact (exK_chal j c Hj)|]. exact (eq_sym ZC).
Qed.
