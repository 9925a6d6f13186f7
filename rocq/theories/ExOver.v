(* A concrete instance of the external code for which signing overruns the bit buffer of the encoder:
   the noise streams of row 3 contain the most negative sample for the last coefficient. *)
From Coq Require Import ZArith Lia Bool List Arith.
From Coq Require Import ZifyBool ZifyNat.
From Verif Require Import ModelBase ModelU128 ModelField ModelUtils ModelPoly ModelVec ModelSerial ModelScheme ModelApi.
From Verif Require Import Spec SpecScheme SpecSig SpecVerify SpecApi SpecEnc.
From Verif Require Import Words FieldProofs ArithLemmas BytesProofs PolyProofs NttLayers NttProofs Cong NttEval NttBounds MaskedProofs LinProofs SampleProofs SampleLemmas NoiseProofs PolyLemmas MaskedLemmas.
From Verif Require Import ParamProofs KeyLemmas PackProofs FinProofs ExOracle ExGood KeyExamples SigEnc SigDec2 SigLemmas SchemeCore VerifyProofs SignProofs SignVerify KeygenProofs FuelProofs TermProofs SignExact BoundProofs HistoryProofs ExSign.
Import ListNotations.
Open Scope Z_scope.
Ltac Zify.zify_post_hook ::= idtac.

Definition exu_val (m : list Z) (i : nat) : Z :=
  let h := hd 0 m in
  if h =? 65 then 0
  else if h =? 117 then (if (nth 2 m 0 =? 3) && (Z.of_nat i =? 3071) then 1 else 0)
  else if h =? 99 then Z.of_nat (i / 2) mod 128
  else (Z.of_nat (length m) + Z.of_nat i) mod 128.
Definition ex_U : oracles := {|
  shake256 := fun m i => ex_byte (exu_val m i);
  ascon_permute := fun _ st => Ascon ((a0 st + 1) mod 2 ^ 40) (a1 st) (a2 st) (a3 st) (a4 st);
  ascon80pq_iv := 0
|}.
Lemma exu_range m i : 0 <= exu_val m i < 128.
Proof.
  unfold exu_val. destruct (_ =? 65); [lia|]. destruct (_ =? 117); [destruct (_ && _); lia|]. destruct (_ =? _); apply Z.mod_pos_bound; reflexivity.
Qed.
Lemma exU_hash m i : hash_of ex_U m i = exu_val m i.
Proof. unfold hash_of, ex_U, shake256. rewrite ex_byte_val. apply Z.mod_small. pose proof (exu_range m i). lia. Qed.
Lemma exU_good_hash fuel : (512 <= fuel)%nat -> good_hash ex_U fuel.
Proof.
  intros H m. unfold accepted49. rewrite filter_all; [rewrite map_length, seq_length; exact H|].
  intros x Hx. apply in_map_iff in Hx. destruct Hx as (t & <- & _). apply Z.ltb_lt, small_bytes_candidate.
  intros i. rewrite exU_hash. apply exu_range.
Qed.
Lemma exU_good_mask fuel d : (512 <= fuel)%nat -> good_mask ex_U fuel d.
Proof. exact (exG_good_mask fuel d). Qed.
Lemma exU_good_chal fuel omega : (100 <= fuel)%nat -> (omega <= 44)%nat -> good_chal ex_U fuel omega.
Proof.
  intros H Ho c.
  assert (M : forall S n m, (n <= m)%nat -> (length (distinct (map (chal_pos S) (seq 0 n))) <= length (distinct (map (chal_pos S) (seq 0 m))))%nat)
    by (intros S n m; apply (distinct_count_mono S n m)).
  eapply Nat.le_trans; [|apply (M _ 100%nat fuel H)].
  assert (E : map (chal_pos (challenge_stream (hash_of ex_U) omega c)) (seq 0 100)
            = map (chal_pos ex_count) (seq 0 100)).
  { apply map_ext. intros t. unfold chal_pos, chal_word, stream_bytes, challenge_stream.
    cbn [seq map]. rewrite !exU_hash. unfold exu_val. cbn [app hd]. reflexivity. }
  rewrite E. assert (X : (44 <= length (distinct (map (chal_pos ex_count) (seq 0 100))))%nat).
  { apply Nat.leb_le. vm_compute. reflexivity. }
  lia.
Qed.
Lemma exU_matrix seed k l : public_matrix (hash_of ex_U) seed k l (repeat (repeat ring_zero l) k).
Proof.
  split; [apply repeat_length|]. split.
  - apply Forall_repeat. split; [apply repeat_length|]. apply Forall_repeat. exact zero_poly.
  - intros r c Hr Hc. rewrite nth_rep by exact Hr. rewrite nth_rep by exact Hc. rewrite transform_zero.
    apply uniform_zero. intros i. unfold matrix_stream. rewrite exU_hash. reflexivity.
Qed.
(* one sample *)
Lemma exU_stream T kb d row pos i j x : noise_stream (hash_of ex_U) T kb d row pos i j x = if (row =? 3)%nat && (x =? Z.to_nat 3071)%nat then 1 else 0.
Proof.
  unfold noise_stream. rewrite exU_hash. unfold exu_val. cbn [app hd nth Z.eqb Pos.eqb].
  destruct (row =? 3)%nat eqn:E1; [apply Nat.eqb_eq in E1; subst row; cbn [Z.of_nat Pos.of_succ_nat Pos.succ Z.eqb Pos.eqb andb]|].
  - destruct (x =? Z.to_nat 3071)%nat eqn:E2; [apply Nat.eqb_eq in E2; replace (Z.of_nat x =? 3071) with true by lia; reflexivity|].
    apply Nat.eqb_neq in E2. replace (Z.of_nat x =? 3071) with false by lia. reflexivity.
  - apply Nat.eqb_neq in E1. replace (Z.of_nat row =? 3) with false by lia. reflexivity.
Qed.
Lemma le_value_zeros' S pos n : (forall i, (pos <= i < pos + n)%nat -> S i = 0) -> le_value (stream_bytes S pos n) = 0.
Proof.
  unfold stream_bytes. revert pos. induction n as [|n IH]; intros pos H; [reflexivity|]. cbn [seq map le_value]. rewrite H by lia. rewrite IH; [reflexivity|]. intros i Hi. apply H. lia.
Qed.
Lemma signed_zero u : 1 <= u -> signed_bits u 0 = 0.
Proof.
  intros Hu. unfold signed_bits. rewrite Z.mod_0_l by (apply Z.pow_nonzero; lia). replace (0 <? 2 ^ (u - 1)) with true; [reflexivity|]. symmetry. apply Z.ltb_lt, Z.pow_pos_nonneg; lia.
Qed.
(* narrow noise: one byte per sample *)
Lemma exU_noise_narrow T p u n pos : 1 <= u <= 8 -> noise (hash_of ex_U) T p u n pos = repeat ring_zero n.
Proof.
  intros Hu. unfold noise, noise_vec. apply map_const_seq. intros row. unfold noise_poly.
  change ring_zero with (repeat 0 512). rewrite <- (map_const_seq (fun _ => 0) 0 512 0) by reflexivity. apply map_ext_in. intros k Hk. apply in_seq in Hk.
  unfold noise_coef. rewrite (Zsum_ext _ _ (fun _ => 0)); [rewrite Zsum_0; apply mod0|]. intros i _.
  rewrite (Zsum_ext _ _ (fun _ => 0)); [apply Zsum_0|]. intros j _. unfold noise_sample.
  assert (E : (u + 7) / 8 = 1) by (symmetry; apply (Z.div_unique _ _ _ (u - 1)); lia). rewrite E.
  rewrite le_value_zeros'; [apply signed_zero; lia|]. intros x Hx. rewrite exU_stream.
  replace (x =? Z.to_nat 3071)%nat with false by lia. rewrite andb_false_r. reflexivity.
Qed.
(* wide noise: six bytes per sample *)
Definition bottom : list Z := repeat 0 511 ++ [(- 2 ^ 43) mod q].
Lemma Zsum_const n c : Zsum n (fun _ => c) = Z.of_nat n * c.
Proof. induction n as [|n IH]; [reflexivity|]. cbn [Zsum]. rewrite IH. lia. Qed.
Lemma map_seq_last {B} (f : nat -> B) n : map f (seq 0 (S n)) = map f (seq 0 n) ++ [f n].
Proof. rewrite seq_S, map_app. reflexivity. Qed.
Lemma exU_noise_wide T p n pos : r_uw p = 41 -> (Z.to_nat (r_rep p) * Z.to_nat (r_d p) = 8)%nat ->
  noise (hash_of ex_U) T p (r_uw p) n pos = map (fun row => if (row =? 3)%nat then bottom else ring_zero) (seq 0 n).
Proof.
  intros Hu Hr. rewrite Hu. unfold noise, noise_vec. apply map_ext_in. intros row Hrow. unfold noise_poly.
  assert (C : forall k, (k < 512)%nat -> forall kb pos, noise_coef (hash_of ex_U) T 41 kb (Z.to_nat (r_rep p)) (Z.to_nat (r_d p)) row pos k = if (row =? 3)%nat && (k =? 511)%nat then - 2 ^ 43 else 0).
  { intros k Hk kb pos'. unfold noise_coef.
    assert (S : forall i j, noise_sample (noise_stream (hash_of ex_U) T kb (Z.to_nat (r_d p)) row pos' i j) 41 k = if (row =? 3)%nat && (k =? 511)%nat then - 2 ^ 40 else 0).
    { intros i j. unfold noise_sample. change (Z.to_nat ((41 + 7) / 8)) with 6%nat.
      destruct ((row =? 3)%nat && (k =? 511)%nat) eqn:E.
      - apply andb_prop in E. destruct E as [E1 E2]. apply Nat.eqb_eq in E1, E2. subst row k.
        unfold stream_bytes. cbn [seq map]. rewrite !exU_stream. cbn [Nat.eqb andb]. 
        replace (511 * 6 =? Z.to_nat 3071)%nat with false by lia. replace (S (511 * 6) =? Z.to_nat 3071)%nat with false by lia.
        replace (S (S (511 * 6)) =? Z.to_nat 3071)%nat with false by lia. replace (S (S (S (511 * 6))) =? Z.to_nat 3071)%nat with false by lia.
        replace (S (S (S (S (511 * 6)))) =? Z.to_nat 3071)%nat with false by lia. replace (S (S (S (S (S (511 * 6))))) =? Z.to_nat 3071)%nat with true by lia.
        reflexivity.
      - rewrite le_value_zeros'; [apply signed_zero; lia|]. intros x Hx. rewrite exU_stream.
        destruct (row =? 3)%nat; [|reflexivity]. cbn [andb] in *. apply Nat.eqb_neq in E. replace (x =? Z.to_nat 3071)%nat with false by lia. reflexivity. }
    rewrite (Zsum_ext _ _ (fun _ => Z.of_nat (Z.to_nat (r_d p)) * (if (row =? 3)%nat && (k =? 511)%nat then - 2 ^ 40 else 0))).
    - rewrite Zsum_const. destruct ((row =? 3)%nat && (k =? 511)%nat); [|lia]. rewrite Z.mul_assoc, <- Nat2Z.inj_mul, Hr. reflexivity.
    - intros i _. rewrite (Zsum_ext _ _ (fun _ => if (row =? 3)%nat && (k =? 511)%nat then - 2 ^ 40 else 0)); [apply Zsum_const|]. intros j _. apply S. }
  destruct (row =? 3)%nat eqn:E.
  - unfold bottom. etransitivity; [exact (map_seq_last _ 511)|]. cbv beta. rewrite C by lia. rewrite Nat.eqb_refl. cbn [andb]. f_equal.
    rewrite <- (map_const_seq (fun _ => 0) 0 511 0) by reflexivity. apply map_ext_in. intros k Hk. apply in_seq in Hk. rewrite C by lia.
    replace (k =? 511)%nat with false by lia. apply mod0.
  - change ring_zero with (repeat 0 512). rewrite <- (map_const_seq (fun _ => 0) 0 512 0) by reflexivity. apply map_ext_in. intros k Hk. apply in_seq in Hk. rewrite C by lia. apply mod0.
Qed.

Lemma add_zero_l p : is_poly p -> ring_add ring_zero p = p.
Proof.
  intros [L F]. apply poly_ext; [unfold ring_add; rewrite map_length; apply seq_length|exact L|]. intros i Hi. unfold ring_add. rewrite coef_map by exact Hi.
  rewrite coef_zero, Z.add_0_l. apply Z.mod_small. rewrite Forall_forall in F. apply F, nth_In. lia.
Qed.
Lemma bottom_poly : is_poly bottom.
Proof.
  split; [unfold bottom; rewrite app_length, repeat_length; reflexivity|]. unfold bottom. apply Forall_app. split.
  - apply Forall_repeat. unfold reduced. rewrite q_Q, Q_val. lia.
  - constructor; [|constructor]. unfold reduced. apply Z.mod_pos_bound. rewrite q_Q, Q_val. reflexivity.
Qed.
Lemma round_bottom : round_poly 44 bottom = ring_zero.
Proof.
  unfold round_poly, bottom. rewrite map_app, map_rep. cbn [map].
  replace (round_shift 44 0) with 0 by (unfold round_shift; rewrite q_Q, Q_val; reflexivity).
  replace (round_shift 44 ((- 2 ^ 43) mod q)) with 0 by (unfold round_shift; rewrite q_Q, Q_val; vm_compute; reflexivity).
  exact (eq_sym (repeat_app 0 511 1)).
Qed.
Lemma centered_bottom : map (centered q) bottom = repeat 0 511 ++ [- 2 ^ 43].
Proof.
  unfold bottom. rewrite map_app, map_rep. cbn [map].
  replace (centered q 0) with 0 by (rewrite q_Q, Q_val; reflexivity).
  replace (centered q ((- 2 ^ 43) mod q)) with (- 2 ^ 43) by (rewrite q_Q, Q_val; vm_compute; reflexivity). reflexivity.
Qed.
Definition over_z : list Z := repeat 0 2047 ++ [- 2 ^ 43].
Lemma exU_attempt P tp mu : params_ok P = true -> p_k P = 5%nat -> p_l P = 4%nat -> p_uw P = 41 -> (p_rep P * p_d P = 8)%nat ->
  exists c cp,
    sign_attempt (hash_of ex_U) (tape_of tp) (row_of P) (repeat (repeat ring_zero (p_l P)) (p_k P)) (repeat ring_zero (p_k P)) (repeat ring_zero (p_l P)) mu 0 c cp (repeat 0 (p_k P * 512)) over_z.
Proof.
  intros HP Hk Hl Huw Hr. destruct (params_facts P HP) as (kb & e & F). pose proof (pf_nuw _ _ _ F) as Hnuw. pose proof (pf_omega _ _ _ F) as Ho.
  set (c := challenge_value (hash_of ex_U) (Z.to_nat (2 * p_kappa P / 8)) (repeat ring_zero 5) mu).
  assert (Hc : exists cp, chal_poly ex_U 512 (p_omega P) c = Ok cp) by (apply chal_poly_fin; [lia|apply exU_good_chal; lia]).
  destruct Hc as (cp & Ecp). destruct (challenge_facts ex_U 512 (p_omega P) c ltac:(lia)) as (F1 & _). destruct (F1 cp Ecp) as (C1 & C2 & C3 & C4). clear F1.
  exists c, cp. unfold sign_attempt. 
  assert (N : forall n pos, noise (hash_of ex_U) (tape_of tp) (row_of P) (r_uw (row_of P)) n pos = map (fun row => if (row =? 3)%nat then bottom else ring_zero) (seq 0 n)).
  { intros n pos. apply exU_noise_wide; [exact Huw|]. cbn [row_of r_rep r_d]. rewrite !Nat2Z.id. exact Hr. }
  set (r4 := [ring_zero; ring_zero; ring_zero; bottom]). set (e5 := [ring_zero; ring_zero; ring_zero; bottom; ring_zero]).
  assert (N4 : forall pos, noise (hash_of ex_U) (tape_of tp) (row_of P) (r_uw (row_of P)) 4 pos = r4) by (intros pos; rewrite N; reflexivity).
  assert (N5 : forall pos, noise (hash_of ex_U) (tape_of tp) (row_of P) (r_uw (row_of P)) 5 pos = e5) by (intros pos; rewrite N; reflexivity).
  assert (W : map (round_poly 44) (zipw ring_add (repeat ring_zero 5) e5) = repeat ring_zero 5).
  { unfold e5, zipw. cbn [repeat combine map]. rewrite add_zero_zero, (add_zero_l _ bottom_poly), round_bottom, (round_zero 44 ltac:(lia) nuw_mod). reflexivity. }
  assert (ZR : zipw ring_add (map (fun si => ring_mul si cp) (repeat ring_zero 4)) r4 = r4).
  { rewrite map_rep, mul_zero_l. unfold r4, zipw. cbn [repeat combine map]. rewrite add_zero_zero, (add_zero_l _ bottom_poly). reflexivity. }
  cbn [row_of r_k r_l r_omega r_nuw r_uw r_kappa r_nut]. rewrite !Nat2Z.id, Hk, Hl, Hnuw.
  cbn [row_of r_uw] in N4, N5. rewrite !N4, !N5, matvec_zero, W. cbv zeta. rewrite ZR.
  split; [reflexivity|]. split; [exact C1|]. split.
  - unfold r4. cbn [map]. rewrite centered_bottom, centered_zero by (rewrite q_Q, Q_val; reflexivity). cbn [concat]. unfold over_z, ring_zero. rewrite app_nil_r.
    rewrite !app_assoc, <- !repeat_app. reflexivity.
  - unfold noisy_product. rewrite matvec_zero, map_rep, scale_zero, mul_zero_l, zip_rep, sub_zero_zero, map_rep, round_zero by (lia || exact nuw_mod).
    rewrite zip_rep, sub_mod_zero, map_rep, centered_zero by exact nuw_mod. symmetry. apply concat_rep_zero.
Qed.
Lemma codes_rep {A} (f : A -> list bool) x n m : length (f x) = m -> length (concat (map f (repeat x n))) = (n * m)%nat.
Proof. intros H. induction n as [|n IH]; [reflexivity|]. cbn [repeat map concat]. rewrite app_length, IH, H. reflexivity. Qed.
Lemma over_z_overruns cl : cl = 32 -> overrun_encoding 11524 cl (repeat 0 (5 * 512)) over_z.
Proof.
  intros ->. exists (map (pair true) (repeat 0 (5 * 512)) ++ map (pair false) (repeat 0 2047)), (false, - 2 ^ 43), [].
  assert (L : Z.of_nat (length (concat (map code_word (map (pair true) (repeat 0 (5 * 512)) ++ map (pair false) (repeat 0 2047))))) = 86487).
  { rewrite map_app, concat_app, app_length, !map_rep.
    rewrite <- (map_rep code_word (true, 0)), <- (map_rep code_word (false, 0)), (codes_rep code_word (true, 0) _ 1), (codes_rep code_word (false, 0) _ 41) by reflexivity. lia. }
  assert (LW : Z.of_nat (length (code_word (false, - 2 ^ 43))) = 50) by reflexivity.
  split; [unfold words, over_z; rewrite map_app, app_assoc; reflexivity|]. split; [|split].
  - intros a x b E. unfold waiting. pose proof (Z.mod_pos_bound (end_after 32 a) 8 ltac:(lia)).
    assert (H1 : In x (map (pair true) (repeat 0 (5 * 512)) ++ map (pair false) (repeat 0 2047))) by (rewrite E; apply in_or_app; right; left; reflexivity).
    rewrite !map_rep in H1. apply in_app_or in H1. assert (H2 : Z.of_nat (length (code_word x)) <= 41); [|lia].
    destruct H1 as [H1|H1]; apply repeat_spec in H1; subst x; cbn; lia.
  - unfold end_after. rewrite L. vm_compute. discriminate.
  - right. right. unfold waiting, end_after. split; [|split; [reflexivity|]].
    + rewrite L, LW. vm_compute. discriminate.
    + rewrite map_app, concat_app, app_length, Nat2Z.inj_add, L. cbn [map concat]. rewrite app_nil_r, LW. vm_compute. discriminate.
Qed.
(* keys made by key generation, for every seed and every tape *)
Lemma exU_generate P seed tp fuel : params_ok P = true -> Forall is_byte seed -> length seed = Z.to_nat (p_kappa P / 8) -> (512 <= fuel)%nat ->
  exists sk, sk_generate ex_U fuel P seed tp = Ok sk /\ pk_seed (sk_pkey sk) = seed /\ pk_t (sk_pkey sk) = repeat [ring_zero] (p_k P) /\
    masked_vec (p_l P) (p_d P) (sk_s sk) /\ map unmask (sk_s sk) = map transform (repeat ring_zero (p_l P)).
Proof.
  intros HP Hb Ls Hf. destruct (params_facts P HP) as (kb & e & F). pose proof (pf_ut _ _ _ F) as Hut. pose proof (pf_nut _ _ _ F) as Hnut.
  pose proof (generate_spec ex_U fuel P seed tp HP Hb Ls) as G.
  assert (NF : sk_generate ex_U fuel P seed tp <> OutOfFuel) by (apply sk_generate_fin; [apply (fn_ok _ (fun _ => True)), expandA_fin, exU_good_hash, Hf|apply exU_good_mask, Hf|exists e; exact (pf_d _ _ _ F)]).
  destruct (sk_generate ex_U fuel P seed tp) as [sk| |]; cbn [wp] in G; [|destruct G|congruence].
  exists sk. split; [reflexivity|]. destruct G as (G1 & G2 & G3 & A & G4 & G5 & G6 & _). split; [exact G1|].
  rewrite !exU_noise_narrow in G5, G6 by lia. rewrite (public_matrix_fun _ _ _ _ _ _ G4 (exU_matrix seed (p_k P) (p_l P))) in G6.
  cbv zeta in G6. rewrite (exU_noise_narrow _ _ _ (p_k P)) in G6 by lia.
  rewrite matvec_zero, zip_rep, add_zero_zero, map_rep, Hnut, round_zero in G6; [|lia|].
  - split; [|split; [exact G3|exact G5]]. destruct (rows1_public _ _ (proj2 (proj2 G2))) as (E & _). rewrite E, G6. exact (map_rep (fun p => [p]) ring_zero (p_k P)).
  - rewrite q_Q, Q_val. reflexivity.
Qed.
Lemma exU_overruns P sk seed msg buf tp tp' fuel : params_ok P = true -> p_k P = 5%nat -> p_l P = 4%nat -> p_kappa P = 128 -> p_uw P = 41 -> (p_rep P * p_d P = 8)%nat -> p_siglen P = 11524 ->
  Forall is_byte seed -> length seed = 16%nat -> sk_generate ex_U fuel P seed tp = Ok sk -> zlen buf = 11524 -> (512 <= fuel)%nat ->
  sk_sign ex_U fuel P sk msg buf tp' = UB.
Proof.
  intros HP Hk Hl Hka Huw Hr Hsl Bs Ls EG Lb Hf. destruct (params_facts P HP) as (kb & e & F). pose proof (pf_omega _ _ _ F) as Ho.
  assert (Ls' : length seed = Z.to_nat (p_kappa P / 8)) by (rewrite Hka; exact Ls).
  destruct (exU_generate P seed tp fuel HP Bs Ls' Hf) as (sk' & EG' & G1 & G2 & G3 & G4). rewrite EG in EG'. apply ok_inj in EG'. subst sk'.
  assert (V : valid_public (Z.to_nat (p_kappa P / 8)) (p_k P) (pk_seed (sk_pkey sk)) (pk_t (sk_pkey sk))).
  { rewrite G1, G2. split; [exact Ls'|]. split; [exact Bs|]. split; [apply repeat_length|]. apply Forall_repeat. exists ring_zero. split; [reflexivity|]. split; [apply repeat_length|].
    apply Forall_repeat. split; [discriminate|reflexivity]. }
  destruct (bind_msg_ok ex_U P (sk_pkey sk) msg HP V) as (pkb & Cpk & _).
  assert (Lb' : zlen buf = p_siglen P) by (rewrite Hsl; exact Lb).
  pose proof (exU_matrix (pk_seed (sk_pkey sk)) (p_k P) (p_l P)) as PM.
  assert (Fs : Forall is_poly (repeat ring_zero (p_l P))) by (apply Forall_repeat; exact zero_poly).
  destruct (sign_exact ex_U fuel P sk msg buf tp' _ pkb _ HP V (masked_49 _ _ _ G3) Lb' PM Cpk Fs (eq_sym G4)) as [X1 X2].
  assert (R1 : rows1 (pk_t (sk_pkey sk)) = repeat ring_zero (p_k P)) by (rewrite G2; unfold rows1; rewrite map_rep; reflexivity). rewrite R1 in X1, X2.
  destruct (exU_attempt P tp' (bound_message (hash_of ex_U) (Z.to_nat (2 * p_kappa P / 8)) pkb msg) HP Hk Hl Huw Hr) as (c & cp & AT).
  assert (OV : attempt_overruns (row_of P) c (repeat 0 (p_k P * 512)) over_z).
  { unfold attempt_overruns. cbn [row_of r_siglen]. rewrite Hsl, Hk. apply over_z_overruns. destruct AT as (-> & _). unfold challenge_value. rewrite digest_length. cbn [row_of r_kappa]. rewrite Hka. reflexivity. }
  apply X1.
  - apply X2.
    + intros r0 c0 _ _. apply (exU_good_hash fuel Hf).
    + apply exU_good_mask, Hf.
    + exists 0%nat, c, cp, (repeat 0 (p_k P * 512)), over_z. split; [lia|]. split; [exact AT|]. split; [right; exact OV|]. intros i Hi. replace i with 0%nat by lia. exists c, cp, (repeat 0 (p_k P * 512)), over_z. split; [exact AT|]. apply (exU_good_chal fuel (p_omega P)); lia.
  - exists 0%nat, c, cp, (repeat 0 (p_k P * 512)), over_z. split; [exact AT|]. split; [exact OV|]. intros i Hi. lia.
Qed.
