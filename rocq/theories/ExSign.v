(* Concrete instances for the non-vacuity examples of PropScheme.v: with the hash function of ExGood.v
   key generation and signing return. *)
From Coq Require Import ZArith Lia Bool List Arith.
From Coq Require Import ZifyBool ZifyNat.
From Verif Require Import ModelBase ModelU128 ModelField ModelUtils ModelPoly ModelVec ModelSerial ModelScheme ModelApi.
From Verif Require Import Spec SpecScheme SpecSig SpecVerify SpecApi.
From Verif Require Import Words FieldProofs ArithLemmas BytesProofs PolyProofs NttLayers NttProofs Cong NttEval NttBounds MaskedProofs LinProofs SampleProofs SampleLemmas NoiseProofs PolyLemmas MaskedLemmas.
From Verif Require Import ParamProofs KeyLemmas PackProofs FinProofs ExOracle ExGood KeyExamples SigEnc SigDec2 SigLemmas SchemeCore VerifyProofs SignProofs SignVerify KeygenProofs FuelProofs TermProofs BoundProofs HistoryProofs.
Import ListNotations.
Open Scope Z_scope.
Ltac Zify.zify_post_hook ::= idtac.

Lemma zero_poly : is_poly ring_zero.
Proof. apply const_poly. unfold reduced. rewrite q_Q, Q_val. lia. Qed.
Lemma coef_zero i : coef ring_zero i = 0.
Proof. unfold coef, ring_zero. destruct (Nat.lt_ge_cases i 512) as [H|H]; [apply nth_repeat|apply nth_overflow; rewrite repeat_length; exact H]. Qed.
Lemma map_const_seq {A} (f : nat -> A) x n : forall s, (forall i, f i = x) -> map f (seq s n) = repeat x n.
Proof. induction n as [|n IH]; intros s H; [reflexivity|]. cbn [seq map repeat]. rewrite H, IH by exact H. reflexivity. Qed.
Lemma map_rep {A B} (f : A -> B) x n : map f (repeat x n) = repeat (f x) n.
Proof. induction n as [|n IH]; [reflexivity|]. cbn [repeat map]. rewrite IH. reflexivity. Qed.
Lemma nth_rep {A} (x d : A) n : forall i, (i < n)%nat -> nth i (repeat x n) d = x.
Proof. induction n as [|n IH]; intros i Hi; [lia|]. destruct i as [|i]; [reflexivity|]. cbn [repeat nth]. apply IH. lia. Qed.
Lemma mod0 : 0 mod q = 0. Proof. apply Z.mod_0_l. rewrite q_Q, Q_val. discriminate. Qed.
Lemma mul_zero_l a : ring_mul ring_zero a = ring_zero.
Proof.
  apply map_const_seq. intros k. unfold negacyclic_coef. rewrite (Zsum_ext _ _ (fun _ => 0)); [rewrite Zsum_0; apply mod0|].
  intros i _. rewrite coef_zero. destruct (_ <=? _)%nat; reflexivity.
Qed.
Lemma add_zero_zero : ring_add ring_zero ring_zero = ring_zero.
Proof. apply map_const_seq. intros k. rewrite coef_zero. apply mod0. Qed.
Lemma sub_zero_zero : ring_sub ring_zero ring_zero = ring_zero.
Proof. apply map_const_seq. intros k. rewrite coef_zero. apply mod0. Qed.
Lemma scale_zero c : ring_scale c ring_zero = ring_zero.
Proof. apply map_const_seq. intros k. rewrite coef_zero, Z.mul_0_r. apply mod0. Qed.
Lemma dot_zero n : forall v, ring_dot (repeat ring_zero n) v = ring_zero.
Proof.
  unfold ring_dot. induction n as [|n IH]; intros v; [reflexivity|]. rewrite (eq_refl : repeat ring_zero (S n) = ring_zero :: repeat ring_zero n). destruct v as [|b v]; [reflexivity|].
  cbn [combine map fold_right]. rewrite IH, mul_zero_l. apply add_zero_zero.
Qed.
Lemma matvec_zero k l v : ring_matvec (repeat (repeat ring_zero l) k) v = repeat ring_zero k.
Proof. unfold ring_matvec. induction k as [|k IH]; [reflexivity|]. cbn [repeat map]. rewrite dot_zero. f_equal. exact IH. Qed.
Lemma round_zero nu : 1 <= nu -> 0 < q / 2 ^ nu -> round_poly nu ring_zero = ring_zero.
Proof.
  intros Hn Hq. unfold round_poly, ring_zero. rewrite map_rep. f_equal. unfold round_shift. rewrite Z.add_0_l.
  rewrite Z.div_small; [apply Z.mod_0_l; lia|]. split; [apply Z.pow_nonneg; lia|]. apply Z.pow_lt_mono_r; lia.
Qed.
Lemma transform_zero : transform ring_zero = ring_zero.
Proof.
  apply map_const_seq. intros i. unfold eval. rewrite (Zsum_ext _ _ (fun _ => 0)); [rewrite Zsum_0; apply mod0|]. intros j _. rewrite coef_zero. reflexivity.
Qed.
(* a zero stream *)
Lemma le_value_zeros S pos n : (forall i, S i = 0) -> le_value (stream_bytes S pos n) = 0.
Proof. intros H. unfold stream_bytes. revert pos. induction n as [|n IH]; intros pos; [reflexivity|]. cbn [seq map le_value]. rewrite H, IH. reflexivity. Qed.
Lemma uniform_zero S : (forall i, S i = 0) -> uniform_poly S ring_zero.
Proof.
  intros H. exists 512%nat.
  assert (E : accepted49 S 512 = repeat 0 512).
  { unfold accepted49. rewrite (map_const_seq _ 0) by (intros i; unfold candidate49; rewrite (le_value_zeros S _ 7 H); reflexivity).
    apply filter_all. intros x Hx. apply repeat_spec in Hx. subst x. rewrite q_Q, Q_val. reflexivity. }
  rewrite E. split; [rewrite repeat_length; apply le_n|]. rewrite firstn_all2; [reflexivity|rewrite repeat_length; apply le_n].
Qed.
Lemma zip_rep {A B C} (f : A -> B -> C) x y n : zipw f (repeat x n) (repeat y n) = repeat (f x y) n.
Proof. unfold zipw. induction n as [|n IH]; [reflexivity|]. cbn [repeat combine map]. rewrite IH. reflexivity. Qed.
Lemma sub_mod_zero m : 0 < m -> sub_mod_poly m ring_zero ring_zero = ring_zero.
Proof. intros H. apply map_const_seq. intros k. rewrite coef_zero. apply Z.mod_0_l. lia. Qed.
Lemma centered_zero m : 0 < m -> map (centered m) ring_zero = ring_zero.
Proof.
  intros H. unfold ring_zero. rewrite map_rep. f_equal. unfold centered. rewrite Z.mod_0_l by lia. cbv zeta. replace (0 <=? (m - 1) / 2) with true; [reflexivity|].
  symmetry. apply Z.leb_le, Z.div_pos; lia.
Qed.
Lemma nuw_mod : 0 < q / 2 ^ 44. Proof. rewrite (proj2 hint_modulus). reflexivity. Qed.
Lemma bounded_zero : bounded_by 0 ring_zero.
Proof.
  exists ring_zero. split; [apply repeat_length|]. split; [unfold to_ring, ring_zero; rewrite map_rep, mod0; reflexivity|].
  apply Forall_repeat. reflexivity.
Qed.
Lemma concat_rep_zero n : concat (repeat ring_zero n) = repeat 0 (n * 512).
Proof. induction n as [|n IH]; [reflexivity|]. rewrite (eq_refl : repeat ring_zero (S n) = ring_zero :: repeat ring_zero n). rewrite concat_cons, IH. unfold ring_zero. rewrite <- repeat_app. reflexivity. Qed.
Lemma code_len_le (xs : list Z) (code : Z -> list bool) B : Forall (fun x => Z.of_nat (length (code x)) <= B) xs -> Z.of_nat (length (concat (map code xs))) <= Z.of_nat (length xs) * B.
Proof.
  induction 1 as [|x xs Hx F IH]; [cbn [map concat length]; lia|]. cbn [map concat length]. rewrite app_length. lia.
Qed.
(* any hash function whose 'A' and 'u' streams are zero *)
Section ZeroStreams.
  Variable O : oracles.
  Hypothesis HZ : forall m i, hd 0 m = 65 \/ hd 0 m = 117 -> hash_of O m i = 0.
Lemma zO_matrix_stream seed r c i : matrix_stream (hash_of O) seed r c i = 0.
Proof. unfold matrix_stream. apply HZ. left. reflexivity. Qed.
Lemma zO_matrix seed k l : public_matrix (hash_of O) seed k l (repeat (repeat ring_zero l) k).
Proof.
  split; [apply repeat_length|]. split.
  - apply Forall_repeat. split; [apply repeat_length|]. apply Forall_repeat. exact zero_poly.
  - intros r c Hr Hc. rewrite nth_rep by exact Hr. rewrite nth_rep by exact Hc. rewrite transform_zero.
    apply uniform_zero. apply zO_matrix_stream.
Qed.
Lemma zO_noise T p u n pos : 1 <= u -> noise (hash_of O) T p u n pos = repeat ring_zero n.
Proof.
  intros Hu. unfold noise, noise_vec. apply map_const_seq. intros row. unfold noise_poly. apply map_const_seq. intros k.
  unfold noise_coef. rewrite (Zsum_ext _ _ (fun _ => 0)); [rewrite Zsum_0; apply mod0|]. intros i _.
  rewrite (Zsum_ext _ _ (fun _ => 0)); [apply Zsum_0|]. intros j _. unfold noise_sample. rewrite le_value_zeros; [unfold signed_bits; rewrite Z.mod_0_l by (apply Z.pow_nonzero; lia)|].
  - replace (0 <? 2 ^ (u - 1)) with true; [reflexivity|]. symmetry. apply Z.ltb_lt, Z.pow_pos_nonneg; lia.
  - intros x. unfold noise_stream. apply HZ. right. reflexivity.
Qed.
(* small secrets, zero public vector: the first attempt is accepted *)
Hypothesis HC : forall fuel omega, (100 <= fuel)%nat -> (omega <= 44)%nat -> good_chal O fuel omega.
Lemma zO_attempt P s tp mu : params_ok P = true -> length s = p_l P -> Forall (bounded_by 1) s ->
  2 * p_kappa P + Z.of_nat (p_k P) * 512 + Z.of_nat (p_l P) * 512 * 42 <= 8 * p_siglen P ->
  exists c cp h z,
    sign_attempt (hash_of O) (tape_of tp) (row_of P) (repeat (repeat ring_zero (p_l P)) (p_k P)) (repeat ring_zero (p_k P)) s mu 0 c cp h z /\
    acceptable (row_of P) c h z.
Proof.
  intros HP Ls Fs HL. destruct (params_facts P HP) as (kb & e & F).
  pose proof (pf_uw _ _ _ F) as Huw. pose proof (pf_nuw _ _ _ F) as Hnuw. pose proof (pf_omega _ _ _ F) as Ho.
  pose proof (pf_l _ _ _ F) as Hl. pose proof (pf_k _ _ _ F) as Hk.
  set (c := challenge_value (hash_of O) (Z.to_nat (2 * p_kappa P / 8)) (repeat ring_zero (p_k P)) mu).
  assert (Hc : exists cp, chal_poly O 512 (p_omega P) c = Ok cp) by (apply chal_poly_fin; [lia|apply HC; lia]).
  destruct Hc as (cp & Ecp). destruct (challenge_facts O 512 (p_omega P) c ltac:(lia)) as (F1 & _). destruct (F1 cp Ecp) as (C1 & C2 & C3 & C4). clear F1.
  set (zr := zipw ring_add (map (fun si => ring_mul si cp) s) (repeat ring_zero (p_l P))).
  exists c, cp, (repeat 0 (p_k P * 512)), (concat (map (map (centered q)) zr)).
  assert (Fz : Forall (fun x => Z.abs x <= Z.of_nat (p_omega P)) (concat (map (map (centered q)) zr))).
  { apply Forall_concat, Forall_map. unfold zr. rewrite zipw_map2. rewrite <- Ls. clear - Fs C2 C3 C4.
    induction Fs as [|x s Hx Fs IH]; [constructor|]. cbn [map length repeat map2]. constructor; [|exact IH].
    apply bounded_centered. apply (bounded_mono (Z.of_nat (p_omega P) * 1 + 0)); [lia|]. apply bounded_add; [|exact bounded_zero]. apply bounded_mul_challenge; [lia|assumption..]. }
  assert (Lz : length (concat (map (map (centered q)) zr)) = (p_l P * 512)%nat).
  { apply concat_len512.
    - rewrite map_length. unfold zr. rewrite zipw_map2, map2_length, map_length, repeat_length. rewrite Ls. apply Nat.min_id.
    - apply Forall_map. unfold zr. rewrite zipw_map2. apply map2_Forall_r. intros x y. rewrite map_length. unfold ring_add. rewrite map_length. apply seq_length. }
  split; [|split; [|split]].
  - unfold sign_attempt. cbn [row_of r_k r_l r_omega r_nuw r_uw r_kappa r_nut]. rewrite !Nat2Z.id. rewrite Hnuw, !zO_noise by lia. rewrite !matvec_zero, zip_rep, add_zero_zero, map_rep, round_zero by (lia || exact nuw_mod).
    cbv zeta. split; [reflexivity|]. split; [exact C1|]. fold zr. split; [reflexivity|].
    unfold noisy_product. rewrite matvec_zero, map_rep, scale_zero, mul_zero_l, zip_rep, sub_zero_zero, map_rep, round_zero by (lia || exact nuw_mod).
    rewrite zip_rep, sub_mod_zero, map_rep, centered_zero by exact nuw_mod. symmetry. apply concat_rep_zero.
  - apply small_buffer_fits; [apply Forall_repeat; discriminate| |].
    + refine (Forall_impl _ _ Fz). intros x Hx. cbv beta in Hx. change (2 ^ 43) with 8796093022208. lia.
    + intros E. rewrite E in Lz. cbn [length] in Lz. lia.
  - cbn [row_of r_siglen]. unfold sig_code. rewrite app_length, Nat2Z.inj_add.
    pose proof (code_len_le (repeat 0 (p_k P * 512)) code_h 1) as B1.
    assert (F42 : Forall (fun x => Z.of_nat (length (code_z x)) <= 42) (concat (map (map (centered q)) zr))).
    { refine (Forall_impl _ _ Fz). intros x Hx. cbv beta in Hx. pose proof (clen_z x) as E. unfold clen in E. rewrite E.
      replace (Z.abs x / 2 ^ 40) with 0; [destruct (x =? 0); lia|]. symmetry. apply Z.div_small. change (2 ^ 40) with 1099511627776. lia. }
    pose proof (code_len_le _ code_z 42 F42) as B2.
    rewrite Lz in B2. rewrite repeat_length in B1. specialize (B1 ltac:(apply Forall_repeat; discriminate)).
    assert (Lc : 8 * Z.of_nat (length c) = 2 * p_kappa P).
    { unfold c, challenge_value. rewrite digest_length. pose proof (pf_kappa _ _ _ F) as K. rewrite K. replace (2 * (8 * Z.of_nat kb)) with (2 * Z.of_nat kb * 8) by lia. rewrite Z.div_mul by lia. lia. }
    rewrite Lc. clearbody zr. revert B1 B2 HL. rewrite !Nat2Z.inj_mul. lia.
  - pose proof (pf_Binf _ _ _ F) as HBi. pose proof (pf_B22 _ _ _ F) as HB2. cbn [row_of r_nuw r_Binf r_B22]. rewrite Hnuw. split; [|split].
    + apply Forall_repeat. apply Z.div_pos; [lia|reflexivity].
    + refine (Forall_impl _ _ Fz). intros x Hx. cbv beta in Hx. lia.
    + replace (fold_right Z.add 0 (map (fun x => x * x) (repeat 0 (p_k P * 512)))) with 0.
      2:{ rewrite map_rep. generalize (p_k P * 512)%nat. intros n. induction n as [|n IH]; [reflexivity|]. cbn [repeat fold_right]. rewrite <- IH. reflexivity. }
      replace (fold_right Z.add 0 _) with 0; [lia|]. revert Fz. generalize (concat (map (map (centered q)) zr)). intros l Fl.
      clear - Fl Ho. induction Fl as [|x l Hx Fl IH]; [reflexivity|]. cbn [map fold_right]. rewrite <- IH.
      rewrite Z.div_small; [reflexivity|]. change (2 ^ 32) with 4294967296. lia.
Qed.
(* key, message, tape: signing returns *)
Hypothesis HH : forall fuel, (512 <= fuel)%nat -> good_hash O fuel.
Hypothesis HM : forall fuel d, (512 <= fuel)%nat -> good_mask O fuel d.
Lemma zO_sign P sk s msg buf tp fuel : params_ok P = true ->
  2 * p_kappa P + Z.of_nat (p_k P) * 512 + Z.of_nat (p_l P) * 512 * 42 <= 8 * p_siglen P ->
  length (pk_seed (sk_pkey sk)) = Z.to_nat (p_kappa P / 8) -> Forall is_byte (pk_seed (sk_pkey sk)) -> pk_t (sk_pkey sk) = repeat [ring_zero] (p_k P) ->
  masked_vec49 (p_l P) (p_d P) (sk_s sk) -> map transform s = map unmask (sk_s sk) -> Forall is_poly s -> Forall (bounded_by 1) s ->
  zlen buf = p_siglen P -> (512 <= fuel)%nat ->
  exists sig, sk_sign O fuel P sk msg buf tp = Ok sig.
Proof.
  intros HP HL L1 L2 Et Hs Es Fs Fb Lb Hf. destruct (params_facts P HP) as (kb & e & F). pose proof (pf_omega _ _ _ F) as Ho.
  assert (V : valid_public (Z.to_nat (p_kappa P / 8)) (p_k P) (pk_seed (sk_pkey sk)) (pk_t (sk_pkey sk))).
  { split; [exact L1|]. split; [exact L2|]. rewrite Et. split; [apply repeat_length|]. apply Forall_repeat. exists ring_zero. split; [reflexivity|]. split; [apply repeat_length|].
    apply Forall_repeat. split; [discriminate|reflexivity]. }
  assert (Ls : length s = p_l P) by (pose proof (f_equal (@length (list Z)) Es) as E; rewrite !map_length in E; rewrite E; exact (proj1 Hs)).
  destruct (bind_msg_ok O P (sk_pkey sk) msg HP V) as (pkb & Cpk & _).
  destruct (sign_terminates O fuel P sk msg buf tp 0 HP V Hs Lb) as (sig & E & _); [| | |lia|exists sig; exact E].
  - apply HM; exact Hf.
  - apply (fn_ok _ (fun _ => True)), expandA_fin, HH, Hf.
  - exists (repeat (repeat ring_zero (p_l P)) (p_k P)), pkb, s. split; [apply zO_matrix|]. split; [exact Cpk|]. split; [exact Fs|]. split; [exact Es|].
    assert (AT : exists c cp h z, sign_attempt (hash_of O) (tape_of tp) (row_of P) (repeat (repeat ring_zero (p_l P)) (p_k P)) (rows1 (pk_t (sk_pkey sk))) s
      (bound_message (hash_of O) (kbytes (2 * p_kappa P)) pkb msg) 0 c cp h z /\ acceptable (row_of P) c h z).
    { unfold rows1. rewrite Et, map_rep. cbn [nth]. apply zO_attempt; assumption. }
    split; [|split; [exact AT|intros i Hi; lia]]. intros i Hi. replace i with 0%nat by lia. destruct AT as (c & cp & h & z & AT & _). exists c, cp, h, z. split; [exact AT|].
    destruct (chal_poly_fin O fuel (p_omega P) c) as (p & ->); [lia|apply HC; lia|discriminate].
Qed.
End ZeroStreams.
Lemma exG_zero m i : hd 0 m = 65 \/ hd 0 m = 117 -> hash_of ex_G m i = 0.
Proof. intros [E|E]; rewrite exG_hash; unfold ex_val; rewrite E; reflexivity. Qed.
Lemma exG_matrix seed k l : public_matrix (hash_of ex_G) seed k l (repeat (repeat ring_zero l) k).
Proof. apply zO_matrix, exG_zero. Qed.
Lemma exG_noise T p u n pos : 1 <= u -> noise (hash_of ex_G) T p u n pos = repeat ring_zero n.
Proof. apply zO_noise, exG_zero. Qed.
Lemma exG_attempt P s tp mu : params_ok P = true -> length s = p_l P -> Forall (bounded_by 1) s ->
  2 * p_kappa P + Z.of_nat (p_k P) * 512 + Z.of_nat (p_l P) * 512 * 42 <= 8 * p_siglen P ->
  exists c cp h z,
    sign_attempt (hash_of ex_G) (tape_of tp) (row_of P) (repeat (repeat ring_zero (p_l P)) (p_k P)) (repeat ring_zero (p_k P)) s mu 0 c cp h z /\
    acceptable (row_of P) c h z.
Proof. apply zO_attempt; [exact exG_zero|exact exG_good_chal]. Qed.
Lemma exG_sign P sk s msg buf tp fuel : params_ok P = true ->
  2 * p_kappa P + Z.of_nat (p_k P) * 512 + Z.of_nat (p_l P) * 512 * 42 <= 8 * p_siglen P ->
  length (pk_seed (sk_pkey sk)) = Z.to_nat (p_kappa P / 8) -> Forall is_byte (pk_seed (sk_pkey sk)) -> pk_t (sk_pkey sk) = repeat [ring_zero] (p_k P) ->
  masked_vec49 (p_l P) (p_d P) (sk_s sk) -> map transform s = map unmask (sk_s sk) -> Forall is_poly s -> Forall (bounded_by 1) s ->
  zlen buf = p_siglen P -> (512 <= fuel)%nat ->
  exists sig, sk_sign ex_G fuel P sk msg buf tp = Ok sig.
Proof. apply zO_sign; [exact exG_zero|exact exG_good_chal|exact exG_good_hash|exact exG_good_mask]. Qed.
(* generated keys *)
Lemma exG_generate P seed tp fuel : params_ok P = true -> Forall is_byte seed -> length seed = Z.to_nat (p_kappa P / 8) -> (512 <= fuel)%nat ->
  exists sk, sk_generate ex_G fuel P seed tp = Ok sk /\ pk_seed (sk_pkey sk) = seed /\ pk_t (sk_pkey sk) = repeat [ring_zero] (p_k P) /\
    masked_vec (p_l P) (p_d P) (sk_s sk) /\ map unmask (sk_s sk) = map transform (repeat ring_zero (p_l P)).
Proof.
  intros HP Hb Ls Hf. destruct (params_facts P HP) as (kb & e & F). pose proof (pf_ut _ _ _ F) as Hut. pose proof (pf_nut _ _ _ F) as Hnut.
  pose proof (generate_spec ex_G fuel P seed tp HP Hb Ls) as G.
  assert (NF : sk_generate ex_G fuel P seed tp <> OutOfFuel) by (apply sk_generate_fin; [apply (fn_ok _ (fun _ => True)), expandA_fin, exG_good_hash, Hf|apply exG_good_mask, Hf|exists e; exact (pf_d _ _ _ F)]).
  destruct (sk_generate ex_G fuel P seed tp) as [sk| |]; cbn [wp] in G; [|destruct G|congruence].
  exists sk. split; [reflexivity|]. destruct G as (G1 & G2 & G3 & A & G4 & G5 & G6 & _). split; [exact G1|].
  rewrite !exG_noise in G5, G6 by lia. rewrite (public_matrix_fun _ _ _ _ _ _ G4 (exG_matrix seed (p_k P) (p_l P))) in G6.
  cbv zeta in G6. rewrite (exG_noise _ _ _ (p_k P)) in G6 by lia.
  rewrite matvec_zero, zip_rep, add_zero_zero, map_rep, Hnut, round_zero in G6; [|lia|].
  - split; [|split; [exact G3|exact G5]]. destruct (rows1_public _ _ (proj2 (proj2 G2))) as (E & _). rewrite E, G6. exact (map_rep (fun p => [p]) ring_zero (p_k P)).
  - rewrite q_Q, Q_val. reflexivity.
Qed.

(* a key of Raccoon-128 with two shares and secret (1, 0, 0, 0) *)
Definition ex_secret : list (list Z) := (1 :: repeat 0 511) :: repeat ring_zero 3.
Definition ex_sk : skey := Skey (Pkey (repeat 200 16) (repeat [ring_zero] 5)) (map (fun p => [transform p; ring_zero]) ex_secret).
Lemma unit_poly : is_poly (1 :: repeat 0 511).
Proof. split; [reflexivity|]. constructor; [|apply Forall_repeat]; unfold reduced; rewrite q_Q, Q_val; lia. Qed.
Lemma ex_secret_poly : Forall is_poly ex_secret.
Proof. constructor; [exact unit_poly|]. apply Forall_repeat. exact zero_poly. Qed.
Lemma ex_sk_masked : masked_vec 4 2 (sk_s ex_sk).
Proof.
  split; [reflexivity|]. unfold ex_sk. cbn [sk_s]. apply Forall_map. refine (Forall_impl _ _ ex_secret_poly). intros p Hp. split; [reflexivity|].
  constructor; [rewrite transform_ntt by exact Hp; apply ntt_poly, Hp|]. constructor; [exact zero_poly|constructor].
Qed.
Lemma unmask_zero_share p : is_poly p -> unmask [p; ring_zero] = p.
Proof.
  intros [L F]. unfold unmask. apply poly_ext; [rewrite map_length; apply seq_length|exact L|]. intros i Hi. rewrite coef_map by exact Hi. cbn [map fold_right].
  rewrite coef_zero, !Z.add_0_r. apply Z.mod_small. rewrite Forall_forall in F. apply F, nth_In. lia.
Qed.
Lemma ex_sk_secret : map transform ex_secret = map unmask (sk_s ex_sk).
Proof.
  unfold ex_sk. cbn [sk_s]. rewrite map_map. apply map_ext_in. intros p Hp. pose proof ex_secret_poly as F. rewrite Forall_forall in F.
  symmetry. apply unmask_zero_share. rewrite transform_ntt by (apply F, Hp). apply ntt_poly, F, Hp.
Qed.
Lemma ex_secret_small : Forall (bounded_by 1) ex_secret.
Proof.
  constructor; [|apply Forall_repeat, (bounded_mono 0); [lia|exact bounded_zero]].
  exists (1 :: repeat 0 511). split; [reflexivity|]. split.
  - unfold to_ring. cbn [map]. rewrite map_rep, mod0. reflexivity.
  - constructor; [discriminate|]. apply Forall_repeat. discriminate.
Qed.
Lemma masked_49 l d s : masked_vec l d s -> masked_vec49 l d s.
Proof.
  intros [L F]. split; [exact L|]. refine (Forall_impl _ _ F). intros row [Lr Fr]. split; [exact Lr|]. refine (Forall_impl _ _ Fr). intros p [Lp Rp]. split; [exact Lp|].
  refine (Forall_impl _ _ Rp). intros x Hx. unfold reduced in Hx. rewrite q_Q, Q_val in Hx. change (2 ^ 49) with 562949953421312. lia.
Qed.
Lemma ex_sk_public : valid_public 16 5 (pk_seed (sk_pkey ex_sk)) (pk_t (sk_pkey ex_sk)).
Proof. cbn [ex_sk sk_pkey pk_seed pk_t]. apply const_public; [lia|split; [discriminate|reflexivity]|reflexivity]. Qed.
Lemma ex_sk_signs msg buf tp : zlen buf = 11524 -> exists sig, sk_sign ex_G 512 (raccoon128_params 2) ex_sk msg buf tp = Ok sig.
Proof.
  intros Lb. apply (exG_sign (raccoon128_params 2) ex_sk ex_secret).
  - vm_compute. reflexivity.
  - vm_compute. discriminate.
  - reflexivity.
  - cbn [ex_sk sk_pkey pk_seed]. apply Forall_repeat. split; [discriminate|reflexivity].
  - reflexivity.
  - apply masked_49. exact ex_sk_masked.
  - exact ex_sk_secret.
  - exact ex_secret_poly.
  - exact ex_secret_small.
  - exact Lb.
  - apply le_n.
Qed.

(* every call except verify returns *)
Lemma exG_step P pk0 s st op : params_ok P = true ->
  2 * p_kappa P + Z.of_nat (p_k P) * 512 + Z.of_nat (p_l P) * 512 * 42 <= 8 * p_siglen P ->
  pk_t pk0 = repeat [ring_zero] (p_k P) -> Forall is_poly s -> Forall (bounded_by 1) s ->
  api_inv ex_G 512 P pk0 (map transform s) st -> op_ok P op -> verifies op = [] ->
  exists st', api_step ex_G 512 P st op = Ok st'.
Proof.
  intros HP HL Et Fs Fb (V & Ep & Es & Eu & Hs & _) Hop Hv. destruct (params_facts P HP) as (kb & e & F). pose proof (d1 P kb e F) as Hd.
  assert (V' : valid_public (Z.to_nat (p_kappa P / 8)) (p_k P) (pk_seed (sk_pkey (a_sk st))) (pk_t (sk_pkey (a_sk st)))) by (rewrite Es; exact V).
  destruct op as [|buf tp|buf| |msg buf tp|msg sig]; cbn [api_step op_ok verifies] in *.
  - pose proof (refresh_secret ex_G 512 P (a_sk st) e (pf_d _ _ _ F) Hs) as G.
    assert (NF : sk_refresh ex_G 512 P (a_sk st) <> OutOfFuel) by (apply sk_refresh_fin; [apply exG_good_mask, le_n|exists e; exact (pf_d _ _ _ F)]).
    destruct (sk_refresh ex_G 512 P (a_sk st)) as [sk'| |]; cbn [wp bind] in *; [eexists; reflexivity|destruct G|congruence].
  - change (prng_new tp) with (Prng tp 0). destruct (sk_roundtrip ex_G 512 P (a_sk st) buf tp 0 HP V' Hs Hop) as [G1 G2].
    assert (NF : sk_to_bytes ex_G 512 P (a_sk st) buf (Prng tp 0) <> OutOfFuel).
    { apply sk_to_bytes_fin; [apply exG_good_hash, le_n| |exact Hop]. intros b Lb. destruct (pk_key_roundtrip P (sk_pkey (a_sk st)) b HP V' Lb) as (r & E & _). exists r. exact E. }
    destruct (sk_to_bytes ex_G 512 P (a_sk st) buf (Prng tp 0)) as [[bytes p]| |]; cbn [bind]; [|congruence|congruence].
    destruct (G2 bytes p eq_refl) as (_ & _ & sk' & E1 & _). rewrite E1. cbn [bind]. eexists. reflexivity.
  - rewrite Ep. destruct (pk_key_roundtrip P pk0 buf HP V Hop) as (bytes & E1 & _ & _ & _ & E2). rewrite E1. cbn [bind]. rewrite E2. cbn [bind]. eexists. reflexivity.
  - eexists. reflexivity.
  - destruct (exG_sign P (a_sk st) s msg buf tp 512 HP HL) as (sig & E); try assumption.
    + rewrite Es. exact (proj1 V).
    + rewrite Es. exact (proj1 (proj2 V)).
    + rewrite Es. exact Et.
    + apply secret_49; assumption.
    + symmetry. exact Eu.
    + apply le_n.
    + rewrite E. cbn [bind]. eexists. reflexivity.
  - exfalso. discriminate Hv.
Qed.
Lemma exG_run P pk0 s : params_ok P = true ->
  2 * p_kappa P + Z.of_nat (p_k P) * 512 + Z.of_nat (p_l P) * 512 * 42 <= 8 * p_siglen P ->
  pk_t pk0 = repeat [ring_zero] (p_k P) -> Forall is_poly s -> Forall (bounded_by 1) s ->
  forall ops st, api_inv ex_G 512 P pk0 (map transform s) st -> Forall (op_ok P) ops -> concat (map verifies ops) = [] ->
  exists st', api_run ex_G 512 P st ops = Ok st'.
Proof.
  intros HP HL Et Fs Fb. unfold api_run. induction ops as [|op ops IH]; intros st Hst Hops Hv; cbn [foldM map concat] in *; [eexists; reflexivity|].
  inversion Hops as [|? ? H1 H2]; subst. apply app_eq_nil in Hv. destruct Hv as [Hv1 Hv2].
  destruct (exG_step P pk0 s st op HP HL Et Fs Fb Hst H1 Hv1) as (st1 & E1). rewrite E1. cbn [bind].
  apply IH; [|exact H2|exact Hv2]. apply (api_step_inv ex_G 512 P pk0 (map transform s) HP st op Hst H1). exact E1.
Qed.
Lemma exG_history P seed tp ops : params_ok P = true -> 
  2 * p_kappa P + Z.of_nat (p_k P) * 512 + Z.of_nat (p_l P) * 512 * 42 <= 8 * p_siglen P ->
  Forall is_byte seed -> length seed = Z.to_nat (p_kappa P / 8) -> Forall (op_ok P) ops -> concat (map verifies ops) = [] ->
  exists st0 st, api_generate ex_G 512 P seed tp = Ok st0 /\ api_run ex_G 512 P st0 ops = Ok st.
Proof.
  intros HP HL Hb Hl Hops Hv. destruct (exG_generate P seed tp 512 HP Hb Hl (le_n _)) as (sk & E & E1 & E2 & E3 & E4).
  set (st0 := Api sk (sk_pkey sk) [] []).
  assert (EG : api_generate ex_G 512 P seed tp = Ok st0) by (unfold api_generate; rewrite E; reflexivity).
  assert (ST : api_start ex_G 512 P st0) by (left; exists seed, tp; auto).
  destruct (api_start_inv ex_G 512 P st0 HP ST) as (I0 & _).
  change (map unmask (sk_s (a_sk st0))) with (map unmask (sk_s sk)) in I0. rewrite E4 in I0.
  destruct (exG_run P (a_pk st0) (repeat ring_zero (p_l P)) HP HL E2) with (ops := ops) (st := st0) as (st & ER); try assumption.
  - apply Forall_repeat. exact zero_poly.
  - apply Forall_repeat, (bounded_mono 0); [lia|exact bounded_zero].
  - exists st0, st. split; [exact EG|exact ER].
Qed.
(* the example hash only looks at the length and the first byte *)
Lemma exG_digest_same n b : bound_message (hash_of ex_G) n b [1; 2; 3] = bound_message (hash_of ex_G) n b [4; 5; 6].
Proof.
  unfold bound_message. set (t := digest (hash_of ex_G) n b). unfold digest at 1 2, stream_bytes. apply map_ext. intros i.
  rewrite !exG_hash. destruct t as [|x t]; [reflexivity|]. unfold ex_val. cbn [app hd]. destruct (_ || _); [reflexivity|]. destruct (_ =? _); [reflexivity|].
  do 3 f_equal. cbn [length]. rewrite !app_length. reflexivity.
Qed.
