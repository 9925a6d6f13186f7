(* Key generation: the LWE relation between the public key and the secret; noise bounds. *)
From Coq Require Import ZArith Lia Bool List Arith.
From Coq Require Import ZifyBool ZifyNat.
From Verif Require Import ModelBase ModelU128 ModelField ModelUtils ModelPoly ModelVec ModelSerial ModelScheme.
From Verif Require Import Spec SpecScheme SpecSig SpecVerify.
From Verif Require Import Words FieldProofs ArithLemmas BytesProofs PolyProofs NttLayers NttProofs Cong NttEval NttBounds MaskedProofs LinProofs SampleProofs NoiseProofs PolyLemmas MaskedLemmas.
From Verif Require Import ParamProofs KeyLemmas PackProofs FinProofs SigEnc SigDec SigDec2 SigLemmas NormProofs SchemeCore VerifyProofs SignProofs SignVerify.
Import ListNotations.
Open Scope Z_scope.
Ltac Zify.zify_post_hook ::= idtac.

Definition noise_bound_of (P : params) (u : Z) : Z := Z.of_nat (p_rep P) * Z.of_nat (p_d P) * 2 ^ (u - 1).
Lemma noise_bounded H T P u n pos : 1 <= u -> Forall (bounded_by (noise_bound_of P u)) (noise H T (row_of P) u n pos).
Proof.
  intros Hu. unfold noise, noise_vec. cbn [row_of r_rep r_d r_kappa]. rewrite !Nat2Z.id. apply Forall_map, Forall_forall. intros row _.
  unfold noise_poly. exists (map (fun k => noise_coef H T u (Z.to_nat (p_kappa P / 8)) (p_rep P) (p_d P) row (pos + row * (p_rep P * p_d P * Z.to_nat (p_kappa P / 8))) k) (seq 0 512)).
  split; [rewrite map_length; apply seq_length|]. split; [unfold to_ring; rewrite map_map; reflexivity|].
  apply Forall_map, Forall_forall. intros k _. apply Z.abs_le. apply noise_coef_bound. exact Hu.
Qed.

Lemma generate_spec O fuel P seed tp : params_ok P = true -> Forall is_byte seed -> length seed = Z.to_nat (p_kappa P / 8) ->
  wp (sk_generate O fuel P seed tp)
    (fun sk => pk_seed (sk_pkey sk) = seed /\
       valid_public (Z.to_nat (p_kappa P / 8)) (p_k P) (pk_seed (sk_pkey sk)) (pk_t (sk_pkey sk)) /\
       masked_vec (p_l P) (p_d P) (sk_s sk) /\
       exists A, public_matrix (hash_of O) seed (p_k P) (p_l P) A /\
         let s := noise (hash_of O) (tape_of tp) (row_of P) (p_ut P) (p_l P) 0 in
         let e := noise (hash_of O) (tape_of tp) (row_of P) (p_ut P) (p_k P) (p_l P * row_bytes (row_of P)) in
         map unmask (sk_s sk) = map transform s /\
         rows1 (pk_t (sk_pkey sk)) = map (round_poly (p_nut P)) (zipw ring_add (ring_matvec A s) e) /\
         Forall (bounded_by (noise_bound_of P (p_ut P))) s /\ Forall (bounded_by (noise_bound_of P (p_ut P))) e).
Proof.
  intros HP Bs Ls. destruct (params_facts P HP) as (kb & e & F).
  pose proof (pf_d _ _ _ F) as Ed. pose proof (pf_ut _ _ _ F) as Hut. pose proof (pf_k _ _ _ F) as Hk. pose proof (pf_l _ _ _ F) as Hl.
  assert (P2 : pow2 (p_d P)) by (exists e; exact Ed).
  destruct (noise_polys (hash_of O) (tape_of tp) (row_of P) (p_ut P) (p_l P) 0) as [Fs Lns].
  destruct (noise_polys (hash_of O) (tape_of tp) (row_of P) (p_ut P) (p_k P) (p_l P * row_bytes (row_of P))) as [Fe Le].
  pose proof (noise_bounded (hash_of O) (tape_of tp) P (p_ut P) (p_l P) 0 ltac:(lia)) as Bns.
  pose proof (noise_bounded (hash_of O) (tape_of tp) P (p_ut P) (p_k P) (p_l P * row_bytes (row_of P)) ltac:(lia)) as Bne.
  set (s := noise (hash_of O) (tape_of tp) (row_of P) (p_ut P) (p_l P) 0) in *.
  set (e0 := noise (hash_of O) (tape_of tp) (row_of P) (p_ut P) (p_k P) (p_l P * row_bytes (row_of P))) in *.
  unfold sk_generate. cbv zeta. change (prng_new tp) with (Prng tp 0).
  apply wp_bind. refine (wp_mono _ _ _ (expandA_ok O fuel (p_k P) (p_l P) seed ltac:(lia) ltac:(lia)) _). intros A [LA UA].
  destruct (ring_mat_public O seed (p_k P) (p_l P) A LA UA) as [HA PM].
  apply wp_bind. refine (wp_mono _ _ _ (pv_zero_encoding_ok O fuel (p_l P) (p_d P) (mrng_new O (p_d P)) P2) _). intros [r0 m0] [R1 R2]. cbn [fst snd] in *.
  apply wp_bind. refine (wp_mono _ _ _ (add_noise O fuel P [] [] [] tp [] HP (p_ut P) (p_l P) r0 0%nat m0 ltac:(lia) ltac:(lia) R1) _). intros [[r1 pr] m1] (R3 & R4 & R5). cbn [fst snd] in *. subst pr.
  fold s in R5. rewrite R2 in R5. rewrite <- Lns in R5 at 1. rewrite add_zeros in R5 by exact Fs.
  pose proof (pv_ntt_ok _ _ _ R3) as R6. pose proof (pv_unmask_ntt _ _ _ R3) as R7. rewrite R5 in R7.
  destruct (mat_mul_ok _ _ (p_d P) A (pv_ntt r1) HA (pv_ok_w _ _ _ R6)) as [M1 _].
  pose proof (pv_intt_ok _ _ _ M1) as M2. pose proof (mat_mul_intt _ _ (p_d P) A (pv_ntt r1) HA R6) as M3. rewrite R7 in M3.
  assert (E0 : map intt (map ntt s) = s).
  { rewrite map_map. apply map_id_in. intros p Hp. rewrite Forall_forall in Fs. apply intt_ntt, Fs, Hp. }
  rewrite E0 in M3. rewrite Nat.add_0_l.
  apply wp_bind. refine (wp_mono _ _ _ (add_noise O fuel P [] [] [] tp [] HP (p_ut P) (p_k P) _ (p_l P * row_bytes (row_of P))%nat m1 ltac:(lia) ltac:(lia) M2) _).
  intros [[w1 pr] m2] (W1 & W2 & W3). cbn [fst snd] in *. subst pr. fold e0 in W3. rewrite M3, <- zipw_map2 in W3. cbn [wp].
  rewrite (pf_nut _ _ _ F).
  assert (EW : pv_rounding_shr 42 (pv_decode w1) = one (map (round_poly 42) (zipw ring_add (ring_matvec (ring_mat (p_k P) (p_l P) A) s) e0))).
  { rewrite (decode_one _ _ _ W1), one_round, W3. f_equal. apply map_ext_in. intros p Hp.
    unfold round_poly. apply poly_rounding_shr_spec; [lia|]. rewrite <- W3 in Hp. pose proof (unmask_polys w1) as X. rewrite Forall_forall in X. apply X, Hp. }
  cbn [sk_pkey sk_s pk_seed pk_t]. rewrite EW. set (tt := map (round_poly 42) _) in *.
  assert (Rt : rows1 (one tt) = tt) by (unfold rows1, one; rewrite map_map; cbn [nth]; apply map_id).
  split; [reflexivity|]. split; [split; [exact Ls|split; [exact Bs|]]|].
  - split.
    + rewrite one_length. unfold tt. rewrite map_length, <- W3, map_length. apply W1.
    + unfold one. apply Forall_map, Forall_forall. intros p Hp. exists p. split; [reflexivity|]. unfold tt in Hp. rewrite <- W3 in Hp. apply in_map_iff in Hp.
      destruct Hp as (p0 & <- & Hp0). pose proof (unmask_polys w1) as X. rewrite Forall_forall in X. destruct (X p0 Hp0) as [Lp _]. unfold round_poly.
      split; [rewrite map_length; exact Lp|]. apply Forall_map, Forall_forall. intros x _.
      assert (Q42 : q / 2 ^ 42 = 125) by (rewrite q_Q, Q_val; reflexivity). pose proof (round_shift_range 42 x ltac:(lia)) as G. rewrite Q42 in G. lia.
  - split; [exact R6|]. exists (ring_mat (p_k P) (p_l P) A). split; [exact PM|]. split; [|split; [exact Rt|split; [exact Bns|exact Bne]]].
    rewrite R7. apply map_ext_in. intros p Hp. rewrite Forall_forall in Fs. symmetry. apply transform_ntt, Fs, Hp.
Qed.
