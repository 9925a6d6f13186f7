(* Property theorems about what an observer of values inside key generation and signing learns. *)
From Coq Require Import ZArith List Bool Lia.
From Verif Require Import ModelBase ModelU128 ModelField ModelUtils ModelPoly ModelVec ModelSerial ModelScheme.
From Verif Require Import Spec SpecScheme SpecVerify SpecMask SpecProbe SpecNoiseProbe SpecSchemeProbe.
From Verif Require Import Words FieldProofs ArithLemmas BytesProofs PolyProofs NttProofs Cong MaskedProofs LinProofs PolyLemmas MaskedLemmas SampleProofs ParamProofs FinProofs SigEnc SchemeCore MaskUniform MaskProg ProbeProofs ProbeProg NoiseProbe NoiseFull NoiseRun ProbeLin LweProbe LweAdd LweRun ExGood KeyLemmas VerifyProofs SignProofs.
Import ListNotations.
Open Scope Z_scope.

(* C65, the program: the shares held by key generation between its steps, the secret key it returns and the
   public vector it returns are those of SpecSchemeProbe.v, with the noise read from the random tape and the
   masks drawn from the generators, one zero sharing or refreshing after the other.  (The values inside each
   noise addition and refreshing are given by C64_noise_values and C63_refresh_values.) *)
Theorem C65_keygen_values : forall O fuel P seed tp sk, params_ok P = true -> sk_generate O fuel P seed tp = Ok sk ->
  exists e A M, p_d P = (2 ^ e)%nat /\ public_matrix (hash_of O) seed (p_k P) (p_l P) A /\ matrix_ok (p_k P) (p_l P) A /\ masks_ok e (p_rep P) (p_l P) (p_k P) M /\
  let kb := kbytes (p_kappa P) in let rep := p_rep P in let l := p_l P in let k := p_k P in let rb := (rep * p_d P * kb)%nat in
  let N := stream_noise (hash_of O) (tape_of tp) (p_ut P) kb rep (p_d P) l 0 in
  let start := map (start_row e M) (seq 0 l) in let secret := map (secret_row e rep N M) (seq 0 l) in
  let prod := map (product_row e l A (secret_row e rep N M)) (seq 0 k) in let sample := map (sample_row e l rep A N M) (seq 0 k) in
  (exists Ah m0 m1 m2, expandA O fuel k l seed = Ok Ah /\
     pv_zero_encoding O fuel l (p_d P) (mrng_new O (p_d P)) = Ok (start, m0) /\
     pv_add_rep_noise O fuel (p_ut P) rep (p_kappa P) (p_d P) start (Prng tp 0) m0 = Ok (secret, Prng tp (l * rb), m1) /\
     pv_intt (mat_mul k l (p_d P) Ah (pv_ntt secret)) = prod /\
     pv_add_rep_noise O fuel (p_ut P) rep (p_kappa P) (p_d P) prod (Prng tp (l * rb)) m1 = Ok (sample, Prng tp ((l + k) * rb), m2) /\
     drawn_rows O fuel e (mrng_new O (p_d P)) (sample_masks rep l k M) m2) /\
  noise_ok e rep l k N /\
  sk_s sk = map (map transform) secret /\ rows1 (pk_t (sk_pkey sk)) = map (round_poly (p_nut P)) (map unmask sample).
Proof.
  intros O fuel P seed tp sk HP E. destruct (params_facts P HP) as (kb0 & e & F).
  pose proof (pf_d _ _ _ F) as Ed. pose proof (pf_ut _ _ _ F) as Hut. pose proof (pf_k _ _ _ F) as Hk. pose proof (pf_l _ _ _ F) as Hl.
  unfold sk_generate in E. cbv zeta in E. apply bind_ok_inv in E. destruct E as (Ah & EA & E). apply bind_ok_inv in E. destruct E as ([s0 m0] & E0 & E).
  apply bind_ok_inv in E. destruct E as ([[s1 p1] m1] & E1 & E). apply bind_ok_inv in E. destruct E as ([[t p2] m2] & E2 & E). apply ok_inj in E. subst sk. cbn [sk_s sk_pkey pk_t].
  destruct (wp_Ok _ _ _ (expandA_ok O fuel (p_k P) (p_l P) seed ltac:(lia) ltac:(lia)) EA) as [LA UA].
  destruct (ring_mat_public O seed (p_k P) (p_l P) Ah LA UA) as [HA PM].
  assert (Hd : (2 ^ e <= 256)%nat) by (rewrite <- Ed; clear - HP; destruct (params_ok_cases P HP) as (d & Id & C); cbn [dvals In] in Id; destruct C as [->|[->| ->]]; cbn [p_d raccoon128_params raccoon192_params raccoon256_params]; lia).
  assert (Hrep : (p_rep P <= 256)%nat) by (clear - HP; destruct (params_ok_cases P HP) as (d & Id & C); cbn [dvals In] in Id; destruct C as [->|[->| ->]]; repeat (destruct Id as [<-|Id]; [apply Nat.leb_le; vm_compute; reflexivity|]); contradiction).
  change (prng_new tp) with (Prng tp 0) in E1. rewrite Ed in *.
  destruct (lwe_run O fuel (p_ut P) (p_kappa P) e (p_rep P) (p_k P) (p_l P) Ah tp 0 (mrng_new O (2 ^ e)) s0 m0 s1 p1 m1 t p2 m2 ltac:(lia) Hd ltac:(lia) ltac:(lia) Hrep HA E0 E1 E2)
    as (M & HM & DM & ES0 & ES1 & EPR & ET & Ep1 & Ep2).
  rewrite Nat.add_0_l in Ep1, Ep2. subst p1 p2.
  exists e, (ring_mat (p_k P) (p_l P) Ah), M. split; [reflexivity|]. split; [exact PM|]. split; [exact (conj (proj1 PM) (proj1 (proj2 PM)))|]. split; [exact HM|]. cbv zeta.
  set (N := stream_noise (hash_of O) (tape_of tp) (p_ut P) (kbytes (p_kappa P)) (p_rep P) (2 ^ e) (p_l P) 0) in *.
  split; [|split; [|split]].
  - exists Ah, m0, m1, m2. split; [exact EA|]. split; [rewrite <- ES0; exact E0|]. split; [rewrite <- ES0, <- ES1; exact E1|]. split; [rewrite <- ES1; exact EPR|]. split; [rewrite <- EPR, <- ET; exact E2|exact DM].
  - split; intros; apply noise_family_masked.
  - rewrite ES1. unfold pv_ntt, mp_ntt. rewrite !map_map. apply map_ext_in. intros j _. apply map_ext_in. intros y Hy. symmetry. apply transform_ntt.
    pose proof (secret_row_masked e (p_rep P) N M j) as [_ FS]. rewrite Forall_forall in FS. apply FS, Hy.
  - rewrite (pf_nut _ _ _ F). unfold rows1, pv_rounding_shr, pv_decode, mp_rounding_shr. rewrite ET, !map_map. apply map_ext_in. intros i _. cbn [map nth].
    pose proof (sample_row_masked e (p_l P) (p_rep P) (ring_mat (p_k P) (p_l P) Ah) N M i) as Ms. rewrite (mp_decode_unmask (2 ^ e) _ Ms). apply poly_rounding_shr_spec; [lia|apply unmask_poly].
Qed.
Print Assumptions C65_keygen_values.

(* C65: an observer of fewer than 2^e of the values inside key generation (or the commitment step of signing),
   who in addition sees ALL shares of the result A * secret + error (so the public key), learns at most as many
   of the noise polynomials as there are observed values (the sets U, V), and otherwise only the result: every
   change N' of the noise that is zero on U, V and leaves the unmasked result as it is, is compensated by a
   change M' of the masks, the same for all noise and masks, that leaves all observed values and all result
   shares as they are.  The changes of masks are permutations. *)
Theorem C65_keygen_probing : forall e l k rep A (W : list lwire), (0 < rep)%nat -> matrix_ok k l A -> Forall (lwire_ok e rep l k) W -> (length W < 2 ^ e)%nat ->
  exists U V : list (nat * nat * nat), (length U + length V <= length W)%nat /\
  forall N', noise_ok e rep l k N' -> zero_terms (n_s N') U -> zero_terms (n_e N') V -> (forall i, (i < k)%nat -> sample_total l rep A N' i = ring_zero) ->
  exists M', masks_ok e rep l k M' /\
  (forall M'', masks_ok e rep l k M'' -> exists M, masks_ok e rep l k M /\ (forall j, (j < l)%nat -> m_zero (masks_plus M M') j = m_zero M'' j) /\
     (forall j i, (j < l)%nat -> (i < rep)%nat -> m_s (masks_plus M M') j i = m_s M'' j i) /\ (forall j i, (j < k)%nat -> (i < rep)%nat -> m_e (masks_plus M M') j i = m_e M'' j i)) /\
  forall N M, noise_ok e rep l k N -> masks_ok e rep l k M ->
    (forall w, In w W -> lwire_value e l rep A (noise_plus N N') (masks_plus M M') w = lwire_value e l rep A N M w) /\
    (forall i, (i < k)%nat -> sample_row e l rep A (noise_plus N N') (masks_plus M M') i = sample_row e l rep A N M i).
Proof.
  intros e l k rep A W Hr HA FW HL. destruct (lwe_probe e l k rep A W Hr HA FW HL) as (U & V & LUV & H). exists U, V. split; [exact LUV|].
  intros N' HN' ZU ZV TOT. destruct (H N' HN' ZU ZV TOT) as (M' & HM' & HD). exists M'. split; [exact HM'|]. split; [|exact HD].
  intros M'' HM''. apply masks_onto; assumption.
Qed.
Print Assumptions C65_keygen_probing.

(* four shares, a 1 x 2 matrix, two repetitions: three values, one of them a share of the whole secret *)
Example C65_nonvacuous :
  let W := [lw_share 1; lw_secret 0 (nw_noise 1 2); lw_error 0 (nw_refresh 0 (wire_acc 2 3))] in
  let A := [[repeat 3 512; repeat 5 512]] in
  matrix_ok 1 2 A /\ Forall (lwire_ok 2 2 2 1) W /\ (length W < 2 ^ 2)%nat /\
  (* the share of the secret really contains the noise of both repetitions *)
  let N := LNoise (fun j i => map (fun kk => repeat (Z.of_nat (10 * j + 5 * i + kk)) 512) (seq 1 4)) (fun _ _ => repeat ring_zero 4) in
  let M := LMasks (fun _ => repeat ring_zero 4) (fun _ _ => repeat ring_zero 4) (fun _ _ => repeat ring_zero 4) in
  noise_ok 2 2 2 1 N /\ masks_ok 2 2 2 1 M /\ map (fun p => coef p 7) (lwire_value 2 2 2 A N M (lw_share 1)) = [2 + 7; 12 + 17].
Proof.
  assert (R : forall z, 0 <= z < 100 -> is_poly (repeat z 512)).
  { intros z Hz. split; [apply repeat_length|]. apply Forall_forall. intros y Hy. apply repeat_spec in Hy. subst y. unfold reduced. rewrite q_Q, Q_val. lia. }
  assert (Z0 : is_poly ring_zero) by apply ring_zero_poly.
  assert (ZT : mask_tuple 2 (repeat ring_zero 4)).
  { split; [reflexivity|]. apply Forall_forall. intros y Hy. apply repeat_spec in Hy. subst y. exact Z0. }
  assert (ZM : masked (2 ^ 2) (repeat ring_zero 4)).
  { split; [reflexivity|]. apply Forall_forall. intros y Hy. apply repeat_spec in Hy. subst y. exact Z0. }
  intros W A. split; [|split; [|split; [apply Nat.ltb_lt; reflexivity|]]].
  - split; [reflexivity|]. constructor; [|constructor]. split; [reflexivity|]. constructor; [apply R; lia|]. constructor; [apply R; lia|constructor].
  - constructor; [apply Nat.ltb_lt; reflexivity|]. constructor; [split; [apply Nat.ltb_lt; reflexivity|split; apply Nat.ltb_lt; reflexivity]|]. constructor; [|constructor].
    split; [apply Nat.ltb_lt; reflexivity|]. split; [apply Nat.ltb_lt; reflexivity|]. split; [apply Nat.leb_le; reflexivity|apply Nat.ltb_lt; reflexivity].
  - intros N M. split; [|split].
    + split; [|intros; exact ZM]. intros j i Hj Hi. split; [reflexivity|]. unfold N. cbn [n_s]. apply Forall_forall. intros y Hy. apply in_map_iff in Hy. destruct Hy as (kk & <- & Hk). apply in_seq in Hk. apply R. lia.
    + split; [intros; exact ZT|]. split; intros; exact ZT.
    + vm_compute. reflexivity.
Qed.
