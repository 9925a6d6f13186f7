(* Signing: every attempt satisfies the signing equations; the first acceptable attempt is returned. *)
From Coq Require Import ZArith Lia Bool List Arith.
From Coq Require Import ZifyBool ZifyNat.
From Verif Require Import ModelBase ModelU128 ModelField ModelUtils ModelPoly ModelVec ModelSerial ModelScheme.
From Verif Require Import Spec SpecScheme SpecSig SpecVerify SpecEnc.
From Verif Require Import Words FieldProofs ArithLemmas BytesProofs PolyProofs NttLayers NttProofs Cong NttEval NttBounds MaskedProofs LinProofs SampleProofs NoiseProofs PolyLemmas MaskedLemmas.
From Verif Require Import ParamProofs KeyLemmas PackProofs FinProofs SigEnc EncExact SigDec SigDec2 SigLemmas NormProofs SchemeCore VerifyProofs.
Import ListNotations.
Open Scope Z_scope.
Ltac Zify.zify_post_hook ::= idtac.

(* result satisfies P; undefined behaviour implies U; running out of fuel implies F *)
Definition wpx {A} (r : res A) (P : A -> Prop) (U F : Prop) : Prop :=
  match r with Ok a => P a | UB => U | OutOfFuel => F end.
Lemma wpx_bind {A B} (m : res A) (f : A -> res B) P U F : wpx m (fun a => wpx (f a) P U F) U F -> wpx (bind m f) P U F.
Proof. destruct m; exact (fun H => H). Qed.
Lemma wp_x {A} (m : res A) (R P : A -> Prop) (U F : Prop) : wp m R -> (m = OutOfFuel -> F) -> (forall a, m = Ok a -> R a -> P a) -> wpx m P U F.
Proof. destruct m; cbn [wp wpx]; intros H X G; [apply G; [reflexivity|exact H]|destruct H|apply X; reflexivity]. Qed.
(* with a side condition g under which m finishes and T holds of the result *)
Lemma wp_g {A} (g : Prop) (m : res A) (R T P : A -> Prop) (U F : Prop) : wp m R -> (g -> fn m T) -> (g \/ F) ->
  (forall a, m = Ok a -> R a -> (g -> T a) -> P a) -> wpx m P U F.
Proof.
  intros H X D G. apply (wp_x m (fun a => R a /\ (g -> T a))).
  - destruct m as [a| |]; cbn [wp fn] in *; [split; assumption|exact H|exact Logic.I].
  - intros E. destruct D as [D|D]; [|exact D]. specialize (X D). rewrite E in X. destruct X.
  - intros a E [Ha Ta]. apply G; assumption.
Qed.

Lemma fn_if {A} (b : bool) (x y : res A) P : fn x P -> fn y P -> fn (if b then x else y) P.
Proof. destruct b; auto. Qed.
Ltac fnt := cbv beta zeta; repeat first [ lazymatch goal with |- fn (Ok _) _ => exact Logic.I | |- fn UB _ => exact Logic.I end | apply fn_bind; apply (fn_mono _ (fun _ => True)); [|intros ? _] | apply fn_if
  | match goal with |- fn (match ?x with pair _ _ => _ end) _ => destruct x end ].
Lemma enc_loop_fuel put siglen : (forall st x, fn (put st x) (fun _ => True)) -> forall xs st, fn (enc_loop put siglen xs st) (fun _ => True).
Proof.
  intros Hp. induction xs as [|x xs IH]; intros st; [exact Logic.I|]. cbn [enc_loop].
  unfold enc_flush, put_le, subspan, write_at, shr_chk. fnt; [apply Hp|apply IH].
Qed.
Lemma encode_sig_fuel c h z sig : encode_sig c h z sig <> OutOfFuel.
Proof.
  apply (fn_ok _ (fun _ => True)). unfold encode_sig, write_at at 1. cbv zeta. fnt.
  - apply enc_loop_fuel. intros st x. unfold enc_put_h, abs_chk, shl_chk. fnt.
  - apply enc_loop_fuel. intros st x. unfold enc_put_z, abs_chk, shl_chk. fnt.
Qed.
Lemma noise_poly_is H T u kb rep d row pos : is_poly (noise_poly H T u kb rep d row pos).
Proof. apply (is_poly_map (fun k => noise_coef H T u kb rep d row pos k)). Qed.
Lemma noise_polys H T p u n pos : Forall is_poly (noise H T p u n pos) /\ length (noise H T p u n pos) = n.
Proof.
  unfold noise, noise_vec. split; [apply Forall_map, Forall_forall; intros; apply noise_poly_is|]. rewrite map_length. apply seq_length.
Qed.
Lemma add_zeros v : Forall is_poly v -> map2 ring_add (repeat ring_zero (length v)) v = v.
Proof.
  induction 1 as [|p v Hp Hv IH]; [reflexivity|]. cbn [length repeat map2]. rewrite IH, ring_add_comm, ring_add_zero by exact Hp. reflexivity.
Qed.
Lemma sub_mod_row a b : length a = 512%nat -> length b = 512%nat -> Forall (fun x => 0 <= x < 31) a -> Forall (fun x => 0 <= x < 31) b ->
  poly_sub_mod 31 a b = sub_mod_poly 31 a b.
Proof.
  intros La Lb Fa Fb. unfold poly_sub_mod, sub_mod_poly. rewrite (map2_seq _ _ _ 512 0 0) by assumption.
  apply map_ext_in. intros i Hi. apply in_seq in Hi. unfold coef. rewrite Forall_forall in Fa, Fb.
  apply sub_mod_coeff; [change (2 ^ 62) with 4611686018427387904; lia|apply Fa, nth_In; lia|apply Fb, nth_In; lia].
Qed.
Definition small31 (p : list Z) : Prop := length p = 512%nat /\ Forall (fun x => 0 <= x < 31) p.
Lemma sub_mod_rows a : forall b, Forall small31 a -> Forall small31 b ->
  pv_sub_mod 31 (one a) (one b) = one (zipw (sub_mod_poly 31) a b).
Proof.
  intros b Fa Fb. unfold pv_sub_mod, mp_sub_mod. rewrite one_map2. f_equal. rewrite zipw_map2. revert b Fb.
  induction Fa as [|p a [Lp Fp] Fa IH]; intros b Fb; [reflexivity|]. destruct Fb as [|p' b [Lp' Fp'] Fb]; [reflexivity|]. cbn [map2].
  rewrite sub_mod_row, IH by assumption. reflexivity.
Qed.
Lemma sub_mod_small a b : Forall small31 (zipw (sub_mod_poly 31) a b).
Proof.
  unfold zipw. apply Forall_map, Forall_forall. intros (x & y) _. unfold sub_mod_poly. split; [rewrite map_length; apply seq_length|].
  apply Forall_map, Forall_forall. intros i _. apply Z.mod_pos_bound. lia.
Qed.
Lemma round_small v : Forall is_poly v -> Forall small31 (map (round_poly 44) v).
Proof.
  intros F. apply Forall_map. refine (Forall_impl _ _ F). intros p [Lp _]. unfold round_poly. split; [rewrite map_length; exact Lp|].
  apply Forall_map, Forall_forall. intros x _. rewrite <- (proj2 hint_modulus). apply round_shift_range. lia.
Qed.
Lemma concat_len512 (l : list (list Z)) k : length l = k -> Forall (fun p => length p = 512%nat) l -> length (concat l) = (k * 512)%nat.
Proof. intros L F. rewrite (concat_len _ 512 F), L. reflexivity. Qed.
Lemma make_flat m v : 0 < m <= 2 ^ 62 -> Forall (Forall (fun x => 0 <= x < m)) v ->
  concat (map (fun row => poly_center m (nth 0 row [])) (one v)) = concat (map (map (centered m)) v).
Proof.
  intros Hm F. f_equal. unfold one. rewrite map_map. cbn [nth]. apply map_ext_in. intros p Hp. rewrite Forall_forall in F. specialize (F p Hp).
  unfold poly_center. apply map_ext_in. intros x Hx. rewrite Forall_forall in F. apply center_coeff_spec; [exact Hm|apply F, Hx].
Qed.
Lemma polys_reduced v : Forall is_poly v -> Forall (Forall (fun x => 0 <= x < Q)) v.
Proof. intros F. refine (Forall_impl _ _ F). intros p [_ Fp]. refine (Forall_impl _ _ Fp). intros x Hx. unfold reduced in Hx. rewrite <- q_Q. exact Hx. Qed.
Lemma map2_Forall_r {A B C} (f : A -> B -> C) (R : C -> Prop) a : (forall x y, R (f x y)) -> forall b, Forall R (map2 f a b).
Proof. intros H. induction a as [|x a IH]; intros [|y b]; constructor; [apply H|apply IH]. Qed.
Lemma centered_rows_range m v : 0 < m -> Forall (fun x => - (m / 2) <= x <= (m - 1) / 2) (concat (map (map (centered m)) v)).
Proof.
  intros Hm. apply Forall_concat, Forall_map, Forall_forall. intros p _. apply Forall_map, Forall_forall. intros x _. apply centered_range, Hm.
Qed.

Section Sign.
Variables (O : oracles) (wfuel : nat) (P : params) (A : pmat) (t : pvec) (mu : list Z) (tp : nat -> byte) (s0 : list (list Z)).
Hypothesis HP : params_ok P = true.
Hypothesis HA : mat_ok (p_k P) (p_l P) A.
Hypothesis Ht : public_vec (p_k P) t.
Let Ar := ring_mat (p_k P) (p_l P) A.
(* unmasked secret in the ring *)
Let sr := map intt s0.
Let att := sign_attempt (hash_of O) (tape_of tp) (row_of P) Ar (rows1 t) sr mu.
Let step := ((p_l P + p_k P) * row_bytes (row_of P))%nat.

Lemma row_bytes_eq : row_bytes (row_of P) = (p_rep P * p_d P * Z.to_nat (p_kappa P / 8))%nat.
Proof. unfold row_bytes. cbn [row_of r_rep r_d r_kappa]. rewrite !Nat2Z.id. reflexivity. Qed.
Lemma add_noise u rows v pos m : 1 <= u <= 48 -> (rows <= 256)%nat -> pv_ok rows (p_d P) v ->
  wp (pv_add_rep_noise O wfuel u (p_rep P) (p_kappa P) (p_d P) v (Prng tp pos) m)
     (fun r => pv_ok rows (p_d P) (fst (fst r)) /\ snd (fst r) = Prng tp (pos + rows * row_bytes (row_of P)) /\
        map unmask (fst (fst r)) = map2 ring_add (map unmask v) (noise (hash_of O) (tape_of tp) (row_of P) u rows pos)).
Proof.
  intros Hu Hr Hv. destruct (params_facts P HP) as (kb & e & F). rewrite row_bytes_eq. unfold noise. cbn [row_of r_rep r_d r_kappa]. rewrite !Nat2Z.id.
  pose proof (pf_d _ _ _ F) as Ed. pose proof (pf_e _ _ _ F) as He. pose proof (pf_rep _ _ _ F) as Hrep. pose proof (pf_repd _ _ _ F) as Hrd.
  assert (P2 : pow2 (p_d P)) by (exists e; exact Ed).
  assert (Hd : (p_d P <= 256)%nat). { destruct (p_rep P); [lia|]. nia. }
  apply (pv_add_rep_noise_ok O wfuel u (p_kappa P) (p_d P) Hu Hd (p_rep P) rows v tp pos m Hr ltac:(lia) P2 Hv).
Qed.
(* the signature computed by one iteration of the loop *)
Definition att_result (n : nat) (c cp : list Z) (sg : sig_t) : Prop :=
  sg_c sg = c /\ att n c cp (sg_h sg) (sg_z sg) /\ length (sg_h sg) = (p_k P * 512)%nat /\ length (sg_z sg) = (p_l P * 512)%nat /\
  length c = kbytes (2 * p_kappa P) /\ Forall is_byte c /\
  Forall (fun x => - two63 < x < two63) (sg_h sg) /\ Forall (fun x => - (q / 2) <= x <= q / 2) (sg_z sg).

Let rn n := noise (hash_of O) (tape_of tp) (row_of P) (p_uw P) (p_l P) (n * step).
Let en n := noise (hash_of O) (tape_of tp) (row_of P) (p_uw P) (p_k P) (n * step + p_l P * row_bytes (row_of P)).
Let wn n := map (round_poly 44) (zipw ring_add (ring_matvec Ar (rn n)) (en n)).
Let zr n cp := zipw ring_add (map (fun si => ring_mul si cp) sr) (rn n).
Lemma zhat_ring cp zh r : is_poly cp -> Forall is_poly s0 -> Forall is_poly r ->
  zh = map2 ring_add (map (fun p => pw_mul p (ntt cp)) s0) (map ntt r) ->
  map intt zh = zipw ring_add (map (fun si => ring_mul si cp) sr) r.
Proof.
  intros Hc Fs Fr ->. rewrite (map2_F_sub intt ring_add ring_add intt_ring_add).
  - rewrite zipw_map2. f_equal.
    + unfold sr. rewrite !map_map. apply map_ext_in. intros p Hp. rewrite Forall_forall in Fs. rewrite intt_pw_mul; [|apply Fs, Hp|apply ntt_poly, Hc].
      rewrite intt_ntt by exact Hc. reflexivity.
    + rewrite map_map. apply map_id_in. intros p Hp. rewrite Forall_forall in Fr. apply intt_ntt, Fr, Hp.
  - apply Forall_map, Forall_forall. intros p _. apply pw_mul_poly.
  - apply Forall_map. refine (Forall_impl _ _ Fr). exact ntt_poly.
Qed.
Lemma decode_one k d v : pv_ok k d v -> pv_decode v = one (map unmask v).
Proof. intros H. rewrite (pv_decode_unmask k d) by exact H. unfold one. rewrite map_map. reflexivity. Qed.
Lemma unmask_polys (v : list (list (list Z))) : Forall is_poly (map unmask v).
Proof. apply Forall_map, Forall_forall. intros row _. apply unmask_poly. Qed.

(* challenge hash of attempt n *)
Let cn n := challenge_value (hash_of O) (kbytes (2 * p_kappa P)) (wn n) mu.
(* the inner rejection loops of attempts 0..N finish *)
Definition inner_fin (N : nat) : Prop := good_mask O wfuel (p_d P) /\ forall i, (i <= N)%nat -> chal_poly O wfuel (p_omega P) (cn i) <> OutOfFuel.
Lemma inner_fin_intro N : good_mask O wfuel (p_d P) ->
  (forall i, (i <= N)%nat -> exists c cp h z, att i c cp h z /\ chal_poly O wfuel (p_omega P) c <> OutOfFuel) -> inner_fin N.
Proof.
  intros G H. split; [exact G|]. intros i Hi. destruct (H i Hi) as (c & cp & h & z & AT & E).
  destruct (params_facts P HP) as (kb & e & F). unfold att, sign_attempt in AT. cbn [row_of r_k r_l r_omega r_nuw r_uw r_nut r_kappa] in AT. rewrite !Nat2Z.id, (pf_nuw _ _ _ F), (pf_nut _ _ _ F) in AT.
  fold step in AT. fold (rn i) (en i) (wn i) in AT. destruct AT as (Ec & _). cbv zeta in Ec. idtac. replace (cn i) with c by (exact Ec). exact E.
Qed.
Lemma sign_iter {KT : Type} (K : sig_t -> pvec -> prng -> mrng -> res KT) (R : KT -> Prop) (U FF IG : Prop) s n m :
  (IG -> good_mask O wfuel (p_d P)) -> (IG -> chal_poly O wfuel (p_omega P) (cn n) <> OutOfFuel) ->
  pv_w (p_l P) (p_d P) s -> map unmask s = s0 -> (IG \/ FF) -> (IG -> orbit O (p_d P) m) ->
  (forall sg s' m' c cp, att_result n c cp sg -> chal_poly O wfuel (p_omega P) c = Ok cp -> pv_w (p_l P) (p_d P) s' -> map unmask s' = s0 ->
     (IG -> orbit O (p_d P) m') ->
     wpx (K sg s' (Prng tp (S n * step)) m') R U FF) ->
  wpx ('(r, m) <- pv_zero_encoding O wfuel (p_l P) (p_d P) m ;;
      '(r, prng, m) <- pv_add_rep_noise O wfuel (p_uw P) (p_rep P) (p_kappa P) (p_d P) r (Prng tp (n * step)) m ;;
      let r := pv_ntt r in
      let w := pv_intt (mat_mul (p_k P) (p_l P) (p_d P) A r) in
      '(w, prng, m) <- pv_add_rep_noise O wfuel (p_uw P) (p_rep P) (p_kappa P) (p_d P) w prng m ;;
      let w' := pv_rounding_shr (p_nuw P) (pv_decode w) in
      let c_hash := chal_hash O (p_kappa P) (p_k P) w' mu in
      c <- chal_poly O wfuel (p_omega P) c_hash ;;
      let c := ntt c in
      '(s, m) <- pv_refresh O wfuel (p_d P) s m ;;
      '(r, m) <- pv_refresh O wfuel (p_d P) r m ;;
      let z := pv_add (pv_mul_poly s c) r in
      '(z, m) <- pv_refresh O wfuel (p_d P) z m ;;
      let z' := pv_decode z in
      let y := pv_sub (mat_mul (p_k P) (p_l P) 1 A z') (pv_mul_poly (pv_ntt (pv_shl (p_nut P) t)) c) in
      let y := pv_intt y in
      let z' := pv_intt z' in
      let y := pv_rounding_shr (p_nuw P) y in
      let h := pv_sub_mod (shr64 Q (p_nuw P)) w' y in
      let sg := sig_make (p_nuw P) c_hash h z' in
      K sg s prng m) R U FF.
Proof.
  intros GM GC Hs Es HG Hm HK. destruct (params_facts P HP) as (kb & e & F).
  pose proof (pf_d _ _ _ F) as Ed. pose proof (pf_uw _ _ _ F) as Huw. pose proof (pf_k _ _ _ F) as Hk. pose proof (pf_l _ _ _ F) as Hl. pose proof (pf_omega _ _ _ F) as Ho.
  assert (P2 : pow2 (p_d P)) by (exists e; exact Ed).
  assert (Fs0 : Forall is_poly s0) by (rewrite <- Es; apply unmask_polys).
  destruct (noise_polys (hash_of O) (tape_of tp) (row_of P) (p_uw P) (p_l P) (n * step)) as [Frn Lrn]. fold (rn n) in Frn, Lrn.
  destruct (noise_polys (hash_of O) (tape_of tp) (row_of P) (p_uw P) (p_k P) (n * step + p_l P * row_bytes (row_of P))) as [Fen Len]. fold (en n) in Fen, Len.
  apply wpx_bind. apply (wp_g _ _ _ _ _ _ _ (pv_zero_encoding_ok O wfuel (p_l P) (p_d P) m P2) (fun g => pv_zero_encoding_fin O wfuel _ (GM g) _ _ P2 (Hm g)) HG). intros [r0 m0] _ [R1 R2] Hm0. unfold orb in Hm0. cbn [fst snd] in *.
  apply wpx_bind. apply (wp_g _ _ _ _ _ _ _ (add_noise (p_uw P) (p_l P) r0 (n * step)%nat m0 ltac:(lia) ltac:(lia) R1) (fun g => pv_add_rep_noise_fin O wfuel _ (GM g) _ _ _ _ _ _ P2 (Hm0 g)) HG). intros [[r1 pr] m1] _ (R3 & R4 & R5) Hm1. unfold orb in Hm1. cbn [fst snd] in *. subst pr.
  fold (rn n) in R5. rewrite R2 in R5. rewrite <- Lrn in R5 at 1. rewrite add_zeros in R5 by exact Frn.
  pose proof (pv_ntt_ok _ _ _ R3) as R6. pose proof (pv_unmask_ntt _ _ _ R3) as R7. rewrite R5 in R7.
  cbv zeta.
  destruct (mat_mul_ok _ _ (p_d P) A (pv_ntt r1) HA (pv_ok_w _ _ _ R6)) as [M1 _].
  pose proof (pv_intt_ok _ _ _ M1) as M2. pose proof (mat_mul_intt _ _ (p_d P) A (pv_ntt r1) HA R6) as M3. rewrite R7 in M3. fold Ar in M3.
  assert (E0 : map intt (map ntt (rn n)) = rn n).
  { rewrite map_map. apply map_id_in. intros p Hp. rewrite Forall_forall in Frn. apply intt_ntt, Frn, Hp. }
  rewrite E0 in M3.
  apply wpx_bind. apply (wp_g _ _ _ _ _ _ _ (add_noise (p_uw P) (p_k P) _ (n * step + p_l P * row_bytes (row_of P))%nat m1 ltac:(lia) ltac:(lia) M2) (fun g => pv_add_rep_noise_fin O wfuel _ (GM g) _ _ _ _ _ _ P2 (Hm1 g)) HG).
  intros [[w1 pr] m2] _ (W1 & W2 & W3) Hm2. unfold orb in Hm2. cbn [fst snd] in *. subst pr. fold (en n) in W3. rewrite M3, <- zipw_map2 in W3.
  rewrite (pf_nuw _ _ _ F), (pf_nut _ _ _ F).
  assert (EW : pv_rounding_shr 44 (pv_decode w1) = one (wn n)).
  { rewrite (decode_one _ _ _ W1), one_round, W3. f_equal. unfold wn. apply map_ext_in. intros p Hp.
    unfold round_poly. apply poly_rounding_shr_spec; [lia|]. rewrite <- W3 in Hp. pose proof (unmask_polys w1) as X. rewrite Forall_forall in X. apply X, Hp. }
  rewrite EW.
  assert (Sw : Forall small31 (wn n)) by (unfold wn; apply round_small; rewrite <- W3; apply unmask_polys).
  assert (Lw : length (wn n) = p_k P) by (unfold wn; rewrite map_length, <- W3, map_length; apply W1).
  assert (EC : chal_hash O (p_kappa P) (p_k P) (one (wn n)) mu = challenge_value (hash_of O) (kbytes (2 * p_kappa P)) (wn n) mu).
  { rewrite <- Lw at 1. apply chal_hash_value; [lia|]. refine (Forall_impl _ _ Sw). intros p [_ Fp]. refine (Forall_impl _ _ Fp). intros x Hx. unfold is_byte. lia. }
  rewrite EC. set (c := challenge_value (hash_of O) (kbytes (2 * p_kappa P)) (wn n) mu) in *.
  apply wpx_bind. apply (wp_x _ _ _ _ _ (chal_poly_ok O wfuel (p_omega P) c ltac:(lia))).
  { intros E. destruct HG as [G|G]; [|exact G]. exfalso. exact (GC G E). }
  intros cp ECP CP.
  assert (Pc : is_poly cp) by apply (challenge_poly_facts _ _ _ CP).
  apply wpx_bind. apply (wp_g _ _ _ _ _ _ _ (pv_refresh_w O wfuel _ _ s m2 P2 Hs) (fun g => pv_refresh_fin O wfuel _ (GM g) _ _ P2 (Hm2 g)) HG). intros [s1 m3] _ [S1 S2] Hm3. unfold orb in Hm3. cbn [fst snd] in *. rewrite Es in S2.
  apply wpx_bind. apply (wp_g _ _ _ _ _ _ _ (pv_refresh_ok O wfuel _ _ (pv_ntt r1) m3 P2 R6) (fun g => pv_refresh_fin O wfuel _ (GM g) _ _ P2 (Hm3 g)) HG). intros [r3 m4] _ [T1 T2] Hm4. unfold orb in Hm4. cbn [fst snd] in *. rewrite R7 in T2.
  destruct (pv_mul_poly_ok _ _ s1 (ntt cp) S1 (ntt_poly _ Pc)) as [Q1 Q2]. rewrite S2 in Q2.
  destruct (pv_add_ok _ _ _ _ Q1 T1) as [Z1 Z2]. rewrite Q2, T2 in Z2.
  apply wpx_bind. apply (wp_g _ _ _ _ _ _ _ (pv_refresh_ok O wfuel _ _ _ m4 P2 Z1) (fun g => pv_refresh_fin O wfuel _ (GM g) _ _ P2 (Hm4 g)) HG). intros [z1 m5] _ [Z3 Z4] Hm5. unfold orb in Hm5. cbn [fst snd] in *. rewrite Z2 in Z4.
  rewrite (decode_one _ _ _ Z3). set (zh := map unmask z1) in *.
  assert (Fzh : Forall is_poly zh) by apply unmask_polys.
  assert (Lzh : length zh = p_l P) by (unfold zh; rewrite map_length; apply Z3).
  rewrite product_ok; [|exact HA|exact Lzh|exact Fzh|exact Ht|exact Pc|lia|lia].
  rewrite one_intt. fold Ar. pose proof (zhat_ring cp zh (rn n) Pc Fs0 Frn Z4) as EZ. fold (zr n cp) in EZ. rewrite EZ.
  assert (Fzr : Forall is_poly (zr n cp)).
  { unfold zr. rewrite zipw_map2. apply map2_Forall_r. intros x y. apply ring_add_poly. }
  assert (Lzr : length (zr n cp) = p_l P).
  { rewrite <- EZ, map_length. exact Lzh. }
  assert (LA : length Ar = p_k P) by (unfold Ar, ring_mat; rewrite map_length; apply seq_length).
  destruct (rows1_public _ _ Ht) as (_ & Lt & _).
  destruct (noisy_product_range 42 44 Ar (rows1 t) cp (zr n cp) ltac:(lia) ltac:(lia)) as [Ln Fn].
  rewrite (proj2 hint_modulus) in Fn. rewrite (proj1 hint_modulus).
  rewrite sub_mod_rows; [|exact Sw|exact Fn].
  set (hh := zipw (sub_mod_poly 31) (wn n) (noisy_product 42 44 Ar (rows1 t) cp (zr n cp))).
  assert (Shh : Forall small31 hh) by apply sub_mod_small.
  assert (Lhh : length hh = p_k P) by (unfold hh, zipw; rewrite map_length, combine_length, Lw, Ln, LA; lia).
  replace (Prng tp (n * step + p_l P * row_bytes (row_of P) + p_k P * row_bytes (row_of P))) with (Prng tp (S n * step)) by (f_equal; unfold step; ring).
  apply (HK _ _ _ c cp); [|exact ECP|exact S1|exact S2|exact Hm5].
  unfold sig_make. rewrite (proj1 hint_modulus).
  rewrite make_flat; [|change (2 ^ 62) with 4611686018427387904; lia|refine (Forall_impl _ _ Shh); intros p Hp; apply Hp].
  rewrite make_flat; [|rewrite Q_val; change (2 ^ 62) with 4611686018427387904; lia|apply polys_reduced, Fzr].
  unfold att_result. cbn [sg_c sg_h sg_z]. split; [reflexivity|].
  assert (Lh : length (concat (map (map (centered 31)) hh)) = (p_k P * 512)%nat).
  { apply concat_len512; [rewrite map_length; exact Lhh|]. apply Forall_map. refine (Forall_impl _ _ Shh). intros p [Lp _]. rewrite map_length. exact Lp. }
  assert (Lz : length (concat (map (map (centered Q)) (zr n cp))) = (p_l P * 512)%nat).
  { apply concat_len512; [rewrite map_length; exact Lzr|]. apply Forall_map. refine (Forall_impl _ _ Fzr). intros p [Lp _]. rewrite map_length. exact Lp. }
  split; [|split; [exact Lh|split; [exact Lz|split; [apply digest_length|split; [apply digest_bytes|split]]]]].
  - unfold att, sign_attempt. cbn [row_of r_k r_l r_omega r_nuw r_uw r_nut r_kappa]. rewrite !Nat2Z.id, (pf_nuw _ _ _ F), (pf_nut _ _ _ F), (proj2 hint_modulus), q_Q.
    fold step. fold (rn n) (en n) (wn n) (zr n cp) hh. split; [reflexivity|]. split; [exact CP|]. split; reflexivity.
  - refine (Forall_impl _ _ (centered_rows_range 31 hh ltac:(lia))). intros x Hx. cbv beta in Hx. unfold two63. change (31 / 2) with 15 in Hx. change ((31 - 1) / 2) with 15 in Hx. lia.
  - rewrite q_Q. refine (Forall_impl _ _ (centered_rows_range Q (zr n cp) ltac:(rewrite Q_val; lia))). intros x Hx. cbv beta in Hx. rewrite Q_val in Hx |- *. change (549824583172097 / 2) with 274912291586048 in *. change ((549824583172097 - 1) / 2) with 274912291586048 in *. exact Hx.
Qed.

Definition overrun (c h z : list Z) : Prop := overrun_encoding (p_siglen P) (Z.of_nat (length c)) h z.
Definition rejected (i : nat) : Prop := exists c cp h z, att i c cp h z /\ ~ acceptable (row_of P) c h z /\ ~ overrun c h z.
Definition sign_done (n : nat) (out : list Z) : Prop := exists j c cp h z, (n <= j)%nat /\ att j c cp h z /\
  acceptable (row_of P) c h z /\ signature_code c h z out /\ zlen out = p_siglen P /\ Forall is_byte out /\
  length c = kbytes (2 * p_kappa P) /\ length h = (p_k P * 512)%nat /\ length z = (p_l P * 512)%nat /\ Forall is_byte c /\
  chal_poly O wfuel (p_omega P) c = Ok cp /\ forall i, (n <= i < j)%nat -> rejected i.
Definition sign_undef (n : nat) : Prop := exists j c cp h z, (n <= j)%nat /\ att j c cp h z /\ overrun c h z /\
  length h = (p_k P * 512)%nat /\ length z = (p_l P * 512)%nat /\ forall i, (n <= i < j)%nat -> rejected i.
Lemma sign_loop_spec (FF : Prop) (N : nat) : inner_fin N \/ FF -> forall fuel n s m sig, pv_w (p_l P) (p_d P) s -> map unmask s = s0 -> zlen sig = p_siglen P ->
  (inner_fin N /\ (n <= N)%nat -> orbit O (p_d P) m) ->
  wpx (sign_loop O wfuel fuel P A (pv_ntt (pv_shl (p_nut P) t)) mu s (Prng tp (n * step)) m sig) (sign_done n) (sign_undef n)
    (FF \/ forall i, (n <= i < n + fuel)%nat -> (i <= N)%nat -> rejected i).
Proof.
  intros HG. destruct (params_facts P HP) as (kb & e & F). pose proof (pf_l _ _ _ F) as Hl. destruct (sig_len_cl P HP) as [Hcl Ekb].
  induction fuel as [|fuel IH]; intros n s m sig Hs Es Ls Hm; [right; intros i Hi Hi'; lia|]. cbn [sign_loop].
  apply (sign_iter (fun sg s prng m =>
      '(is_encoded, sig) <- sig_to_bytes sg sig ;;
      if negb is_encoded then sign_loop O wfuel fuel P A (pv_ntt (pv_shl (p_nut P) t)) mu s prng m sig
      else
        is_under_bounds <- check_bounds (p_nuw P) (p_Binf P) (p_B22 P) sg ;;
        if negb is_under_bounds then sign_loop O wfuel fuel P A (pv_ntt (pv_shl (p_nut P) t)) mu s prng m sig
        else Ok sig) (sign_done n) (sign_undef n) (FF \/ forall i, (n <= i < n + S fuel)%nat -> (i <= N)%nat -> rejected i) (inner_fin N /\ (n <= N)%nat) s n m (fun g => proj1 (proj1 g)) (fun g => proj2 (proj1 g) n (proj2 g)) Hs Es).
  { destruct (Nat.le_gt_cases n N) as [D|D]; [destruct HG as [G|G]; [left; split; assumption|right; left; exact G]|right; right; intros i Hi Hi'; lia]. }
  { exact Hm. }
  intros [c0 h z] s' m' c cp (Ec & AT & Lh & Lz & Lc & Bc & Sh & Sz) ECP Hs' Es' Hm'. cbn [sg_c sg_h sg_z] in *. subst c0.
  assert (Nz : z <> []) by (intros ->; cbn [length] in Lz; lia).
  assert (Hc : zlen c <= zlen sig) by (unfold zlen at 1; rewrite Lc, Ekb; lia).
  assert (Again : forall sig', zlen sig' = p_siglen P -> ~ acceptable (row_of P) c h z -> ~ overrun c h z ->
    wpx (sign_loop O wfuel fuel P A (pv_ntt (pv_shl (p_nut P) t)) mu s' (Prng tp (S n * step)) m' sig') (sign_done n) (sign_undef n) (FF \/ forall i, (n <= i < n + S fuel)%nat -> (i <= N)%nat -> rejected i)).
  { intros sig' Ls' NA NO. pose proof (IH (S n) s' m' sig' Hs' Es' Ls' (fun g => Hm' (conj (proj1 g) (Nat.le_trans _ _ _ (Nat.le_succ_diag_r n) (proj2 g))))) as G.
    destruct (sign_loop O wfuel fuel P A _ mu s' _ m' sig') as [out| |]; cbn [wpx] in *.
    - destruct G as (j & c' & cp' & h' & z' & Hj & G1 & G2 & G3 & G4 & G5 & G6 & G7 & G8 & G9 & G10 & G11). exists j, c', cp', h', z'.
      split; [lia|]. do 9 (split; [assumption|]). split; [assumption|]. intros i Hi. destruct (Nat.eq_dec i n) as [->|D]; [exists c, cp, h, z; split; [|split]; assumption|apply G11; lia].
    - destruct G as (j & c' & cp' & h' & z' & Hj & G1 & G2 & G3 & G4 & G5). exists j, c', cp', h', z'. split; [lia|]. do 4 (split; [assumption|]).
      intros i Hi. destruct (Nat.eq_dec i n) as [->|D]; [exists c, cp, h, z; split; [|split]; assumption|apply G5; lia].
    - destruct G as [G|G]; [left; exact G|right]. intros i Hi Hi'. destruct (Nat.eq_dec i n) as [->|D]; [exists c, cp, h, z; split; [|split]; assumption|apply G; lia]. }
  unfold sig_to_bytes. cbn [sg_c sg_h sg_z].
  assert (EX : buffer_fits h z -> encode_sig c h z sig <> UB /\
     (8 * Z.of_nat (length c) + Z.of_nat (length (sig_code h z)) <= 8 * p_siglen P -> forall o, encode_sig c h z sig <> Ok (false, o))).
  { intros BF. destruct (encode_exact c h z sig Bc Hc Nz BF) as [X1 X2]. fold (zlen sig) in X1, X2. rewrite Ls in X1, X2. split.
    - destruct (Z_le_gt_dec (8 * Z.of_nat (length c) + Z.of_nat (length (sig_code h z))) (8 * p_siglen P)) as [D|D].
      + destruct (X1 D) as (b & -> & _). discriminate.
      + destruct (X2 ltac:(lia)) as (b & -> & _). discriminate.
    - intros D o. destruct (X1 D) as (b & -> & _). discriminate. }
  pose proof (encode_ub_exact c h z sig Bc Hc) as DE. rewrite Ls in DE. change (overrun_encoding (p_siglen P) (zlen c) h z) with (overrun c h z) in DE.
  destruct (encode_sig c h z sig) as [[ok sig']| |] eqn:EE; cbn [bind wpx].
  3:{ exfalso. apply (encode_sig_fuel c h z sig EE). }
  2:{ exists n, c, cp, h, z. split; [lia|]. split; [exact AT|]. split; [destruct DE as [[_ DE]|(v & DE & _)]; [exact DE|discriminate DE]|]. split; [exact Lh|]. split; [exact Lz|]. intros i Hi. lia. }
  assert (NO : ~ overrun c h z) by (destruct DE as [[DE _]|(v & _ & DE)]; [discriminate DE|exact DE]).
  pose proof (encode_sig_len _ _ _ _ _ _ EE) as LL. rewrite Ls in LL.
  destruct ok; cbn [negb].
  2:{ apply Again; [exact LL| |exact NO]. intros (A1 & A2 & _). cbn [row_of r_siglen] in A2. apply (proj2 (EX A1) A2 sig'). reflexivity. }
  destruct (encode_true c h z sig sig' Bc Hc Nz EE) as (BF & _ & Bb & SC).
  destruct (encode_needs_buffer c h z sig sig' Bc Hc Nz EE) as [_ FIT]. fold (zlen sig) in FIT. rewrite Ls in FIT.
  destruct (check_bounds_params P (Sig c h z) HP Lh Lz Sh Sz) as (b & Eb & Hbn). cbn [sg_h sg_z] in Hbn. rewrite Eb. cbn [bind].
  destruct b; cbn [negb].
  - cbn [wpx]. exists n, c, cp, h, z. split; [lia|]. split; [exact AT|]. split; [split; [exact BF|split; [exact FIT|apply Hbn; reflexivity]]|].
    do 7 (split; [assumption|]). split; [exact ECP|]. intros i Hi. lia.
  - apply Again; [exact LL| |exact NO]. intros (_ & _ & A3). cbn [row_of r_nuw r_Binf r_B22] in A3. apply Hbn in A3. discriminate A3.
Qed.
End Sign.

Lemma transform_inj a b : is_poly a -> is_poly b -> transform a = transform b -> a = b.
Proof. intros Ha Hb E. rewrite !transform_ntt in E by assumption. rewrite <- (intt_ntt a Ha), <- (intt_ntt b Hb), E. reflexivity. Qed.
Lemma transform_inj_list a : forall b, Forall is_poly a -> Forall is_poly b -> map transform a = map transform b -> a = b.
Proof.
  induction a as [|x a IH]; intros b Fa Fb E; pose proof (f_equal (@length (list Z)) E) as L; rewrite !map_length in L; destruct b as [|y b]; [reflexivity|exfalso; clear - L; discriminate L|exfalso; clear - L; discriminate L|].
  clear L. rewrite !map_cons in E.
  inversion Fa; inversion Fb; subst. apply (f_equal (fun l => (hd [] l, tl l))) in E. cbn [hd tl] in E.
  pose proof (f_equal fst E) as E1. pose proof (f_equal snd E) as E2. cbn [fst snd] in E1, E2.
  f_equal; [apply transform_inj; assumption|apply IH; assumption].
Qed.
(* the whole signing function *)
Definition signed (O : oracles) (tp : nat -> byte) (P : params) (sk : skey) (msg : list Z)
  (G : (nat -> list Z -> list Z -> list Z -> list Z -> Prop) -> Prop) : Prop :=
  exists A pkb sr,
    public_matrix (hash_of O) (pk_seed (sk_pkey sk)) (p_k P) (p_l P) A /\ public_key_code (pk_seed (sk_pkey sk)) (pk_t (sk_pkey sk)) pkb /\
    Forall is_poly sr /\ map transform sr = map unmask (sk_s sk) /\
    G (sign_attempt (hash_of O) (tape_of tp) (row_of P) A (rows1 (pk_t (sk_pkey sk))) sr
         (bound_message (hash_of O) (kbytes (2 * p_kappa P)) pkb msg)).
Lemma sign_spec_exact (FF : Prop) (N : nat) O fuel P sk msg buf tp : params_ok P = true ->
  valid_public (Z.to_nat (p_kappa P / 8)) (p_k P) (pk_seed (sk_pkey sk)) (pk_t (sk_pkey sk)) ->
  masked_vec49 (p_l P) (p_d P) (sk_s sk) -> zlen buf = p_siglen P ->
  (good_mask O fuel (p_d P) /\ expandA O fuel (p_k P) (p_l P) (pk_seed (sk_pkey sk)) <> OutOfFuel /\
   signed O tp P sk msg (fun att => forall i, (i <= N)%nat -> exists c cp h z, att i c cp h z /\ chal_poly O fuel (p_omega P) c <> OutOfFuel)) \/ FF ->
  wpx (sk_sign O fuel P sk msg buf tp)
    (fun sig => zlen sig = p_siglen P /\ Forall is_byte sig /\
       (exists A, expandA O fuel (p_k P) (p_l P) (pk_seed (sk_pkey sk)) = Ok A) /\
       signed O tp P sk msg (fun att => exists n c cp h z, att n c cp h z /\ acceptable (row_of P) c h z /\ signature_code c h z sig /\
         length c = kbytes (2 * p_kappa P) /\ length h = (p_k P * 512)%nat /\ length z = (p_l P * 512)%nat /\ Forall is_byte c /\
         chal_poly O fuel (p_omega P) c = Ok cp /\
         forall i, (i < n)%nat -> exists c cp h z, att i c cp h z /\ ~ acceptable (row_of P) c h z /\ ~ overrun P c h z))
    (signed O tp P sk msg (fun att => exists n c cp h z, att n c cp h z /\ overrun P c h z /\
         length h = (p_k P * 512)%nat /\ length z = (p_l P * 512)%nat /\
         forall i, (i < n)%nat -> exists c cp h z, att i c cp h z /\ ~ acceptable (row_of P) c h z /\ ~ overrun P c h z))
    (FF \/ signed O tp P sk msg (fun att => forall i, (i < fuel)%nat -> (i <= N)%nat -> exists c cp h z, att i c cp h z /\ ~ acceptable (row_of P) c h z /\ ~ overrun P c h z)).
Proof.
  intros HP V Hs Lb HG. destruct (params_facts P HP) as (kb & e & F). pose proof (pf_k _ _ _ F) as Hk. pose proof (pf_l _ _ _ F) as Hl.
  assert (P2 : pow2 (p_d P)) by (exists e; exact (pf_d _ _ _ F)).
  destruct (bind_msg_ok O P (sk_pkey sk) msg HP V) as (pkb & Cpk & _ & _ & Ebm).
  unfold sk_sign. cbv zeta. rewrite Ebm. cbn [bind].
  apply wpx_bind. apply (wp_x _ _ _ _ _ (expandA_ok O fuel (p_k P) (p_l P) (pk_seed (sk_pkey sk)) ltac:(lia) ltac:(lia))).
  { intros E. destruct HG as [[_ [G _]]|G]; [destruct (G E)|left; exact G]. }
  intros A EA [LA UA].
  destruct (ring_mat_public O (pk_seed (sk_pkey sk)) (p_k P) (p_l P) A LA UA) as [HA PM].
  set (mu := bound_message (hash_of O) (kbytes (2 * p_kappa P)) pkb msg).
  assert (Fs : Forall is_poly (map intt (map unmask (sk_s sk)))) by (apply Forall_map; refine (Forall_impl _ _ (unmask_polys _)); exact intt_poly).
  assert (Es : map transform (map intt (map unmask (sk_s sk))) = map unmask (sk_s sk)).
  { rewrite map_map. apply map_id_in. intros p Hp. pose proof (unmask_polys (sk_s sk)) as X. rewrite Forall_forall in X. rewrite transform_ntt by (apply intt_poly, X, Hp). apply ntt_intt, X, Hp. }
  assert (HG' : inner_fin O fuel P A mu tp N \/ FF).
  { destruct HG as [(G1 & G2 & G3)|G]; [left|right; exact G]. apply (inner_fin_intro O fuel P A (pk_t (sk_pkey sk)) mu tp (map unmask (sk_s sk)) HP); [exact G1|].
    destruct G3 as (A' & pkb' & sr' & PM' & CP' & Fs' & Es' & G3).
    rewrite <- (public_matrix_fun _ _ _ _ _ _ PM PM'), <- (public_key_code_unique _ _ _ _ Cpk CP') in G3.
    rewrite <- (transform_inj_list _ sr' Fs Fs' (eq_trans Es (eq_sym Es'))) in G3. exact G3. }
  pose proof (sign_loop_spec O fuel P A (pk_t (sk_pkey sk)) mu tp (map unmask (sk_s sk)) HP HA (proj2 (proj2 V)) FF N HG' fuel 0 (sk_s sk) (mrng_new O (p_d P)) buf Hs eq_refl Lb (fun _ => orbit_new O (p_d P))) as G.
  cbn [Nat.mul] in G. change (prng_new tp) with (Prng tp 0).
  destruct (sign_loop O fuel fuel P A _ mu (sk_s sk) _ _ buf) as [out| |]; cbn [wpx] in *.
  - destruct G as (j & c & cp & h & z & _ & G1 & G2 & G3 & G4 & G5 & G6 & G7 & G8 & G9 & G10 & G11). split; [exact G4|]. split; [exact G5|].
    split; [exists A; exact EA|].
    exists (ring_mat (p_k P) (p_l P) A), pkb, (map intt (map unmask (sk_s sk))). split; [exact PM|]. split; [exact Cpk|]. split; [exact Fs|]. split; [exact Es|].
    exists j, c, cp, h, z. split; [exact G1|]. split; [exact G2|]. split; [exact G3|]. split; [exact G6|]. split; [exact G7|]. split; [exact G8|]. split; [exact G9|]. split; [exact G10|].
    intros i Hi. apply G11. lia.
  - destruct G as (j & c & cp & h & z & _ & G1 & G2 & G3 & G4 & G5).
    exists (ring_mat (p_k P) (p_l P) A), pkb, (map intt (map unmask (sk_s sk))). split; [exact PM|]. split; [exact Cpk|]. split; [exact Fs|]. split; [exact Es|].
    exists j, c, cp, h, z. split; [exact G1|]. split; [exact G2|]. split; [exact G3|]. split; [exact G4|]. intros i Hi. apply G5. lia.
  - destruct G as [G|G]; [left; exact G|right].
    exists (ring_mat (p_k P) (p_l P) A), pkb, (map intt (map unmask (sk_s sk))). split; [exact PM|]. split; [exact Cpk|]. split; [exact Fs|]. split; [exact Es|].
    intros i Hi. apply G. lia.
Qed.
(* code words that fit the bit buffer do not overrun it *)
Lemma fits_no_overrun len cl h z : 0 <= cl <= len -> z <> [] -> buffer_fits h z -> ~ overrun_encoding len cl h z.
Proof.
  intros H Nz BF U. set (c := repeat 0 (Z.to_nat cl)). set (sig := repeat 0 (Z.to_nat len)).
  assert (Bc : Forall is_byte c) by (apply Forall_forall; intros x Hx; apply repeat_spec in Hx; subst x; split; [discriminate|reflexivity]).
  assert (Lc : zlen c = cl) by (unfold c, zlen; rewrite repeat_length; lia). assert (Ls : zlen sig = len) by (unfold sig, zlen; rewrite repeat_length; lia).
  assert (Hc : zlen c <= zlen sig) by lia.
  destruct (encode_ub_exact c h z sig Bc Hc) as [[E _]|(v & _ & N)]; [|apply N; rewrite Lc, Ls; exact U].
  destruct (encode_exact c h z sig Bc Hc Nz BF) as [X1 X2]. fold (zlen sig) in X1, X2.
  destruct (Z_le_gt_dec (8 * Z.of_nat (length c) + Z.of_nat (length (sig_code h z))) (8 * zlen sig)) as [D|D].
  - destruct (X1 D) as (b & E' & _). rewrite E in E'. discriminate E'.
  - destruct (X2 ltac:(lia)) as (b & E' & _). rewrite E in E'. discriminate E'.
Qed.
Lemma attempt_chash H T P A t s mu n c cp h z : sign_attempt H T (row_of P) A t s mu n c cp h z -> length c = kbytes (2 * p_kappa P).
Proof. intros (E & _). rewrite E. cbn [row_of r_kappa]. unfold challenge_value. apply digest_length. Qed.
Lemma sign_spec (FF : Prop) (N : nat) O fuel P sk msg buf tp : params_ok P = true ->
  valid_public (Z.to_nat (p_kappa P / 8)) (p_k P) (pk_seed (sk_pkey sk)) (pk_t (sk_pkey sk)) ->
  masked_vec49 (p_l P) (p_d P) (sk_s sk) -> zlen buf = p_siglen P ->
  (good_mask O fuel (p_d P) /\ expandA O fuel (p_k P) (p_l P) (pk_seed (sk_pkey sk)) <> OutOfFuel /\
   signed O tp P sk msg (fun att => forall i, (i <= N)%nat -> exists c cp h z, att i c cp h z /\ chal_poly O fuel (p_omega P) c <> OutOfFuel)) \/ FF ->
  wpx (sk_sign O fuel P sk msg buf tp)
    (fun sig => zlen sig = p_siglen P /\ Forall is_byte sig /\
       (exists A, expandA O fuel (p_k P) (p_l P) (pk_seed (sk_pkey sk)) = Ok A) /\
       signed O tp P sk msg (fun att => exists n c cp h z, att n c cp h z /\ acceptable (row_of P) c h z /\ signature_code c h z sig /\
         length c = kbytes (2 * p_kappa P) /\ length h = (p_k P * 512)%nat /\ length z = (p_l P * 512)%nat /\ Forall is_byte c /\
         chal_poly O fuel (p_omega P) c = Ok cp /\
         forall i, (i < n)%nat -> exists c cp h z, att i c cp h z /\ ~ acceptable (row_of P) c h z))
    (signed O tp P sk msg (fun att => exists n c cp h z, att n c cp h z /\ ~ buffer_fits h z /\
         length h = (p_k P * 512)%nat /\ length z = (p_l P * 512)%nat /\
         forall i, (i < n)%nat -> exists c cp h z, att i c cp h z /\ ~ acceptable (row_of P) c h z))
    (FF \/ signed O tp P sk msg (fun att => forall i, (i < fuel)%nat -> (i <= N)%nat -> exists c cp h z, att i c cp h z /\ ~ acceptable (row_of P) c h z)).
Proof.
  intros HP V Hs Lb HG. pose proof (sign_spec_exact FF N O fuel P sk msg buf tp HP V Hs Lb HG) as G.
  assert (WEAK : forall (att : nat -> list Z -> list Z -> list Z -> list Z -> Prop) i, (exists c cp h z, att i c cp h z /\ ~ acceptable (row_of P) c h z /\ ~ overrun P c h z) ->
     exists c cp h z, att i c cp h z /\ ~ acceptable (row_of P) c h z) by (intros att i (c & cp & h & z & X1 & X2 & _); exists c, cp, h, z; split; assumption).
  destruct (params_facts P HP) as (kb & e & F). pose proof (pf_l _ _ _ F) as Hl. destruct (sig_len_cl P HP) as [Hcl Ekb].
  destruct (sk_sign O fuel P sk msg buf tp) as [sig| |]; cbn [wpx] in *.
  - destruct G as (G1 & G2 & G3 & A & pkb & sr & S1 & S2 & S3 & S4 & n & c & cp & h & z & S5 & S6 & S7 & S8 & S9 & S10 & S11 & S12 & S13).
    split; [exact G1|]. split; [exact G2|]. split; [exact G3|]. exists A, pkb, sr. do 4 (split; [assumption|]). exists n, c, cp, h, z. do 8 (split; [assumption|]).
    intros i Hi. apply WEAK, S13, Hi.
  - destruct G as (A & pkb & sr & S1 & S2 & S3 & S4 & n & c & cp & h & z & S5 & S6 & S7 & S8 & S9).
    exists A, pkb, sr. do 4 (split; [assumption|]). exists n, c, cp, h, z. split; [exact S5|]. split.
    + intros BF. apply (fits_no_overrun (p_siglen P) (Z.of_nat (length c)) h z); [|intros ->; cbn [length] in S8; lia|exact BF|exact S6].
      rewrite (attempt_chash _ _ _ _ _ _ _ _ _ _ _ _ S5), Ekb. lia.
    + split; [exact S7|]. split; [exact S8|]. intros i Hi. apply WEAK, S9, Hi.
  - destruct G as [G|(A & pkb & sr & S1 & S2 & S3 & S4 & S5)]; [left; exact G|right].
    exists A, pkb, sr. do 4 (split; [assumption|]). intros i Hi Hi'. apply WEAK, S5; assumption.
Qed.
