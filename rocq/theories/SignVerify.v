(* Signatures that signing returns are valid and verify. *)
From Coq Require Import ZArith Lia Bool List Arith.
From Coq Require Import ZifyBool ZifyNat.
From Verif Require Import ModelBase ModelU128 ModelField ModelUtils ModelPoly ModelVec ModelSerial ModelScheme.
From Verif Require Import Spec SpecScheme SpecSig SpecVerify.
From Verif Require Import Words FieldProofs ArithLemmas BytesProofs PolyProofs NttLayers NttProofs Cong NttEval NttBounds MaskedProofs LinProofs SampleProofs NoiseProofs PolyLemmas MaskedLemmas.
From Verif Require Import ParamProofs KeyLemmas PackProofs FinProofs SigEnc SigDec SigDec2 SigLemmas NormProofs SchemeCore VerifyProofs SignProofs.
Import ListNotations.
Open Scope Z_scope.
Ltac Zify.zify_post_hook ::= idtac.

Lemma skipn_skipn {A} (a b : nat) : forall l : list A, skipn a (skipn b l) = skipn (b + a) l.
Proof. induction b as [|b IH]; intros [|x l]; cbn [skipn Nat.add]; [reflexivity|reflexivity|apply skipn_nil|apply IH]. Qed.
Lemma rows_of_flat_concat (v : list (list Z)) : Forall (fun p => length p = 512%nat) v -> rows_of_flat (length v) (concat v) = v.
Proof.
  induction 1 as [|p v Lp F IH]; [reflexivity|]. unfold rows_of_flat in *. cbn [length seq map concat]. f_equal.
  - unfold row_of_flat. rewrite Nat.mul_0_l. cbn [skipn]. rewrite <- Lp at 1. rewrite firstn_app, Nat.sub_diag, firstn_all, firstn_O, app_nil_r. reflexivity.
  - rewrite <- seq_shift, map_map. rewrite <- IH at 2. apply map_ext. intros i. unfold row_of_flat.
    change (S i * 512)%nat with (512 + i * 512)%nat. rewrite <- (skipn_skipn (i * 512) 512). f_equal. rewrite <- Lp at 2. rewrite skipn_app, Nat.sub_diag, skipn_all, skipn_O. reflexivity.
Qed.
Lemma uncenter_ring v : Forall is_poly v -> map to_ring (map (map (centered q)) v) = v.
Proof.
  intros F. rewrite map_map. apply map_id_in. intros p Hp. rewrite Forall_forall in F. destruct (F p Hp) as [_ Fp]. unfold to_ring. rewrite map_map. apply map_id_in.
  intros x Hx. rewrite Forall_forall in Fp. specialize (Fp x Hx). unfold reduced in Fp. rewrite centered_mod by lia. apply Z.mod_small. exact Fp.
Qed.
Lemma hint_restores w y : small31 w -> length y = 512%nat -> add_mod_poly 31 y (map (centered 31) (sub_mod_poly 31 w y)) = w.
Proof.
  intros [Lw Fw] Ly. unfold add_mod_poly. apply (nth_ext _ _ 0 0); [rewrite map_length, seq_length; symmetry; exact Lw|].
  intros i Hi. rewrite map_length, seq_length in Hi.
  rewrite (nth_map_seq (fun i => (coef y i + coef (map (centered 31) (sub_mod_poly 31 w y)) i) mod 31)) by exact Hi.
  unfold coef at 2. unfold sub_mod_poly. rewrite map_map. rewrite (nth_map_seq (fun i => centered 31 ((coef w i - coef y i) mod 31))) by exact Hi.
  rewrite <- Zplus_mod_idemp_r, centered_mod by lia. rewrite Zplus_mod_idemp_r, Zplus_mod_idemp_r.
  replace (coef y i + (coef w i - coef y i)) with (coef w i) by ring. unfold coef. apply Z.mod_small. rewrite Forall_forall in Fw. apply Fw, nth_In. lia.
Qed.
Lemma hints_restore : forall w y, length w = length y -> Forall small31 w -> Forall (fun p => length p = 512%nat) y ->
  zipw (add_mod_poly 31) y (map (map (centered 31)) (zipw (sub_mod_poly 31) w y)) = w.
Proof.
  intros w y L Fw Fy. rewrite !zipw_map2. revert y L Fy. induction Fw as [|p w Hp Fw IH]; intros [|p' y] L Fy; cbn [length] in L; try lia; [reflexivity|].
  inversion Fy as [|? ? Hp' Fy']; subst. cbn [map2 map]. rewrite hint_restores by assumption. rewrite IH by (try assumption; lia). reflexivity.
Qed.

Lemma attempt_commitment H T P A t s mu n c cp h z : params_ok P = true -> length A = p_k P -> length t = p_k P ->
  length s = p_l P ->
  sign_attempt H T (row_of P) A t s mu n c cp h z ->
  c = challenge_value H (kbytes (2 * p_kappa P))
        (commitment (p_nut P) (p_nuw P) A t cp (map to_ring (rows_of_flat (p_l P) z)) (rows_of_flat (p_k P) h)) mu.
Proof.
  intros HP LA Lt Lsr (Ec & CP & Ez & Eh). destruct (params_facts P HP) as (kb & e & F). destruct (sig_len_cl P HP) as [_ Ekb].
  cbn [row_of r_k r_l r_omega r_nuw r_uw r_nut r_kappa] in *. rewrite !Nat2Z.id in *.
  rewrite (pf_nuw _ _ _ F), (pf_nut _ _ _ F) in *. rewrite (proj2 hint_modulus) in Eh. unfold commitment. rewrite (proj2 hint_modulus).
  set (r := noise H T (row_of P) (p_uw P) (p_l P) (n * ((p_l P + p_k P) * row_bytes (row_of P)))) in *.
  set (e0 := noise H T (row_of P) (p_uw P) (p_k P) (n * ((p_l P + p_k P) * row_bytes (row_of P)) + p_l P * row_bytes (row_of P))) in *.
  set (w := map (round_poly 44) (zipw ring_add (ring_matvec A r) e0)) in *.
  set (zr := zipw ring_add (map (fun si => ring_mul si cp) s) r) in *.
  assert (Lr : length r = p_l P) by apply noise_polys. assert (Le : length e0 = p_k P) by apply noise_polys.
  assert (Fzr : Forall is_poly zr).
  { unfold zr. rewrite zipw_map2. apply map2_Forall_r. intros x y. apply ring_add_poly. }
  assert (Lzr : length zr = p_l P) by (unfold zr, zipw; rewrite map_length, combine_length, map_length, Lr, Lsr; lia).
  assert (Sw : Forall small31 w).
  { unfold w. apply round_small. rewrite zipw_map2. apply map2_Forall_r. intros x y. apply ring_add_poly. }
  assert (Lw : length w = p_k P).
  { unfold w, zipw. rewrite !map_length, combine_length. unfold ring_matvec. rewrite map_length, LA, Le. lia. }
  destruct (noisy_product_range 42 44 A t cp zr ltac:(lia) ltac:(lia)) as [Ln Fn].
  assert (Fn' : Forall (fun p => length p = 512%nat) (noisy_product 42 44 A t cp zr)) by (refine (Forall_impl _ _ Fn); intros p Hp; apply Hp).
  set (hh := zipw (sub_mod_poly 31) w (noisy_product 42 44 A t cp zr)) in *.
  assert (Lhh : length hh = p_k P) by (unfold hh, zipw; rewrite map_length, combine_length, Lw, Ln, LA; lia).
  assert (Rz : map to_ring (rows_of_flat (p_l P) z) = zr).
  { rewrite Ez. rewrite <- Lzr. rewrite <- (map_length (map (centered q)) zr) at 1. rewrite rows_of_flat_concat; [apply uncenter_ring, Fzr|].
    apply Forall_map. refine (Forall_impl _ _ Fzr). intros p [Lp _]. rewrite map_length. exact Lp. }
  assert (Rh : rows_of_flat (p_k P) h = map (map (centered 31)) hh).
  { rewrite Eh. rewrite <- Lhh. rewrite <- (map_length (map (centered 31)) hh) at 1. apply rows_of_flat_concat.
    apply Forall_map. refine (Forall_impl _ _ (sub_mod_small w (noisy_product 42 44 A t cp zr))). intros p [Lp _]. rewrite map_length. exact Lp. }
  rewrite Rz, Rh. unfold hh. rewrite hints_restore; [|rewrite Lw, Ln, LA; reflexivity|exact Sw|exact Fn'].
  rewrite Ekb. exact Ec.
Qed.
(* an accepted attempt is a valid signature *)
Lemma attempt_valid O tp P pk msg A pkb s n c cp h z sig : params_ok P = true ->
  valid_public (Z.to_nat (p_kappa P / 8)) (p_k P) (pk_seed pk) (pk_t pk) ->
  public_matrix (hash_of O) (pk_seed pk) (p_k P) (p_l P) A -> public_key_code (pk_seed pk) (pk_t pk) pkb ->
  length s = p_l P -> length h = (p_k P * 512)%nat -> length z = (p_l P * 512)%nat ->
  sign_attempt (hash_of O) (tape_of tp) (row_of P) A (rows1 (pk_t pk)) s (bound_message (hash_of O) (kbytes (2 * p_kappa P)) pkb msg) n c cp h z ->
  acceptable (row_of P) c h z -> signature_code c h z sig ->
  valid_signature (hash_of O) (row_of P) (pk_seed pk) (pk_t pk) msg sig.
Proof.
  intros HP V PM Cpk Ls Lh Lz AT (BF & _ & N) SC. destruct (sig_len_cl P HP) as [_ Ekb].
  destruct (rows1_public _ _ (proj2 (proj2 V))) as (_ & Lt & _).
  pose proof (attempt_commitment _ _ _ _ _ _ _ _ _ _ _ _ HP (proj1 PM) Lt Ls AT) as Ec.
  destruct AT as (_ & CP & _ & _).
  exists c, h, z, A, cp, pkb. cbn [row_of r_k r_l r_kappa r_nut r_nuw r_Binf r_B22 r_omega] in *. rewrite !Nat2Z.id in *. rewrite <- Ekb.
  split; [rewrite Ec; apply digest_length|]. split; [exact Lh|]. split; [exact Lz|]. split; [exact SC|]. split; [apply buffer_windows, BF|].
  split; [exact N|]. split; [exact PM|]. split; [exact CP|]. split; [exact Cpk|]. exact Ec.
Qed.

Lemma sign_verifies O fuel P sk msg buf tp sig : params_ok P = true ->
  valid_public (Z.to_nat (p_kappa P / 8)) (p_k P) (pk_seed (sk_pkey sk)) (pk_t (sk_pkey sk)) ->
  masked_vec49 (p_l P) (p_d P) (sk_s sk) -> zlen buf = p_siglen P ->
  sk_sign O fuel P sk msg buf tp = Ok sig ->
  zlen sig = p_siglen P /\ Forall is_byte sig /\
  valid_signature (hash_of O) (row_of P) (pk_seed (sk_pkey sk)) (pk_t (sk_pkey sk)) msg sig /\
  verify O fuel P (sk_pkey sk) msg sig = Ok true.
Proof.
  intros HP V Hs Lb E. pose proof (sign_spec True 0 O fuel P sk msg buf tp HP V Hs Lb (or_intror Logic.I)) as G. rewrite E in G. cbn [wpx] in G.
  destruct G as (L & B & (Am & EA) & A & pkb & sr & PM & Cpk & Fs & Es & n & c & cp & h & z & AT & AC & SC & Lc & Lh & Lz & Bc & ECP & _).
  assert (Lsr : length sr = p_l P).
  { apply (f_equal (@length (list Z))) in Es. rewrite !map_length in Es. rewrite Es. apply Hs. }
  assert (VS : valid_signature (hash_of O) (row_of P) (pk_seed (sk_pkey sk)) (pk_t (sk_pkey sk)) msg sig)
    by (eapply attempt_valid; eassumption).
  split; [exact L|]. split; [exact B|]. split; [exact VS|].
  destruct (params_facts P HP) as (kb & e & F). destruct (sig_len_cl P HP) as [Hcl Ekb]. pose proof (pf_l _ _ _ F) as Hl.
  assert (D : decode_sig (2 * p_kappa P / 8) (p_k P * 512) (p_l P * 512) sig = Ok (Some (c, h, z))).
  { rewrite <- Lh, <- Lz. replace (2 * p_kappa P / 8) with (zlen c) by (unfold zlen; rewrite Lc, Ekb; lia).
    apply decode_complete; [exact B|exact Bc|exact SC|apply buffer_windows, AC|rewrite Lz; lia]. }
  pose proof (verify_spec O fuel P (sk_pkey sk) msg sig HP V B L) as G.
  assert (NF : verify O fuel P (sk_pkey sk) msg sig <> OutOfFuel).
  { rewrite verify_eq. unfold sig_from_bytes. change PN with 512%nat. rewrite D. cbn [bind].
    destruct (windows_small h z (buffer_windows _ _ (proj1 AC))) as [Sh Sz].
    destruct (check_bounds_params P (Sig c h z) HP Lh Lz Sh Sz) as (b & Eb & _). rewrite Eb. cbn [bind]. destruct b; cbn [negb]; [|discriminate].
    destruct (bind_msg_ok O P (sk_pkey sk) msg HP V) as (pkb' & _ & _ & _ & Ebm). rewrite Ebm. cbn [bind]. rewrite EA. cbn [bind sg_c]. rewrite ECP. cbn [bind]. discriminate. }
  destruct (verify O fuel P (sk_pkey sk) msg sig) as [b| |].
  - f_equal. apply G. exact VS.
  - destruct G as [G _]. rewrite D in G. discriminate G.
  - contradiction.
Qed.
