(* verify() accepts exactly the valid signatures. *)
From Coq Require Import ZArith Lia Bool List Arith.
From Coq Require Import ZifyBool ZifyNat.
From Verif Require Import ModelBase ModelU128 ModelField ModelUtils ModelPoly ModelVec ModelSerial ModelScheme.
From Verif Require Import Spec SpecScheme SpecSig SpecVerify.
From Verif Require Import Words FieldProofs ArithLemmas BytesProofs PolyProofs NttLayers NttProofs Cong NttEval NttBounds MaskedProofs LinProofs SampleProofs PolyLemmas MaskedLemmas.
From Verif Require Import ParamProofs KeyLemmas PackProofs FinProofs SigEnc SigDec SigDec2 SigLemmas NormProofs SchemeCore.
Import ListNotations.
Open Scope Z_scope.
Ltac Zify.zify_post_hook ::= idtac.

(* ---------- values that the decoder can return ---------- *)
Lemma q_half : q / 2 = 274912291586048. Proof. rewrite q_Q, Q_val. reflexivity. Qed.
Lemma clen_z_eq x : clen code_z x = 40 + Z.abs x / 2 ^ 40 + 1 + (if x =? 0 then 0 else 1).
Proof.
  assert (0 <= Z.abs x / 2 ^ 40) by (apply Z.div_pos; [lia|reflexivity]).
  unfold clen, code_z. rewrite !app_length, repeat_length. cbn [length].
  assert (L : length (bits_of 40 (Z.abs x)) = 40%nat) by reflexivity. rewrite L. destruct (x =? 0); cbn [length]; lia.
Qed.
Lemma windows_small h z : windows_fit h z ->
  Forall (fun x => - two63 < x < two63) h /\ Forall (fun x => - (q / 2) <= x <= q / 2) z.
Proof.
  intros (_ & F & W). split.
  - refine (Forall_impl _ _ F). intros x Hx. cbv beta in Hx. unfold two63. lia.
  - refine (Forall_impl _ _ (window_each _ _ _ _ W)). intros x Hx. cbv beta in Hx. rewrite clen_z_eq in Hx. rewrite q_half.
    change (2 ^ 40) with 1099511627776 in Hx. pose proof (Z.div_mod (Z.abs x) 1099511627776 ltac:(lia)). pose proof (Z.mod_pos_bound (Z.abs x) 1099511627776 ltac:(lia)).
    destruct (x =? 0) eqn:E; lia.
Qed.

(* ---------- message digest ---------- *)
Lemma public_key_code_unique seed t a b : public_key_code seed t a -> public_key_code seed t b -> a = b.
Proof.
  intros (pa & -> & Fa & Ea) (pb & -> & Fb & Eb). f_equal. apply bits_of_bytes_inj; [assumption..|]. congruence.
Qed.
Lemma bind_msg_ok O P pk msg : params_ok P = true ->
  valid_public (Z.to_nat (p_kappa P / 8)) (p_k P) (pk_seed pk) (pk_t pk) ->
  exists pkb, public_key_code (pk_seed pk) (pk_t pk) pkb /\ pk_from_bytes P pkb = Ok pk /\ zlen pkb = pk_byte_len P /\
    bind_msg O P pk msg = Ok (bound_message (hash_of O) (kbytes (2 * p_kappa P)) pkb msg).
Proof.
  intros HP V. destruct (params_facts P HP) as (kb & e & F). pose proof (pf_pk _ _ _ F) as EL.
  destruct (pk_key_roundtrip P pk (repeat 0 (Z.to_nat (pk_byte_len P))) HP V) as (pkb & E & L & _ & C & D).
  { unfold zlen. rewrite repeat_length. lia. }
  exists pkb. split; [exact C|]. split; [exact D|]. split; [exact L|]. unfold bind_msg. rewrite E. cbn [bind].
  rewrite !squeeze_eq. cbn [xof_absorb xof_new xof_in xof_out app]. reflexivity.
Qed.

(* ---------- rows of flat arrays ---------- *)
Lemma row_of_flat_length xs k i : length xs = (k * 512)%nat -> (i < k)%nat -> length (row_of_flat xs i) = 512%nat.
Proof.
  intros L Hi. unfold row_of_flat. rewrite firstn_length, skipn_length.
  assert ((i + 1) * 512 <= k * 512)%nat by (apply Nat.mul_le_mono_r; lia). lia.
Qed.
Lemma rows_of_flat_length k xs : length (rows_of_flat k xs) = k.
Proof. unfold rows_of_flat. rewrite map_length. apply seq_length. Qed.
Lemma firstn_Forall {A} (R : A -> Prop) n xs : Forall R xs -> Forall R (firstn n xs).
Proof. intros F. rewrite Forall_forall in *. intros x Hx. apply F. rewrite <- (firstn_skipn n xs). apply in_or_app. left. exact Hx. Qed.
Lemma skipn_Forall {A} (R : A -> Prop) n xs : Forall R xs -> Forall R (skipn n xs).
Proof. intros F. rewrite Forall_forall in *. intros x Hx. apply F. rewrite <- (firstn_skipn n xs). apply in_or_app. right. exact Hx. Qed.
Lemma rows_of_flat_Forall (R : Z -> Prop) k xs : Forall R xs -> length xs = (k * 512)%nat ->
  Forall (fun p => length p = 512%nat /\ Forall R p) (rows_of_flat k xs).
Proof.
  intros F L. unfold rows_of_flat. apply Forall_map, Forall_forall. intros i Hi. apply in_seq in Hi. split; [apply (row_of_flat_length _ k); [exact L|lia]|].
  unfold row_of_flat. apply firstn_Forall, skipn_Forall, F.
Qed.
Lemma get_z_eq l s : Forall (fun x => - (q / 2) <= x <= q / 2) (sg_z s) -> length (sg_z s) = (l * 512)%nat ->
  sig_get_z l s = one (map to_ring (rows_of_flat l (sg_z s))) /\ Forall is_poly (map to_ring (rows_of_flat l (sg_z s))).
Proof.
  intros F L. pose proof (rows_of_flat_Forall _ l _ F L) as FR. split.
  - unfold sig_get_z, one, rows_of_flat. rewrite !map_map. apply map_ext_in. intros i Hi. apply in_seq in Hi. f_equal. unfold to_ring, poly_from_centered.
    change (firstn PN (skipn (i * PN) (sg_z s))) with (row_of_flat (sg_z s) i). apply map_ext_in. intros x Hx.
    assert (R : - (q / 2) <= x <= q / 2).
    { rewrite Forall_forall in FR. destruct (FR (row_of_flat (sg_z s) i)) as [_ G]; [unfold rows_of_flat; apply in_map_iff; exists i; split; [reflexivity|apply in_seq; lia]|].
      rewrite Forall_forall in G. apply G, Hx. }
    rewrite q_half in R. rewrite q_Q. apply from_centered_coeff_spec; rewrite Q_val; change (2 ^ 62) with 4611686018427387904; lia.
  - apply Forall_map. refine (Forall_impl _ _ FR). intros p [Lp Fp]. split; [unfold to_ring; rewrite map_length; exact Lp|].
    unfold to_ring. apply Forall_map, Forall_forall. intros x _. apply reduced_mod.
Qed.
Lemma hint_modulus : shr64 Q 44 = 31 /\ q / 2 ^ 44 = 31.
Proof. rewrite q_Q, Q_val. split; reflexivity. Qed.
Lemma get_h_eq k s : Forall (fun x => Z.abs x <= 31) (sg_h s) -> ~ In 31 (sg_h s) -> length (sg_h s) = (k * 512)%nat ->
  sig_get_h k 44 s = one (map (map (fun x => x mod 31)) (rows_of_flat k (sg_h s))).
Proof.
  intros F N L. pose proof (rows_of_flat_Forall _ k _ F L) as FR. unfold sig_get_h, one, rows_of_flat. rewrite !map_map. apply map_ext_in. intros i Hi. apply in_seq in Hi.
  f_equal. unfold poly_from_centered. rewrite (proj1 hint_modulus).
  change (firstn PN (skipn (i * PN) (sg_h s))) with (row_of_flat (sg_h s) i). apply map_ext_in. intros x Hx.
  assert (R : In x (sg_h s)). { unfold row_of_flat in Hx. rewrite <- (firstn_skipn (i * 512) (sg_h s)), <- (firstn_skipn 512 (skipn (i * 512) (sg_h s))). apply in_or_app. right. apply in_or_app. left. exact Hx. }
  rewrite Forall_forall in F. pose proof (F x R) as Rx. cbv beta in Rx.
  assert (x <> 31) by (intros ->; contradiction).
  apply from_centered_coeff_spec; change (2 ^ 62) with 4611686018427387904; lia.
Qed.
Lemma add_mod_row y h : length y = 512%nat -> length h = 512%nat -> Forall (fun x => 0 <= x < 31) y ->
  poly_add_mod 31 y (map (fun x => x mod 31) h) = add_mod_poly 31 y h.
Proof.
  intros Ly Lh Fy. unfold poly_add_mod, add_mod_poly. rewrite (map2_seq _ _ _ 512 0 0) by (rewrite ?map_length; assumption).
  apply map_ext_in. intros i Hi. apply in_seq in Hi. unfold coef.
  assert (E : nth i (map (fun x => x mod 31) h) 0 = nth i h 0 mod 31) by exact (map_nth (fun x => x mod 31) h 0 i). rewrite E.
  rewrite add_mod_coeff; [apply Zplus_mod_idemp_r|change (2 ^ 62) with 4611686018427387904; lia| |apply Z.mod_pos_bound; lia].
  rewrite Forall_forall in Fy. apply Fy, nth_In. lia.
Qed.
Lemma add_mod_rows y : forall h, Forall (fun p => length p = 512%nat /\ Forall (fun x => 0 <= x < 31) p) y -> Forall (fun p => length p = 512%nat) h ->
  pv_add_mod 31 (one y) (one (map (map (fun x => x mod 31)) h)) = one (zipw (add_mod_poly 31) y h).
Proof.
  intros h Fy Fh. unfold pv_add_mod, mp_add_mod. rewrite one_map2. f_equal. rewrite zipw_map2. revert h Fh.
  induction Fy as [|p y [Lp Fp] Fy IH]; intros h Fh; [reflexivity|]. destruct Fh as [|p' h Lp' Fh]; [reflexivity|]. cbn [map map2].
  rewrite add_mod_row, IH by assumption. reflexivity.
Qed.
Lemma add_mod_bytes y h : Forall (Forall is_byte) (zipw (add_mod_poly 31) y h).
Proof.
  unfold zipw. apply Forall_map, Forall_forall. intros (a & b) _. unfold add_mod_poly. apply Forall_map, Forall_forall. intros i _.
  pose proof (Z.mod_pos_bound (coef a i + coef b i) 31 ltac:(lia)). unfold is_byte. lia.
Qed.

(* ---------- the recomputed challenge ---------- *)
Definition recomputed (O : oracles) (P : params) (A : pmat) (t : pvec) (c : poly) (sg : sig_t) (mu : list Z) : list Z :=
  chal_hash O (p_kappa P) (p_k P)
    (pv_add_mod (shr64 Q (p_nuw P))
       (pv_rounding_shr (p_nuw P) (pv_intt (pv_sub (mat_mul (p_k P) (p_l P) 1 A (pv_ntt (sig_get_z (p_l P) sg)))
                                                   (pv_mul_poly (pv_ntt (pv_shl (p_nut P) t)) (ntt c)))))
       (sig_get_h (p_k P) (p_nuw P) sg)) mu.
Lemma map_id_in {A} (f : A -> A) l : (forall x, In x l -> f x = x) -> map f l = l.
Proof. intros H. rewrite <- (map_id l) at 2. apply map_ext_in. exact H. Qed.
Lemma recomputed_ok O P A t c sg mu : params_ok P = true -> mat_ok (p_k P) (p_l P) A -> public_vec (p_k P) t -> is_poly c ->
  Forall (fun x => Z.abs x <= 30) (sg_h sg) -> Forall (fun x => - (q / 2) <= x <= q / 2) (sg_z sg) ->
  length (sg_h sg) = (p_k P * 512)%nat -> length (sg_z sg) = (p_l P * 512)%nat ->
  recomputed O P A t c sg mu =
  challenge_value (hash_of O) (kbytes (2 * p_kappa P))
    (commitment (p_nut P) (p_nuw P) (ring_mat (p_k P) (p_l P) A) (rows1 t) c
       (map to_ring (rows_of_flat (p_l P) (sg_z sg))) (rows_of_flat (p_k P) (sg_h sg))) mu.
Proof.
  intros HP HA Ht Hc Fh Fz Lh Lz. destruct (params_facts P HP) as (kb & e & F).
  destruct (get_z_eq (p_l P) sg Fz Lz) as [Ez Pz]. unfold recomputed. rewrite Ez, one_ntt.
  set (zr := map to_ring (rows_of_flat (p_l P) (sg_z sg))) in *.
  assert (Lzr : length zr = p_l P) by (unfold zr; rewrite map_length; apply rows_of_flat_length).
  rewrite (pf_nuw _ _ _ F), (pf_nut _ _ _ F).
  rewrite product_ok; [|exact HA|rewrite map_length; exact Lzr|apply Forall_map; refine (Forall_impl _ _ Pz); exact ntt_poly|exact Ht|exact Hc|lia|lia].
  replace (map intt (map ntt zr)) with zr.
  2:{ symmetry. rewrite map_map. apply map_id_in. intros p Hp. rewrite Forall_forall in Pz. apply intt_ntt, Pz, Hp. }
  assert (LA : length (ring_mat (p_k P) (p_l P) A) = p_k P) by (unfold ring_mat; rewrite map_length; apply seq_length).
  destruct (rows1_public _ _ Ht) as (_ & Lt & _).
  destruct (noisy_product_range 42 44 (ring_mat (p_k P) (p_l P) A) (rows1 t) c zr ltac:(lia) ltac:(lia)) as [Ln Fn].
  rewrite (proj2 hint_modulus) in Fn. rewrite (proj1 hint_modulus).
  rewrite get_h_eq; [|refine (Forall_impl _ _ Fh); intros x Hx; cbv beta in Hx; lia|rewrite Forall_forall in Fh; intros HI; specialize (Fh 31 HI); cbv beta in Fh; lia|exact Lh].
  rewrite add_mod_rows; [|exact Fn|refine (Forall_impl _ _ (rows_of_flat_Forall _ _ _ Fh Lh)); intros p Hp; apply Hp].
  unfold commitment. rewrite (proj2 hint_modulus).
  rewrite <- (chal_hash_value O); [f_equal| |apply add_mod_bytes].
  - unfold zipw. rewrite map_length, combine_length, Ln, LA, rows_of_flat_length. lia.
  - unfold zipw. rewrite map_length, combine_length, Ln, LA, rows_of_flat_length. pose proof (pf_k _ _ _ F). lia.
Qed.
Lemma verify_eq O fuel P pk msg sig :
  verify O fuel P pk msg sig =
  (o <- sig_from_bytes (p_kappa P) (p_k P) (p_l P) sig ;;
   match o with
   | None => Ok false
   | Some sg =>
      ok <- check_bounds (p_nuw P) (p_Binf P) (p_B22 P) sg ;;
      if negb ok then Ok false
      else
        mu <- bind_msg O P pk msg ;;
        A <- expandA O fuel (p_k P) (p_l P) (pk_seed pk) ;;
        c <- chal_poly O fuel (p_omega P) (sg_c sg) ;;
        Ok (negb (Z.shiftr (ct_eq_byte_array (sg_c sg) (recomputed O P A (pk_t pk) c sg mu)) 31 =? 0))
   end).
Proof. reflexivity. Qed.
Lemma ct_eq_bool a b : length a = length b -> (negb (Z.shiftr (ct_eq_byte_array a b) 31 =? 0) = true <-> a = b).
Proof.
  intros L. destruct (byte_eq a b L) as [E N]. destruct (list_eq_dec Z.eq_dec a b) as [D|D].
  - rewrite (E D). split; intros; [exact D|reflexivity].
  - rewrite (N D). split; intros H; [discriminate H|contradiction].
Qed.

(* enough fuel for the public matrix and for the challenge *)
Definition fuel_ok (O : oracles) (P : params) (seed c : list Z) (fuel : nat) : Prop :=
  (forall r cc, (r < p_k P)%nat -> (cc < p_l P)%nat -> (512 <= length (accepted49 (matrix_stream (hash_of O) seed r cc) fuel))%nat) /\
  (p_omega P <= distinct_count (challenge_stream (hash_of O) (p_omega P) c) fuel)%nat.
Lemma expandA_enough O fuel k l seed : (k <= 256)%nat -> (l <= 256)%nat ->
  (forall r cc, (r < k)%nat -> (cc < l)%nat -> (512 <= length (accepted49 (matrix_stream (hash_of O) seed r cc) fuel))%nat) ->
  expandA O fuel k l seed <> OutOfFuel.
Proof.
  intros Hk Hl H. assert (G : fn (expandA O fuel k l seed) (fun _ => True)); [|intros E; rewrite E in G; exact G].
  unfold expandA.
  assert (G : forall rs, (forall r, In r rs -> (r < k)%nat) -> forall A, fn (foldM (fun A ridx => foldM (fun A cidx =>
                    p <- sampleQ O fuel (expandA_hdr ridx cidx) seed ;; Ok (A ++ [p])) (seq 0 l) A) rs A) (fun _ => True)).
  { induction rs as [|r rs IH]; intros Hr A; [exact Logic.I|]. cbn [foldM]. apply fn_bind.
    apply (fn_mono _ (fun _ => True)); [|intros; apply IH; intros; apply Hr; right; assumption].
    assert (G2 : forall cs, (forall c, In c cs -> (c < l)%nat) -> forall A, fn (foldM (fun A cidx =>
                    p <- sampleQ O fuel (expandA_hdr r cidx) seed ;; Ok (A ++ [p])) cs A) (fun _ => True)).
    { induction cs as [|c cs IHc]; intros Hc A'; [exact Logic.I|]. cbn [foldM]. apply fn_bind.
      assert (Er : (r < k)%nat) by (apply Hr; left; reflexivity). assert (Ec : (c < l)%nat) by (apply Hc; left; reflexivity).
      assert (ES : exists p, sampleQ O fuel (expandA_hdr r c) seed = Ok p).
      { rewrite sampleQ_eq. unfold expandA_hdr. rewrite !Z.mod_small by lia. unfold take512.
        pose proof (H r c Er Ec) as H'. unfold matrix_stream in H'. apply Nat.leb_le in H'. rewrite H'. eexists. reflexivity. }
      destruct ES as (p & ->). cbn [bind fn]. apply IHc. intros; apply Hc; right; assumption. }
    apply G2. intros c Hc. apply in_seq in Hc. lia. }
  apply G. intros r Hr. apply in_seq in Hr. lia.
Qed.
Lemma sig_len_cl P : params_ok P = true -> 0 <= 2 * p_kappa P / 8 < p_siglen P /\ kbytes (2 * p_kappa P) = Z.to_nat (2 * p_kappa P / 8).
Proof.
  intros HP. destruct (params_facts P HP) as (kb & e & F). pose proof (pf_kappa _ _ _ F). pose proof (pf_kb _ _ _ F). pose proof (pf_siglen _ _ _ F).
  replace (2 * p_kappa P) with (Z.of_nat (2 * kb) * 8) by lia. rewrite Z.div_mul by lia. split; [lia|]. unfold kbytes. rewrite Z.div_mul by lia. reflexivity.
Qed.
Lemma norms_small P h z : params_ok P = true -> norms_ok (p_nuw P) (p_Binf P) (p_B22 P) h z -> Forall (fun x => Z.abs x <= 30) h.
Proof.
  intros HP (Nh & _). destruct (params_facts P HP) as (kb & e & F). refine (Forall_impl _ _ Nh). intros x Hx. cbv beta in Hx.
  rewrite (pf_nuw _ _ _ F) in Hx. pose proof (pf_Binf _ _ _ F).
  assert (p_Binf P / 2 ^ 44 <= 30); [|lia]. change (2 ^ 44) with 17592186044416. apply Z.div_le_upper_bound; lia.
Qed.
Lemma verify_spec O fuel P pk msg sig : params_ok P = true ->
  valid_public (Z.to_nat (p_kappa P / 8)) (p_k P) (pk_seed pk) (pk_t pk) -> Forall is_byte sig -> zlen sig = p_siglen P ->
  match verify O fuel P pk msg sig with
  | Ok b => b = true <-> valid_signature (hash_of O) (row_of P) (pk_seed pk) (pk_t pk) msg sig
  | UB => decode_sig (2 * p_kappa P / 8) (p_k P * 512) (p_l P * 512) sig = UB /\
      cut_signature (p_k P * 512) (p_l P * 512) (bits_of_bytes (skipn (Z.to_nat (2 * p_kappa P / 8)) sig))
  | OutOfFuel => exists c h z, signature_code c h z sig /\ windows_fit h z /\ zlen c = 2 * p_kappa P / 8 /\ Forall is_byte c /\
      length h = (p_k P * 512)%nat /\ length z = (p_l P * 512)%nat /\ ~ fuel_ok O P (pk_seed pk) c fuel
  end.
Proof.
  intros HP V Hb Ls. destruct (params_facts P HP) as (kb & e & F). destruct (sig_len_cl P HP) as [Hcl Ekb].
  pose proof (pf_k _ _ _ F) as Hk. pose proof (pf_l _ _ _ F) as Hl. pose proof (pf_omega _ _ _ F) as Ho.
  rewrite verify_eq. unfold sig_from_bytes. change PN with 512%nat.
  pose proof (decode_sound (2 * p_kappa P / 8) (p_k P * 512) (p_l P * 512) sig Hb ltac:(lia)) as D.
  assert (DC : forall c h z, length c = Z.to_nat (2 * p_kappa P / 8) -> length h = (p_k P * 512)%nat -> length z = (p_l P * 512)%nat ->
            Forall is_byte c -> signature_code c h z sig -> windows_fit h z -> decode_sig (2 * p_kappa P / 8) (p_k P * 512) (p_l P * 512) sig = Ok (Some (c, h, z))).
  { intros c h z Lc Lh Lz Bc S W. rewrite <- Lh, <- Lz. replace (2 * p_kappa P / 8) with (zlen c) by (unfold zlen; lia).
    apply decode_complete; try assumption. rewrite Lz. lia. }
  assert (VS : forall c h z A cp pkb n, c = challenge_value (hash_of O) n (commitment (p_nut P) (p_nuw P) A (rows1 (pk_t pk)) cp (map to_ring (rows_of_flat (p_l P) z)) (rows_of_flat (p_k P) h)) (bound_message (hash_of O) n pkb msg) -> Forall is_byte c).
  { intros c h z A cp pkb n ->. apply digest_bytes. }
  destruct (decode_sig (2 * p_kappa P / 8) (p_k P * 512) (p_l P * 512) sig) as [[[[c h] z]|]| |] eqn:ED; cbn [bind].
  4:{ destruct D. }
  3:{ split; [reflexivity|exact D]. }
  2:{ split; [discriminate|]. intros (c & h & z & A & cp & pkb & Lc & Lh & Lz & S & W & _ & _ & _ & _ & Ec).
      cbn [row_of r_k r_l r_kappa r_nut r_nuw] in *. rewrite !Nat2Z.id in *. pose proof (DC c h z Lc Lh Lz (VS c h z A cp pkb _ Ec) S W) as E. discriminate E. }
  destruct D as (Lc & Bc & Lh & Lz & W & S).
  assert (Uniq : forall c' h' z', length c' = Z.to_nat (2 * p_kappa P / 8) -> length h' = (p_k P * 512)%nat -> length z' = (p_l P * 512)%nat ->
            Forall is_byte c' -> signature_code c' h' z' sig -> windows_fit h' z' -> c' = c /\ h' = h /\ z' = z).
  { intros c' h' z' H1 H2 H3 H4 H5 H6. pose proof (DC c' h' z' H1 H2 H3 H4 H5 H6) as E. injection E as -> -> ->. split; [|split]; reflexivity. }
  destruct (windows_small h z W) as [Sh Sz].
  destruct (check_bounds_params P (Sig c h z) HP Lh Lz Sh Sz) as (b & Eb & Hbn). cbn [sg_h sg_z] in Hbn. rewrite Eb. cbn [bind].
  destruct b; cbn [negb].
  2:{ split; [discriminate|]. intros (c' & h' & z' & A & cp & pkb & Lc' & Lh' & Lz' & S' & W' & N & _ & _ & _ & Ec).
      cbn [row_of r_k r_l r_kappa r_nut r_nuw r_Binf r_B22] in *. rewrite !Nat2Z.id in *.
      destruct (Uniq c' h' z' Lc' Lh' Lz' (VS _ _ _ _ _ _ _ Ec) S' W') as (-> & -> & ->). apply Hbn in N. discriminate N. }
  destruct (proj1 Hbn eq_refl) as [Nh Nz]. pose proof (proj1 Hbn eq_refl) as N.
  destruct (bind_msg_ok O P pk msg HP V) as (pkb & Cpk & _ & _ & Ebm). rewrite Ebm. cbn [bind].
  pose proof (expandA_ok O fuel (p_k P) (p_l P) (pk_seed pk) ltac:(lia) ltac:(lia)) as EA.
  pose proof (expandA_enough O fuel (p_k P) (p_l P) (pk_seed pk) ltac:(lia) ltac:(lia)) as EN.
  destruct (expandA O fuel (p_k P) (p_l P) (pk_seed pk)) as [A| |]; cbn [bind wp] in *.
  2:{ destruct EA. }
  2:{ exists c, h, z. split; [exact S|]. split; [exact W|]. split; [exact Lc|]. split; [exact Bc|]. split; [exact Lh|]. split; [exact Lz|].
      intros [G _]. apply EN; [exact G|reflexivity]. }
  cbn [sg_c].
  pose proof (chal_poly_eq O fuel (p_omega P) c ltac:(lia)) as CE. pose proof (chal_poly_ok O fuel (p_omega P) c ltac:(lia)) as CO. cbv zeta in CE.
  destruct (chal_poly O fuel (p_omega P) c) as [cp| |]; cbn [bind wp] in *.
  2:{ destruct CO. }
  2:{ exists c, h, z. split; [exact S|]. split; [exact W|]. split; [exact Lc|]. split; [exact Bc|]. split; [exact Lh|]. split; [exact Lz|]. intros [_ G]. lia. }
  destruct EA as [LA UA]. destruct (ring_mat_public O (pk_seed pk) (p_k P) (p_l P) A LA UA) as [HA PM].
  assert (Pc : is_poly cp) by apply (challenge_poly_facts _ _ _ CO).
  rewrite recomputed_ok; [|exact HP|exact HA|exact (proj2 (proj2 V))|exact Pc|apply (norms_small P h z HP N)|exact Sz|exact Lh|exact Lz].
  cbn [sg_h sg_z]. rewrite ct_eq_bool by (unfold challenge_value; rewrite digest_length; unfold zlen in Lc; lia).
  split.
  - intros Ec. exists c, h, z, (ring_mat (p_k P) (p_l P) A), cp, pkb.
    cbn [row_of r_k r_l r_kappa r_nut r_nuw r_Binf r_B22 r_omega]. rewrite !Nat2Z.id.
    split; [unfold zlen in Lc; lia|]. split; [exact Lh|]. split; [exact Lz|]. split; [exact S|]. split; [exact W|]. split; [exact N|]. split; [exact PM|].
    split; [exact CO|]. split; [exact Cpk|]. rewrite <- Ekb. exact Ec.
  - intros (c' & h' & z' & A' & cp' & pkb' & Lc' & Lh' & Lz' & S' & W' & N' & PM' & CO' & Cpk' & Ec).
    cbn [row_of r_k r_l r_kappa r_nut r_nuw r_Binf r_B22 r_omega] in *. rewrite !Nat2Z.id in *.
    destruct (Uniq c' h' z' Lc' Lh' Lz' (VS _ _ _ _ _ _ _ Ec) S' W') as (-> & -> & ->).
    rewrite (public_matrix_fun _ _ _ _ _ _ PM' PM), (challenge_poly_fun _ _ _ _ CO' CO), (public_key_code_unique _ _ _ _ Cpk' Cpk) in Ec.
    rewrite Ekb. exact Ec.
Qed.

Lemma common_bound (R : nat -> nat -> Prop) n : (forall i a b, R i a -> (a <= b)%nat -> R i b) ->
  (forall i, (i < n)%nat -> exists m, R i m) -> exists m, forall i, (i < n)%nat -> R i m.
Proof.
  intros Mono. induction n as [|n IH]; intros H; [exists 0%nat; intros; lia|].
  destruct IH as (m & Hm); [intros; apply H; lia|]. destruct (H n ltac:(lia)) as (m' & Hm'). exists (Nat.max m m'). intros i Hi.
  destruct (Nat.eq_dec i n) as [->|D]; [apply (Mono _ m'); [exact Hm'|lia]|]. apply (Mono _ m); [apply Hm; lia|lia].
Qed.
Lemma accepted_mono S a b : (a <= b)%nat -> (length (accepted49 S a) <= length (accepted49 S b))%nat.
Proof. intros H. replace b with (a + (b - a))%nat by lia. rewrite accepted_app, app_length. lia. Qed.
Lemma fuel_ok_mono O P seed c a b : fuel_ok O P seed c a -> (a <= b)%nat -> fuel_ok O P seed c b.
Proof.
  intros [H1 H2] L. split.
  - intros r cc Hr Hc. pose proof (H1 r cc Hr Hc). pose proof (accepted_mono (matrix_stream (hash_of O) seed r cc) a b L). lia.
  - pose proof (distinct_count_mono (challenge_stream (hash_of O) (p_omega P) c) a b L). lia.
Qed.
Lemma fuel_exists O P seed c A cp : public_matrix (hash_of O) seed (p_k P) (p_l P) A ->
  challenge_poly (challenge_stream (hash_of O) (p_omega P) c) (p_omega P) cp -> exists f, fuel_ok O P seed c f.
Proof.
  intros (_ & _ & U) (n & Hn & _).
  assert (H : exists m, forall r, (r < p_k P)%nat -> (fun r m => forall cc, (cc < p_l P)%nat -> (512 <= length (accepted49 (matrix_stream (hash_of O) seed r cc) m))%nat) r m).
  { apply common_bound.
    - intros i a b Ha L cc Hc. pose proof (Ha cc Hc). pose proof (accepted_mono (matrix_stream (hash_of O) seed i cc) a b L). lia.
    - intros r Hr. apply (common_bound (fun cc m => (512 <= length (accepted49 (matrix_stream (hash_of O) seed r cc) m))%nat)).
      + intros i a b Ha L. pose proof (accepted_mono (matrix_stream (hash_of O) seed r i) a b L). lia.
      + intros cc Hc. destruct (U r cc Hr Hc) as (m & Hm & _). exists m. exact Hm. }
  destruct H as (m & Hm). exists (Nat.max m n). split.
  - intros r cc Hr Hc. pose proof (Hm r Hr cc Hc). pose proof (accepted_mono (matrix_stream (hash_of O) seed r cc) m (Nat.max m n) ltac:(lia)). lia.
  - pose proof (distinct_count_mono (challenge_stream (hash_of O) (p_omega P) c) n (Nat.max m n) ltac:(lia)). unfold distinct_count in *. lia.
Qed.
Lemma verify_complete O P pk msg sig : params_ok P = true ->
  valid_public (Z.to_nat (p_kappa P / 8)) (p_k P) (pk_seed pk) (pk_t pk) -> Forall is_byte sig -> zlen sig = p_siglen P ->
  valid_signature (hash_of O) (row_of P) (pk_seed pk) (pk_t pk) msg sig ->
  exists fuel0, forall fuel, (fuel0 <= fuel)%nat -> verify O fuel P pk msg sig = Ok true.
Proof.
  intros HP V Hb Ls VS. pose proof VS as (c & h & z & A & cp & pkb & Lc & Lh & Lz & S & W & N & PM & CO & Cpk & Ec).
  cbn [row_of r_k r_l r_kappa r_nut r_nuw r_Binf r_B22 r_omega] in *. rewrite !Nat2Z.id in *.
  destruct (params_facts P HP) as (kb & e & F). destruct (sig_len_cl P HP) as [Hcl Ekb]. pose proof (pf_l _ _ _ F) as Hl.
  assert (Bc : Forall is_byte c) by (rewrite Ec; apply digest_bytes).
  destruct (fuel_exists O P (pk_seed pk) c A cp PM CO) as (f0 & Hf0). exists f0. intros fuel Hf.
  assert (DC : forall c' h' z', zlen c' = 2 * p_kappa P / 8 -> length h' = (p_k P * 512)%nat -> length z' = (p_l P * 512)%nat ->
            Forall is_byte c' -> signature_code c' h' z' sig -> windows_fit h' z' -> decode_sig (2 * p_kappa P / 8) (p_k P * 512) (p_l P * 512) sig = Ok (Some (c', h', z'))).
  { intros c' h' z' Lc' Lh' Lz' Bc' S' W'. rewrite <- Lh', <- Lz', <- Lc'. apply decode_complete; try assumption. lia. }
  pose proof (DC c h z ltac:(unfold zlen; lia) Lh Lz Bc S W) as D.
  pose proof (verify_spec O fuel P pk msg sig HP V Hb Ls) as G. destruct (verify O fuel P pk msg sig) as [b| |].
  - f_equal. apply G. exact VS.
  - destruct G as [G _]. rewrite D in G. discriminate G.
  - destruct G as (c' & h' & z' & S' & W' & Lc' & Bc' & Lh' & Lz' & NF). pose proof (DC c' h' z' Lc' Lh' Lz' Bc' S' W') as D'. rewrite D in D'. injection D' as <- _ _.
    exfalso. apply NF. apply (fuel_ok_mono _ _ _ _ f0); assumption.
Qed.
