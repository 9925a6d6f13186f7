(* Verification with two hash functions that agree on the inputs it needs: the same outcome, waiting included. *)
From Coq Require Import ZArith Lia Bool List Arith.
From Verif Require Import ModelBase ModelU128 ModelField ModelUtils ModelPoly ModelVec ModelSerial ModelScheme.
From Verif Require Import Spec SpecScheme SpecSig SpecVerify SpecHash.
From Verif Require Import FieldProofs ArithLemmas PolyProofs PolyLemmas ParamProofs KeyLemmas SigEnc SigDec2 SchemeCore VerifyProofs HashLemmas HashQueries SampleLemmas.
Import ListNotations.
Open Scope Z_scope.
Ltac Zify.zify_post_hook ::= idtac.

Lemma foldM_same {S A} (f g : S -> A -> res S) l : (forall s a, In a l -> f s a = g s a) -> forall s, foldM f l s = foldM g l s.
Proof.
  induction l as [|a l IH]; intros H s; [reflexivity|]. cbn [foldM]. rewrite (H s a (or_introl eq_refl)). destruct (g s a); cbn [bind]; [|reflexivity..].
  apply IH. intros s' b Hb. apply H. right. exact Hb.
Qed.
Section Agree.
  Variables (O O' : oracles).
  Lemma squeeze_same x n : (forall i, shake256 O (xof_in x) i = shake256 O' (xof_in x) i) -> xof_squeeze O x n = xof_squeeze O' x n.
  Proof. intros H. unfold xof_squeeze. f_equal. apply map_ext. intros i. rewrite H. reflexivity. Qed.
  Lemma sampleQ_loop_same m : (forall i, shake256 O m i = shake256 O' m i) -> forall f o buf off acc,
    sampleQ_loop O f (Xof m o) buf off acc = sampleQ_loop O' f (Xof m o) buf off acc.
  Proof.
    intros H. induction f as [|f IH]; intros o buf off acc; cbn [sampleQ_loop]; [reflexivity|]. destruct (PN <=? length acc)%nat; [reflexivity|].
    rewrite (squeeze_same (Xof m o)) by exact H. destruct (length buf <? off + NEEDED_BYTES)%nat; cbn [xof_squeeze xof_in xof_out]; destruct (Q <=? _); apply IH.
  Qed.
  Lemma sampleQ_same f hdr s : (forall i, shake256 O (hdr ++ s) i = shake256 O' (hdr ++ s) i) -> sampleQ O f hdr s = sampleQ O' f hdr s.
  Proof.
    intros H. unfold sampleQ. cbn [xof_absorb xof_new xof_in xof_out app]. rewrite (squeeze_same (Xof (hdr ++ s) 0)) by exact H.
    cbn [xof_squeeze xof_in xof_out]. apply sampleQ_loop_same, H.
  Qed.
  Lemma chal_loop_same m : (forall i, shake256 O m i = shake256 O' m i) -> forall f omega o p n,
    chal_poly_loop O f omega (Xof m o) p n = chal_poly_loop O' f omega (Xof m o) p n.
  Proof.
    intros H. induction f as [|f IH]; intros omega o p n; cbn [chal_poly_loop]; [reflexivity|]. destruct (omega <=? n)%nat; [reflexivity|].
    rewrite (squeeze_same (Xof m o)) by exact H. cbn [xof_squeeze xof_in xof_out]. destruct (chal_step p _) as [p' inc]. apply IH.
  Qed.
  Lemma chal_same f omega c : (omega < 256)%nat -> (forall i, shake256 O (query_input (hq_challenge omega c)) i = shake256 O' (query_input (hq_challenge omega c)) i) ->
    chal_poly O f omega c = chal_poly O' f omega c.
  Proof.
    intros Ho H. unfold chal_poly. rewrite Z.mod_small by lia. cbn [xof_absorb xof_new xof_in xof_out app]. apply chal_loop_same, H.
  Qed.
  Lemma expand_same f k l seed : (k <= 256)%nat -> (l <= 256)%nat ->
    (forall r c, (r < k)%nat -> (c < l)%nat -> forall i, shake256 O (query_input (hq_matrix r c seed)) i = shake256 O' (query_input (hq_matrix r c seed)) i) ->
    expandA O f k l seed = expandA O' f k l seed.
  Proof.
    intros Hk Hl H. unfold expandA. apply foldM_same. intros A r Hr. apply in_seq in Hr. apply foldM_same. intros A' c Hc. apply in_seq in Hc.
    rewrite sampleQ_same; [reflexivity|]. unfold expandA_hdr. rewrite !Z.mod_small by lia. apply H; lia.
  Qed.
End Agree.
Lemma decode_prefix cl nh nz sig c h z : decode_sig cl nh nz sig = Ok (Some (c, h, z)) -> c = firstn (Z.to_nat cl) sig.
Proof.
  rewrite decode_sig_eq. intros E. apply bind_ok_inv in E. destruct E as (c0 & E0 & E).
  apply bind_ok_inv in E. destruct E as ([[ok st] h0] & _ & E). destruct (negb ok); [discriminate E|]. destruct (_ || _); [discriminate E|].
  apply bind_ok_inv in E. destruct E as ([[ok2 st2] z0] & _ & E). destruct (negb ok2); [discriminate E|]. destruct (negb _); [discriminate E|].
  apply bind_ok_inv in E. destruct E as (b & _ & E). destruct b; [|discriminate E]. injection E as <- _ _.
  unfold subspan in E0. destruct (_ && _); [|discriminate E0]. injection E0 as <-. reflexivity.
Qed.
Lemma verify_same O O' fuel P pk pkb msg sig : params_ok P = true ->
  valid_public (Z.to_nat (p_kappa P / 8)) (p_k P) (pk_seed pk) (pk_t pk) ->
  public_key_code (pk_seed pk) (pk_t pk) pkb ->
  (forall m, verify_input (hash_of O) (row_of P) (pk_seed pk) pkb msg sig m -> forall i, shake256 O m i = shake256 O' m i) ->
  verify O fuel P pk msg sig = verify O' fuel P pk msg sig.
Proof.
  intros HP V CP AG. destruct (params_facts P HP) as (kb & e & F). pose proof (agree_hash O O' _ AG) as AH. destruct (row_fields P) as (Rk & Rl & Ro & _ & _ & Rka).
  pose proof (pf_omega _ _ _ F) as Ho. pose proof (pf_k _ _ _ F) as Hk. pose proof (pf_l _ _ _ F) as Hl.
  unfold verify. destruct (sig_from_bytes (p_kappa P) (p_k P) (p_l P) sig) as [[sg|]| |] eqn:ED; [|reflexivity..]. cbn [bind].
  destruct (check_bounds (p_nuw P) (p_Binf P) (p_B22 P) sg) as [ok| |]; [|reflexivity..]. cbn [bind]. destruct (negb ok); [reflexivity|].
  unfold sig_from_bytes in ED. apply bind_ok_inv in ED. destruct ED as ([[[c h] z]|] & ED & E1); [|discriminate E1]. injection E1 as <-.
  apply decode_prefix in ED. cbn [sg_c].
  assert (EB : bind_msg O P pk msg = bind_msg O' P pk msg).
  { destruct (bind_msg_ok O P pk msg HP V) as (b & Cb & _ & _ & ->). destruct (bind_msg_ok O' P pk msg HP V) as (b' & Cb' & _ & _ & ->).
    rewrite (public_key_code_unique _ _ _ _ Cb CP), (public_key_code_unique _ _ _ _ Cb' CP). f_equal. unfold bound_message.
    rewrite <- (digest_ext (hash_of O) (hash_of O') _ pkb) by (intros i; apply AH; left; reflexivity).
    apply digest_ext. intros i. apply AH. right. left. rewrite Rka. reflexivity. }
  rewrite EB. destruct (bind_msg O' P pk msg) as [mu| |]; [|reflexivity..]. cbn [bind].
  assert (EA : expandA O fuel (p_k P) (p_l P) (pk_seed pk) = expandA O' fuel (p_k P) (p_l P) (pk_seed pk)).
  { apply expand_same; [lia|lia|]. intros r c0 Hr Hc. apply AG. right. right. left. exists r, c0. rewrite Rk, Rl. split; [exact Hr|]. split; [exact Hc|reflexivity]. }
  rewrite EA. destruct (expandA O' fuel (p_k P) (p_l P) (pk_seed pk)) as [A| |]; [|reflexivity..]. cbn [bind].
  assert (EC : chal_poly O fuel (p_omega P) c = chal_poly O' fuel (p_omega P) c).
  { apply chal_same; [lia|]. apply AG. do 3 right. left. rewrite Ro, Rka, ED. reflexivity. }
  rewrite EC. destruct (chal_poly O' fuel (p_omega P) c) as [cp| |]; [|reflexivity..]. cbn [bind].
  assert (EH : forall w, chal_hash O (p_kappa P) (p_k P) w mu = chal_hash O' (p_kappa P) (p_k P) w mu).
  { intros w. rewrite !chal_hash_digest. apply digest_ext. intros i. apply AH. do 4 right. exists (map (fun x => x mod 256) (pv_flat w) ++ mu).
    rewrite Rk, Z.mod_small by lia. reflexivity. }
  cbv zeta. rewrite EH. reflexivity.
Qed.
