(* Binding of the challenge hash; undefined behaviour of verification. *)
From Coq Require Import ZArith Lia Bool List Arith.
From Coq Require Import ZifyBool ZifyNat.
From Verif Require Import ModelBase ModelU128 ModelField ModelUtils ModelPoly ModelVec ModelSerial ModelScheme.
From Verif Require Import Spec SpecScheme SpecSig SpecVerify.
From Verif Require Import Words FieldProofs ArithLemmas BytesProofs PolyProofs MaskedProofs SampleProofs PolyLemmas MaskedLemmas.
From Verif Require Import ParamProofs KeyLemmas PackProofs SigEnc SigDec2 SigExact SigLemmas SchemeCore VerifyProofs SignProofs.
Import ListNotations.
Open Scope Z_scope.
Ltac Zify.zify_post_hook ::= idtac.

Lemma app_inv_len {A} : forall (a b c d : list A), length a = length b -> a ++ c = b ++ d -> a = b /\ c = d.
Proof.
  induction a as [|x a IH]; intros [|y b] c d L E; cbn [length] in L; try lia; [split; [reflexivity|exact E]|].
  cbn [app] in E. injection E as -> E. destruct (IH b c d ltac:(lia) E) as [-> ->]. split; reflexivity.
Qed.
Lemma concat_inj (v : list (list Z)) : forall w, length v = length w -> Forall (fun p => length p = 512%nat) v -> Forall (fun p => length p = 512%nat) w ->
  concat v = concat w -> v = w.
Proof.
  induction v as [|p v IH]; intros [|p' w] L Fv Fw E; cbn [length] in L; try lia; [reflexivity|].
  inversion Fv; inversion Fw; subst. cbn [concat] in E. apply app_inv_len in E; [|lia]. destruct E as [-> E]. f_equal. apply IH; [lia|assumption..].
Qed.
(* the hash input determines the commitment and the digest *)
Lemma challenge_input_inj w w' mu mu' : Forall (fun p => length p = 512%nat) w -> Forall (fun p => length p = 512%nat) w' ->
  challenge_input w mu = challenge_input w' mu' -> w = w' /\ mu = mu'.
Proof.
  intros Fw Fw' E. unfold challenge_input in E. cbn [app] in E. injection E as E1 E2. assert (L : length w = length w') by lia.
  apply app_inv_len in E2; [|rewrite (concat_len512 w (length w')), (concat_len512 w' (length w')); auto].
  destruct E2 as [E2 ->]. split; [|reflexivity]. apply concat_inj; assumption.
Qed.
Lemma chal_hash_input O kappa k w mu : (k < 256)%nat -> length w = k -> Forall (fun p => length p = 512%nat /\ Forall is_byte p) w ->
  chal_hash O kappa k (map (fun p => [p]) w) mu = digest (hash_of O) (Z.to_nat (2 * kappa / 8)) (challenge_input w mu).
Proof.
  intros Hk L F. rewrite <- L. fold (one w). rewrite chal_hash_value; [reflexivity|lia|]. refine (Forall_impl _ _ F). intros p Hp. apply Hp.
Qed.

(* ---------- one signature, two messages or keys ---------- *)
Lemma commitment_rows nut A t c z h : length A = length t -> Forall (fun p => length p = 512%nat) (commitment nut 44 A t c z h).
Proof.
  intros L. unfold commitment, zipw. apply Forall_map, Forall_forall. intros (a & b) _. unfold add_mod_poly. rewrite map_length. apply seq_length.
Qed.
Lemma flat1_inj k a b : public_vec k a -> public_vec k b -> flat1 a = flat1 b -> a = b.
Proof.
  intros Ha Hb E. destruct (rows1_public _ _ Ha) as (Ea & La & _). destruct (rows1_public _ _ Hb) as (Eb & Lb & _).
  rewrite Ea, Eb. f_equal. apply concat_inj; [congruence| | |exact E].
  - destruct Ha as [_ F]. apply Forall_map. refine (Forall_impl _ _ F). intros row (p & -> & Lp & _). exact Lp.
  - destruct Hb as [_ F]. apply Forall_map. refine (Forall_impl _ _ F). intros row (p & -> & Lp & _). exact Lp.
Qed.
Lemma public_key_code_inj P a b bytes : params_ok P = true ->
  valid_public (Z.to_nat (p_kappa P / 8)) (p_k P) (pk_seed a) (pk_t a) -> valid_public (Z.to_nat (p_kappa P / 8)) (p_k P) (pk_seed b) (pk_t b) ->
  public_key_code (pk_seed a) (pk_t a) bytes -> public_key_code (pk_seed b) (pk_t b) bytes -> a = b.
Proof.
  intros HP Va Vb Ca Cb. destruct (params_facts P HP) as (kb & e & F).
  assert (L0 : zlen (repeat 0 (Z.to_nat (pk_byte_len P))) = pk_byte_len P) by (unfold zlen; rewrite repeat_length; pose proof (pf_pk _ _ _ F); lia).
  destruct (pk_key_roundtrip P a _ HP Va L0) as (ba & _ & _ & _ & Ca' & Da). destruct (pk_key_roundtrip P b _ HP Vb L0) as (bb & _ & _ & _ & Cb' & Db).
  rewrite (public_key_code_unique _ _ _ _ Ca' Ca) in Da. rewrite (public_key_code_unique _ _ _ _ Cb' Cb) in Db. rewrite Da in Db. apply ok_inj in Db. exact Db.
Qed.
(* ---------- the bit code of signatures is prefix free ---------- *)
Lemma ones_split n : forall m R R', repeat true n ++ false :: R = repeat true m ++ false :: R' -> n = m /\ R = R'.
Proof.
  induction n as [|n IH]; intros [|m] R R' E; cbn [repeat app] in E.
  - injection E as E. split; [reflexivity|exact E].
  - discriminate E.
  - discriminate E.
  - injection E as E. destruct (IH m R R' E) as [-> ->]. split; reflexivity.
Qed.
Lemma sign_tail x y (R R' : list bool) : Z.abs x = Z.abs y ->
  (if x =? 0 then [] else [x <? 0]) ++ R = (if y =? 0 then [] else [y <? 0]) ++ R' -> x = y /\ R = R'.
Proof.
  intros Ha E. destruct (Z.eqb_spec x 0) as [Hx|Hx], (Z.eqb_spec y 0) as [Hy|Hy]; try lia.
  - split; [lia|exact E].
  - cbn [app] in E. injection E as E1 E2. split; [|exact E2].
    destruct (Z.ltb_spec x 0), (Z.ltb_spec y 0); try discriminate E1; lia.
Qed.
Lemma code_h_prefix x y R R' : code_h x ++ R = code_h y ++ R' -> x = y /\ R = R'.
Proof.
  unfold code_h. rewrite <- !app_assoc. cbn [app]. intros E. apply ones_split in E. destruct E as [E1 E2].
  apply sign_tail in E2; [exact E2|lia].
Qed.
Lemma code_z_prefix x y R R' : code_z x ++ R = code_z y ++ R' -> x = y /\ R = R'.
Proof.
  unfold code_z. rewrite <- !app_assoc. intros E. apply app_inv_len in E; [|rewrite !bits_of_length; reflexivity]. destruct E as [E1 E2].
  cbn [app] in E2. apply ones_split in E2. destruct E2 as [E2 E3]. apply sign_tail in E3; [exact E3|].
  apply (f_equal bits_value) in E1. rewrite !bits_value_bits_of in E1. change (2 ^ Z.of_nat 40) with (2 ^ 40) in E1.
  assert (Hx : 0 <= Z.abs x / 2 ^ 40) by (apply Z.div_pos; lia). assert (Hy : 0 <= Z.abs y / 2 ^ 40) by (apply Z.div_pos; lia).
  rewrite (Z.div_mod (Z.abs x) (2 ^ 40)), (Z.div_mod (Z.abs y) (2 ^ 40)) by discriminate. apply Z2Nat.inj in E2; [|assumption..]. rewrite E1, E2. reflexivity.
Qed.
Lemma codes_prefix (code : Z -> list bool) : (forall x y R R', code x ++ R = code y ++ R' -> x = y /\ R = R') ->
  forall a b R R', length a = length b -> concat (map code a) ++ R = concat (map code b) ++ R' -> a = b /\ R = R'.
Proof.
  intros C. induction a as [|x a IH]; intros [|y b] R R' L E; cbn [length] in L; try lia; [split; [reflexivity|exact E]|].
  cbn [map concat] in E. rewrite <- !app_assoc in E. apply C in E. destruct E as [-> E].
  destruct (IH b R R' ltac:(lia) E) as [-> ->]. split; reflexivity.
Qed.
Lemma signature_code_inj c h z c' h' z' bytes : Forall is_byte c -> Forall is_byte c' -> length c = length c' -> length h = length h' -> length z = length z' ->
  signature_code c h z bytes -> signature_code c' h' z' bytes -> c = c' /\ h = h' /\ z = z'.
Proof.
  intros Bc Bc' Lc Lh Lz [n E] [n' E']. rewrite E in E'. apply app_inv_len in E'; [|rewrite !bits_of_bytes_length; lia]. destruct E' as [E1 E2].
  split; [apply bits_of_bytes_inj; assumption|]. unfold sig_code in E2. rewrite <- !app_assoc in E2.
  apply (codes_prefix _ code_h_prefix) in E2; [|exact Lh]. destruct E2 as [Eh E2].
  apply (codes_prefix _ code_z_prefix) in E2; [|exact Lz]. destruct E2 as [Ez _]. split; [exact Eh|exact Ez].
Qed.
Lemma claimed_commitment_fun H r seed t sig w w' : claimed_commitment H r seed t sig w -> claimed_commitment H r seed t sig w' -> w = w'.
Proof.
  intros (c & h & z & A & cp & Lc & Bc & Lh & Lz & S & M & C & E) (c' & h' & z' & A' & cp' & Lc' & Bc' & Lh' & Lz' & S' & M' & C' & E').
  destruct (signature_code_inj c h z c' h' z' sig Bc Bc' ltac:(congruence) ltac:(congruence) ltac:(congruence) S S') as (<- & <- & <-).
  rewrite E, E'. rewrite (public_matrix_fun _ _ _ _ _ _ M M'), (challenge_poly_fun _ _ _ _ C C'). reflexivity.
Qed.
(* all-ones bytes are no signature *)
Lemma ones_no_code c h z n : h <> [] -> ~ signature_code c h z (repeat 255 n).
Proof.
  intros Hh [m E].
  assert (T : forall n, bits_of_bytes (repeat 255 n) = repeat true (8 * n)).
  { clear. induction n as [|n IH]; [reflexivity|]. replace (8 * S n)%nat with (8 + 8 * n)%nat by lia. rewrite repeat_app, <- IH. reflexivity. }
  rewrite T in E. assert (I : In false (repeat true (8 * n))).
  { rewrite E. apply in_or_app. right. apply in_or_app. left. unfold sig_code. apply in_or_app. left.
    destruct h as [|x h]; [congruence|]. cbn [map concat]. apply in_or_app. left. unfold code_h. apply in_or_app. right. left. reflexivity. }
  apply repeat_spec in I. discriminate I.
Qed.
Lemma ones_not_valid O P seed t msg n : params_ok P = true -> ~ valid_signature (hash_of O) (row_of P) seed t msg (repeat 255 n).
Proof.
  intros HP (c & h & z & A & cp & b & Lc & Lh & Lz & S & _). apply (ones_no_code c h z n); [|exact S].
  cbn [row_of r_k] in Lh. rewrite Nat2Z.id in Lh. destruct (params_facts P HP) as (kb & e & F). pose proof (pf_k _ _ _ F) as K.
  intros ->. cbn [length] in Lh. lia.
Qed.

Lemma two_uses O fuel fuel' P pk pk' msg msg' sig : params_ok P = true ->
  valid_public (Z.to_nat (p_kappa P / 8)) (p_k P) (pk_seed pk) (pk_t pk) -> valid_public (Z.to_nat (p_kappa P / 8)) (p_k P) (pk_seed pk') (pk_t pk') ->
  Forall is_byte sig -> zlen sig = p_siglen P ->
  verify O fuel P pk msg sig = Ok true -> verify O fuel' P pk' msg' sig = Ok true -> (pk, msg) <> (pk', msg') ->
  let n := Z.to_nat (2 * p_kappa P / 8) in
  exists b b', public_key_code (pk_seed pk) (pk_t pk) b /\ public_key_code (pk_seed pk') (pk_t pk') b' /\
    let m := digest (hash_of O) n b ++ msg in let m' := digest (hash_of O) n b' ++ msg' in
    (b <> b' /\ digest (hash_of O) n b = digest (hash_of O) n b') \/
    (m <> m' /\ digest (hash_of O) n m = digest (hash_of O) n m') \/
    (exists w w', claimed_commitment (hash_of O) (row_of P) (pk_seed pk) (pk_t pk) sig w /\
       claimed_commitment (hash_of O) (row_of P) (pk_seed pk') (pk_t pk') sig w' /\
       let i := challenge_input w (digest (hash_of O) n m) in let i' := challenge_input w' (digest (hash_of O) n m') in
       i <> i' /\ digest (hash_of O) n i = digest (hash_of O) n i').
Proof.
  intros HP V V' Hb Ls E E' NE n. destruct (params_facts P HP) as (kb & e & F).
  pose proof (verify_spec O fuel P pk msg sig HP V Hb Ls) as G. rewrite E in G. apply proj1 in G. specialize (G eq_refl).
  pose proof (verify_spec O fuel' P pk' msg' sig HP V' Hb Ls) as G'. rewrite E' in G'. apply proj1 in G'. specialize (G' eq_refl).
  destruct G as (c & h & z & A & cp & b & Lc & Lh & Lz & S & W & N & PM & CO & Cpk & Ec).
  destruct G' as (c' & h' & z' & A' & cp' & b' & Lc' & Lh' & Lz' & S' & W' & N' & PM' & CO' & Cpk' & Ec').
  cbn [row_of r_k r_l r_kappa r_nut r_nuw r_Binf r_B22 r_omega] in *. rewrite !Nat2Z.id in *. fold n in Lc, Lc', Ec, Ec'.
  assert (Cc : c = c').
  { destruct S as [x X], S' as [x' X']. rewrite X in X'. apply app_inv_len in X'; [|rewrite !bits_of_bytes_length; lia]. destruct X' as [X' _].
    apply bits_of_bytes_inj; [rewrite Ec; apply digest_bytes|rewrite Ec'; apply digest_bytes|exact X']. }
  exists b, b'. split; [exact Cpk|]. split; [exact Cpk'|]. cbv zeta. unfold bound_message in *.
  destruct (rows1_public _ _ (proj2 (proj2 V))) as (_ & Lt & _). destruct (rows1_public _ _ (proj2 (proj2 V'))) as (_ & Lt' & _).
  set (w := commitment _ _ A _ _ _ _) in *. set (w' := commitment _ _ A' _ _ _ _) in *.
  assert (Fw : Forall (fun p => length p = 512%nat) w).
  { unfold w. rewrite (pf_nuw _ _ _ F). apply commitment_rows. rewrite (proj1 PM), Lt. reflexivity. }
  assert (Fw' : Forall (fun p => length p = 512%nat) w').
  { unfold w'. rewrite (pf_nuw _ _ _ F). apply commitment_rows. rewrite (proj1 PM'), Lt'. reflexivity. }
  set (tr := digest (hash_of O) n b) in *. set (tr' := digest (hash_of O) n b') in *.
  set (mu := digest (hash_of O) n (tr ++ msg)) in *. set (mu' := digest (hash_of O) n (tr' ++ msg')) in *.
  destruct (list_eq_dec Z.eq_dec (challenge_input w mu) (challenge_input w' mu')) as [D|D].
  2:{ right. right. exists w, w'. 
      assert (Bc : Forall is_byte c) by (rewrite Ec; apply digest_bytes).
      split; [|split; [|split; [exact D|]]].
      - exists c, h, z, A, cp. cbn [row_of r_k r_l r_kappa r_nut r_nuw r_omega]. rewrite !Nat2Z.id. fold n. repeat (split; [assumption|]). reflexivity.
      - exists c', h', z', A', cp'. cbn [row_of r_k r_l r_kappa r_nut r_nuw r_omega]. rewrite !Nat2Z.id. fold n. rewrite Cc in Bc. repeat (split; [assumption|]). reflexivity.
      -  unfold challenge_value in *. congruence. }
  apply challenge_input_inj in D; [|exact Fw|exact Fw']. destruct D as [_ Emu].
  destruct (list_eq_dec Z.eq_dec (tr ++ msg) (tr' ++ msg')) as [D|D]; [|right; left; split; [exact D|exact Emu]].
  apply app_inv_len in D; [|unfold tr, tr'; rewrite !digest_length; reflexivity]. destruct D as [Etr <-].
  left. split; [|exact Etr]. intros <-. apply NE. f_equal. apply (public_key_code_inj P pk pk' b); assumption.
Qed.

(* ---------- undefined behaviour ---------- *)
Lemma verify_decode_ub O fuel P pk msg sig : decode_sig (2 * p_kappa P / 8) (p_k P * 512) (p_l P * 512) sig = UB -> verify O fuel P pk msg sig = UB.
Proof. intros E. rewrite verify_eq. unfold sig_from_bytes. change PN with 512%nat. rewrite E. reflexivity. Qed.
Definition cut_sig128 : list Z := repeat 0 32 ++ cut_bytes ++ repeat 0 (Z.to_nat 11484).
Lemma verify_ub_128 O fuel pk msg : verify O fuel (raccoon128_params 1) pk msg cut_sig128 = UB.
Proof. apply verify_decode_ub. exact (decode_undefined (repeat 0 32) (repeat 0 (Z.to_nat 11484)) (5 * 512 - 1) (4 * 512)). Qed.
Lemma cut_sig128_ok : Forall is_byte cut_sig128 /\ zlen cut_sig128 = p_siglen (raccoon128_params 1).
Proof.
  split; [apply cut_bytes_ok|]. unfold cut_sig128, zlen. rewrite !app_length, !repeat_length. change (length cut_bytes) with 8%nat. cbn [raccoon128_params p_siglen]. lia.
Qed.
Lemma verify_ub_exact O fuel P pk msg sig : params_ok P = true ->
  valid_public (Z.to_nat (p_kappa P / 8)) (p_k P) (pk_seed pk) (pk_t pk) -> Forall is_byte sig -> zlen sig = p_siglen P ->
  (verify O fuel P pk msg sig = UB <-> overrun_signature (p_k P * 512) (p_l P * 512) (bits_of_bytes (skipn (Z.to_nat (2 * p_kappa P / 8)) sig))).
Proof.
  intros HP V Hb Ls. destruct (params_facts P HP) as (kb & e & F). destruct (sig_len_cl P HP) as [Hcl _]. pose proof (pf_l _ _ _ F) as Hl.
  rewrite <- (decode_exact (2 * p_kappa P / 8) (p_k P * 512) (p_l P * 512) sig Hb) by lia. split; [|apply verify_decode_ub].
  intros E. pose proof (verify_spec O fuel P pk msg sig HP V Hb Ls) as G. rewrite E in G. apply G.
Qed.
Lemma verify_no_ub O fuel P pk msg sig : params_ok P = true ->
  valid_public (Z.to_nat (p_kappa P / 8)) (p_k P) (pk_seed pk) (pk_t pk) -> Forall is_byte sig -> zlen sig = p_siglen P ->
  ~ overrun_signature (p_k P * 512) (p_l P * 512) (bits_of_bytes (skipn (Z.to_nat (2 * p_kappa P / 8)) sig)) ->
  verify O fuel P pk msg sig <> UB.
Proof. intros HP V Hb Ls NC E. apply NC. apply (verify_ub_exact O fuel P pk msg sig HP V Hb Ls). exact E. Qed.
