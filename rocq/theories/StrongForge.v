(* Two accepted signatures with the same challenge string. *)
From Coq Require Import ZArith List Bool Lia Arith.
From Verif Require Import ModelBase ModelU128 ModelField ModelUtils ModelPoly ModelVec ModelSerial ModelScheme.
From Verif Require Import Spec SpecScheme SpecSig SpecVerify SpecLattice.
From Verif Require Import Words FieldProofs ArithLemmas BytesProofs PolyProofs NttLayers NttProofs NttEval MoreProofs MaskedProofs PolyLemmas MaskedLemmas ParamProofs KeyLemmas SampleProofs SigEnc SigLemmas SchemeCore BoundProofs KeygenProofs SignProofs VerifyProofs SignVerify HashLemmas LatticeProofs LatticeScheme.
Import ListNotations.
Open Scope Z_scope.
Ltac Zify.zify_post_hook ::= idtac.

Lemma code_prefix c h z sig : Forall is_byte c -> Forall is_byte sig -> (length c <= length sig)%nat -> signature_code c h z sig -> firstn (length c) sig = c.
Proof.
  intros Hc Hs L [n E]. rewrite <- (firstn_skipn (length c) sig) in E at 1. rewrite bits_of_bytes_app in E. apply app_inv_len in E; [|rewrite !bits_of_bytes_length, firstn_length; lia].
  apply bits_of_bytes_inj; [|exact Hc|apply E]. apply Forall_forall. intros x Hx. rewrite Forall_forall in Hs. apply Hs. rewrite <- (firstn_skipn (length c) sig). apply in_or_app. left. exact Hx.
Qed.
Lemma concat_rows_of_flat : forall k (xs : list Z), length xs = (k * 512)%nat -> concat (rows_of_flat k xs) = xs.
Proof.
  induction k as [|k IH]; intros xs L; [destruct xs; [reflexivity|discriminate L]|]. unfold rows_of_flat in *. cbn [seq map concat]. rewrite <- seq_shift, map_map.
  transitivity (firstn 512 xs ++ skipn 512 xs); [|apply firstn_skipn]. f_equal. rewrite <- (IH (skipn 512 xs)) by (rewrite skipn_length, L; cbn [Nat.mul]; clear; lia). f_equal. apply map_ext. intros i. unfold row_of_flat. f_equal. symmetry. apply skipn_skipn'.
Qed.
Lemma residues_inj m b : 2 * b < m -> forall xs ys, Forall (fun x => Z.abs x <= b) xs -> Forall (fun x => Z.abs x <= b) ys -> map (fun x => x mod m) xs = map (fun x => x mod m) ys -> xs = ys.
Proof.
  intros Hb. induction xs as [|x xs IH]; intros [|y ys] FX FY E; try discriminate E; [reflexivity|]. cbn [map] in E. inversion FX; inversion FY; subst.
  pose proof (cons_eq _ _ _ _ E) as [E1 E2]. f_equal; [|apply IH; assumption].
  assert (D : (x - y) mod m = 0) by (rewrite Zminus_mod, E1, Z.sub_diag; apply Z.mod_0_l; lia).
  apply Z.mod_divide in D; [|lia]. destruct D as [t Et]. assert (t = 0) by nia. subst t. lia.
Qed.

(* equal commitments with the same product have equal hints *)
Lemma hints_determined m b : 2 * b < m -> forall y h h', Forall (fun r => length r = 512%nat /\ Forall (fun x => Z.abs x <= b) r) h -> Forall (fun r => length r = 512%nat /\ Forall (fun x => Z.abs x <= b) r) h' ->
  length h = length y -> length h' = length y -> zipw (add_mod_poly m) y h = zipw (add_mod_poly m) y h' -> h = h'.
Proof.
  intros Hb. induction y as [|y0 y IH]; intros [|r h] [|r' h'] F F' L L' E; cbn [length] in *; try discriminate; [reflexivity|].
  change (zipw (add_mod_poly m) (y0 :: y) (r :: h)) with (add_mod_poly m y0 r :: zipw (add_mod_poly m) y h) in E.
  change (zipw (add_mod_poly m) (y0 :: y) (r' :: h')) with (add_mod_poly m y0 r' :: zipw (add_mod_poly m) y h') in E.
  pose proof (cons_eq _ _ _ _ E) as [E1 E2]. clear E. inversion F as [|? ? [Lr Fr] Fh]; inversion F' as [|? ? [Lr' Fr'] Fh']; subst. f_equal; [|apply IH; try assumption; lia].
  apply (residues_inj m b Hb); [assumption|assumption|]. apply (nth_ext _ _ 0 0); [rewrite !map_length; congruence|]. intros i Hi. rewrite map_length, Lr in Hi.
  assert (X : forall s, length s = 512%nat -> nth i (map (fun x => x mod m) s) 0 = coef s i mod m) by (intros s Ls; rewrite (nth_indep _ 0 (0 mod m)) by (rewrite map_length; lia); rewrite (map_nth (fun x => x mod m)); reflexivity).
  rewrite !X by assumption. assert (Y : coef (add_mod_poly m y0 r) i = coef (add_mod_poly m y0 r') i) by (rewrite E1; reflexivity).
  unfold add_mod_poly in Y. unfold coef at 1 4 in Y. rewrite !(nth_map_seq (fun i => _)) in Y by exact Hi.
  replace (coef r i) with (coef y0 i + coef r i - coef y0 i) by ring. replace (coef r' i) with (coef y0 i + coef r' i - coef y0 i) by ring.
  rewrite Zminus_mod, Y, <- Zminus_mod. reflexivity.
Qed.
Lemma sub_list_zero : forall a b, Forall is_poly a -> Forall is_poly b -> length a = length b -> zipw ring_sub a b = repeat ring_zero (length a) -> a = b.
Proof.
  induction a as [|x a IH]; intros [|y b] FA FB L E; cbn [length] in *; try discriminate; [reflexivity|]. inversion FA; inversion FB; subst.
  change (zipw ring_sub (x :: a) (y :: b)) with (ring_sub x y :: zipw ring_sub a b) in E. cbn [repeat] in E. pose proof (cons_eq _ _ _ _ E) as [E1 E2].
  f_equal; [apply sub_zero_eq; assumption|apply IH; try assumption; lia].
Qed.
Lemma ring_sub_self a : ring_sub a a = ring_zero.
Proof.
  apply poly_ext; [apply is_poly_length, ring_sub_poly|apply is_poly_length, ring_zero_poly|]. intros c Hc. rewrite NttEval.coef_sub by exact Hc. rewrite Z.sub_diag, coef_ring_zero by exact Hc. reflexivity.
Qed.
Lemma same_challenge O fuel fuel' P pk msg msg' sig sig' : params_ok P = true ->
  valid_public (Z.to_nat (p_kappa P / 8)) (p_k P) (pk_seed pk) (pk_t pk) ->
  Forall is_byte sig -> zlen sig = p_siglen P -> Forall is_byte sig' -> zlen sig' = p_siglen P ->
  verify O fuel P pk msg sig = Ok true -> verify O fuel' P pk msg' sig' = Ok true -> sig <> sig' ->
  let n := Z.to_nat (2 * p_kappa P / 8) in firstn n sig = firstn n sig' ->
  exists pkb, public_key_code (pk_seed pk) (pk_t pk) pkb /\
  let mu := bound_message (hash_of O) n pkb msg in let mu' := bound_message (hash_of O) n pkb msg' in
  (exists w w', claimed_commitment (hash_of O) (row_of P) (pk_seed pk) (pk_t pk) sig w /\ claimed_commitment (hash_of O) (row_of P) (pk_seed pk) (pk_t pk) sig' w' /\
     challenge_input w mu <> challenge_input w' mu' /\ digest (hash_of O) n (challenge_input w mu) = digest (hash_of O) n (challenge_input w' mu')) \/
  (exists A u v, public_matrix (hash_of O) (pk_seed pk) (p_k P) (p_l P) A /\ length u = p_l P /\ length v = p_k P /\
     Forall (bounded_by (2 * p_Binf P)) u /\ Forall (bounded_by (2 * opening_error (row_of P))) v /\ u <> repeat ring_zero (p_l P) /\
     zipw ring_add (ring_matvec A u) v = repeat ring_zero (p_k P)).
Proof.
  intros HP V Hb Ls Hb' Ls' E E' NE n EC. destruct (params_facts P HP) as (kb & e0 & F). pose proof (pf_omega _ _ _ F) as Ho.
  destruct (accepted_opens O fuel P pk msg sig HP V Hb Ls E) as (c & h & z & A & cp & b & w & e & S1 & S2 & S3 & S4 & S5 & S6 & S7 & S8 & S9 & O1 & O2 & O3 & O4 & O5).
  destruct (accepted_opens O fuel' P pk msg' sig' HP V Hb' Ls' E') as (c' & h' & z' & A2 & cp' & b' & w' & e' & S1' & S2' & S3' & S4' & S5' & S6' & S7' & S8' & S9' & O1' & O2' & O3' & O4' & O5').
  fold n in S1, S1', S9, S9'.
  assert (Bc : Forall is_byte c) by (rewrite S9; apply digest_bytes). assert (Bc' : Forall is_byte c') by (rewrite S9'; apply digest_bytes).
  assert (LL : (n <= length sig)%nat /\ (n <= length sig')%nat).
  { assert (X : Z.of_nat n <= p_siglen P) by (unfold n; clear - HP; destruct (params_ok_cases P HP) as (d & _ & C); destruct C as [->|[->| ->]]; vm_compute; discriminate). unfold zlen in Ls, Ls'. lia. }
  assert (Cc : c' = c).
  { rewrite <- (code_prefix c h z sig Bc Hb) by (try assumption; lia). rewrite <- (code_prefix c' h' z' sig' Bc' Hb') by (try assumption; lia). rewrite S1, S1'. symmetry. exact EC. }
  rewrite Cc in S1', S4', S6', S9', Bc'. clear Cc c'. assert (b' = b) by (destruct S7 as (p & -> & Y1 & Y2), S7' as (p' & -> & Y1' & Y2'); f_equal; apply bits_of_bytes_inj; [assumption|assumption|exact (eq_trans Y2' (eq_sym Y2))]). subst b'.
  assert (A2 = A) by exact (public_matrix_fun _ _ _ _ _ _ S5' S5). subst A2. assert (cp' = cp) by exact (challenge_poly_fun _ _ _ _ S6' S6). subst cp'.
  exists b. split; [exact S7|]. cbv zeta. set (mu := bound_message (hash_of O) n b msg) in *. set (mu' := bound_message (hash_of O) n b msg') in *.
  destruct (list_eq_dec Z.eq_dec (challenge_input w mu) (challenge_input w' mu')) as [D|D].
  2:{ left. exists w, w'. split; [exact S8|]. split; [exact S8'|]. split; [exact D|]. unfold challenge_value in *. congruence. }
  right. destruct (rows1_public _ _ (proj2 (proj2 V))) as (_ & Lt & _).
  (* the decoded triples satisfy the norm bounds, and the commitments are computed from them *)
  assert (FACT : forall f m s h0 z0 w0, Forall is_byte s -> zlen s = p_siglen P -> verify O f P pk m s = Ok true -> length h0 = (p_k P * 512)%nat -> length z0 = (p_l P * 512)%nat -> signature_code c h0 z0 s ->
    claimed_commitment (hash_of O) (row_of P) (pk_seed pk) (pk_t pk) s w0 ->
    Forall (fun x => Z.abs x <= p_Binf P / 2 ^ p_nuw P) h0 /\ Forall (fun x => Z.abs x <= p_Binf P) z0 /\
    w0 = zipw (add_mod_poly (q / 2 ^ p_nuw P)) (noisy_product (p_nut P) (p_nuw P) A (rows1 (pk_t pk)) cp (map to_ring (rows_of_flat (p_l P) z0))) (rows_of_flat (p_k P) h0)).
  { intros f m s h0 z0 w0 Bs Lss Ev Lh0 Lz0 SC CW. pose proof (verify_spec O f P pk m s HP V Bs Lss) as G. rewrite Ev in G. apply proj1 in G. specialize (G eq_refl).
    destruct G as (c1 & h1 & z1 & A1 & cp1 & b1 & T1 & T2 & T3 & T4 & T5 & (T6 & T7 & _) & _ & _ & _ & T8).
    destruct CW as (c2 & h2 & z2 & A2 & cp2 & U1 & U2 & U3 & U4 & U5 & U6 & U7 & U8).
    cbn [row_of r_k r_l r_kappa r_nut r_nuw r_Binf r_B22 r_omega] in *. rewrite !Nat2Z.id in *. fold n in T1, U1.
    assert (B1 : Forall is_byte c1) by (rewrite T8; apply digest_bytes).
    destruct (signature_code_inj c1 h1 z1 c h0 z0 s B1 Bc ltac:(congruence) ltac:(congruence) ltac:(congruence) T4 SC) as (-> & -> & ->).
    destruct (signature_code_inj c2 h2 z2 c h0 z0 s U2 Bc ltac:(congruence) ltac:(congruence) ltac:(congruence) U5 SC) as (-> & -> & ->).
    split; [exact T6|]. split; [exact T7|]. rewrite U8, (public_matrix_fun _ _ _ _ _ _ U6 S5), (challenge_poly_fun _ _ _ _ U7 S6). reflexivity. }
  destruct (FACT _ _ _ h z w Hb Ls E S2 S3 S4 S8) as (Nh & Nz & Ew). destruct (FACT _ _ _ h' z' w' Hb' Ls' E' S2' S3' S4' S8') as (Nh' & Nz' & Ew'). clear FACT.
  assert (LNP : forall zz, length (noisy_product (p_nut P) (p_nuw P) A (rows1 (pk_t pk)) cp zz) = p_k P).
  { intros zz. unfold noisy_product. rewrite map_length, zipw_map2, map2_length, map_length, Lt. unfold ring_matvec. rewrite map_length, (proj1 S5). apply Nat.min_id. }
  assert (LW : forall zz hh, length (rows_of_flat (p_k P) hh) = p_k P -> length (zipw (add_mod_poly (q / 2 ^ p_nuw P)) (noisy_product (p_nut P) (p_nuw P) A (rows1 (pk_t pk)) cp zz) (rows_of_flat (p_k P) hh)) = p_k P).
  { intros zz hh Lhh. rewrite zipw_map2, map2_length, LNP, Lhh. apply Nat.min_id. }
  assert (RW : forall zz hh, Forall (fun p => length p = 512%nat) (zipw (add_mod_poly (q / 2 ^ p_nuw P)) (noisy_product (p_nut P) (p_nuw P) A (rows1 (pk_t pk)) cp zz) (rows_of_flat (p_k P) hh))).
  { intros zz hh. unfold zipw. apply Forall_map, Forall_forall. intros (x & y) _. unfold add_mod_poly. rewrite map_length. apply seq_length. }
  apply challenge_input_inj in D; [|rewrite Ew; apply RW|rewrite Ew'; apply RW]. destruct D as [Dw _]. subst w'.
  cbn [row_of r_k r_l r_Binf] in O1, O2, O3, O1', O2', O3'. rewrite Nat2Z.id in O1, O2, O1', O2'.
  set (zz := map to_ring (rows_of_flat (p_l P) z)) in *. set (zz' := map to_ring (rows_of_flat (p_l P) z')) in *.
  pose proof (challenge_bounded O (p_omega P) c cp ltac:(lia) S6) as Bcp. pose proof (bounded_poly _ _ Bcp) as Pc.
  assert (Pz : Forall is_poly zz) by (refine (Forall_impl _ _ O3); apply bounded_poly). assert (Pz' : Forall is_poly zz') by (refine (Forall_impl _ _ O3'); apply bounded_poly).
  exists A, (zipw ring_sub zz zz'), (zipw ring_sub e e'). split; [exact S5|].
  split; [unfold zipw; rewrite map_length, combine_length, O1, O1'; apply Nat.min_id|].
  split; [unfold zipw; rewrite map_length, combine_length, O2, O2'; apply Nat.min_id|].
  split; [replace (2 * p_Binf P) with (p_Binf P + p_Binf P) by ring; apply bounded_sub_list; assumption|].
  split; [replace (2 * opening_error (row_of P)) with (opening_error (row_of P) + opening_error (row_of P)) by ring; apply bounded_sub_list; assumption|].
  split.
  - intros X. rewrite <- O1 in X. apply sub_list_zero in X; [|exact Pz|exact Pz'|congruence].
    assert (Q1 : 2 * p_Binf P < q /\ 2 * (p_Binf P / 2 ^ p_nuw P) < q / 2 ^ p_nuw P).
    { rewrite q_Q, Q_val. clear - HP. destruct (params_ok_cases P HP) as (d & _ & C). destruct C as [->|[->| ->]]; split; vm_compute; reflexivity. }
    assert (Ez : z = z').
    { apply (residues_inj q (p_Binf P) (proj1 Q1) z z' Nz Nz'). rewrite <- (concat_rows_of_flat (p_l P) z S3), <- (concat_rows_of_flat (p_l P) z' S3'). rewrite !concat_map.
      exact (f_equal (@concat Z) X). }
    assert (Eh : h = h').
    { rewrite <- (concat_rows_of_flat (p_k P) h S2), <- (concat_rows_of_flat (p_k P) h' S2'). f_equal. rewrite Ew in Ew'. rewrite <- X in Ew'.
      assert (RH : forall hh, length hh = (p_k P * 512)%nat -> Forall (fun x => Z.abs x <= p_Binf P / 2 ^ p_nuw P) hh -> Forall (fun r => length r = 512%nat /\ Forall (fun x => Z.abs x <= p_Binf P / 2 ^ p_nuw P) r) (rows_of_flat (p_k P) hh)).
      { intros hh Lhh Fhh. apply Forall_map, Forall_forall. intros i Hi. apply in_seq in Hi. apply (row_of_flat_spec (p_k P)); [exact Lhh|lia|exact Fhh]. }
      apply (hints_determined (q / 2 ^ p_nuw P) (p_Binf P / 2 ^ p_nuw P) (proj2 Q1) (noisy_product (p_nut P) (p_nuw P) A (rows1 (pk_t pk)) cp zz)).
      - apply RH; assumption.
      - apply RH; assumption.
      - rewrite LNP. apply rows_of_flat_length.
      - rewrite LNP. apply rows_of_flat_length.
      - exact Ew'. }
    subst z' h'. apply NE. apply (signature_code_unique c h z); [exact Hb|exact Hb'|unfold zlen in *; lia|exact S4|exact S4'].
  - assert (Lw : length w = p_k P) by (rewrite Ew; apply LW, rows_of_flat_length).
    etransitivity; [exact (two_openings (p_nut P) (p_nuw P) A (rows1 (pk_t pk)) cp cp zz zz' w e e' (p_k P) (p_l P) (p_Binf P) (opening_error (row_of P)) (proj1 S5) (proj1 (proj2 S5)) Lt O1 O1' Pc Pc O3 O3' O4 O4' O2 O2' Lw O5 O5')|].
    rewrite ring_sub_self. rewrite <- Lt. clear. induction (rows1 (pk_t pk)) as [|p t IH]; [reflexivity|]. cbn [map length repeat]. rewrite IH. f_equal. apply MoreProofs.ring_mul_zero_r.
Qed.
