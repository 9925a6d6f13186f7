(* A hash function under which two messages get challenges that differ in one sign; used by a non-vacuity example. *)
From Coq Require Import ZArith Lia Bool List Arith.
From Coq Require Import ZifyBool ZifyNat.
From Verif Require Import ModelBase ModelField ModelUtils ModelPoly ModelVec ModelSerial ModelScheme.
From Verif Require Import Spec SpecScheme SpecSig SpecVerify SpecReuse.
From Verif Require Import FieldProofs ArithLemmas PolyProofs ParamProofs KeyLemmas SampleProofs FinProofs ExOracle ExGood KeyExamples SchemeCore SigLemmas VerifyProofs SignVerify TermProofs LatticeProofs SignProofs NttEval PolyLemmas ExSign ExLattice ReuseProofs.
Import ListNotations.
Open Scope Z_scope.
Ltac Zify.zify_post_hook ::= idtac.

(* candidate t of the 'c' stream has position t mod 64; candidate 0 has sign bit j *)
Definition ex_sgn (j : Z) (i : nat) : Z := if Nat.odd i then 0 else if (i =? 0)%nat then j else Z.of_nat i mod 128.
Definition ex_Rval (m : list Z) (i : nat) : Z :=
  let h := hd 0 m in
  if (h =? 65) || (h =? 117) then 0
  else if h =? 99 then ex_sgn (last m 0 mod 2) i
  else if (i =? 0)%nat then 1
  else (last m 0 + Z.of_nat (length m) + Z.of_nat i) mod 128.
Definition ex_R : oracles := {|
  shake256 := fun m i => ex_byte (ex_Rval m i);
  ascon_permute := ascon_permute ex_G;
  ascon80pq_iv := 0
|}.
Lemma exR_range m i : 0 <= ex_Rval m i < 128.
Proof.
  unfold ex_Rval, ex_sgn. destruct (_ || _); [lia|]. destruct (_ =? _); [|destruct (i =? 0)%nat; [lia|apply Z.mod_pos_bound; reflexivity]].
  destruct (Nat.odd i); [lia|]. destruct (i =? 0)%nat; [|apply Z.mod_pos_bound; reflexivity]. pose proof (Z.mod_pos_bound (last m 0) 2 eq_refl). lia.
Qed.
Lemma exR_hash m i : hash_of ex_R m i = ex_Rval m i.
Proof. unfold hash_of, ex_R, shake256. rewrite ex_byte_val. apply Z.mod_small. pose proof (exR_range m i). lia. Qed.
Lemma exR_zero m i : hd 0 m = 65 \/ hd 0 m = 117 -> hash_of ex_R m i = 0.
Proof. intros [E|E]; rewrite exR_hash; unfold ex_Rval; rewrite E; reflexivity. Qed.
Lemma exR_good_hash fuel : (512 <= fuel)%nat -> good_hash ex_R fuel.
Proof.
  intros H m. unfold accepted49. rewrite filter_all; [rewrite map_length, seq_length; exact H|].
  intros x Hx. apply in_map_iff in Hx. destruct Hx as (t & <- & _). apply Z.ltb_lt, small_bytes_candidate.
  intros i. rewrite exR_hash. apply exR_range.
Qed.
Lemma exR_good_mask fuel d : (512 <= fuel)%nat -> good_mask ex_R fuel d.
Proof. exact (exG_good_mask fuel d). Qed.
Definition ex_bit (c : list Z) : Z := last c 0 mod 2.
Lemma last_cons_nonempty (a : Z) l d : l <> [] -> last (a :: l) d = last l d.
Proof. destruct l; [congruence|reflexivity]. Qed.
Lemma exR_stream omega c i : challenge_stream (hash_of ex_R) omega c i = ex_sgn (ex_bit c) i.
Proof.
  unfold challenge_stream. rewrite exR_hash. unfold ex_Rval. cbn [app hd].
  change ((99 =? 65) || (99 =? 117)) with false. change (99 =? 99) with true. cbv iota. f_equal.
  unfold ex_bit. f_equal. destruct c as [|x c]; [reflexivity|].
  rewrite !last_cons_nonempty by discriminate. reflexivity.
Qed.
Lemma ex_bit_cases c : ex_bit c = 0 \/ ex_bit c = 1.
Proof. unfold ex_bit. pose proof (Z.mod_pos_bound (last c 0) 2 eq_refl). lia. Qed.
Lemma exR_good_chal fuel omega : (100 <= fuel)%nat -> (omega <= 44)%nat -> good_chal ex_R fuel omega.
Proof.
  intros H Ho c.
  assert (M : forall S n m, (n <= m)%nat -> (length (distinct (map (chal_pos S) (seq 0 n))) <= length (distinct (map (chal_pos S) (seq 0 m))))%nat)
    by (intros S n m; apply (distinct_count_mono S n m)).
  eapply Nat.le_trans; [|apply (M _ 100%nat fuel H)].
  assert (E : map (chal_pos (challenge_stream (hash_of ex_R) omega c)) (seq 0 100) = map (chal_pos (ex_sgn (ex_bit c))) (seq 0 100)).
  { apply map_ext. intros t. apply chal_pos_same. intros i. apply exR_stream. }
  rewrite E. eapply Nat.le_trans; [exact Ho|]. apply Nat.leb_le. destruct (ex_bit_cases c) as [-> | ->]; vm_compute; reflexivity.
Qed.
Definition ex_ch (j : Z) : list Z := map (chal_coef (ex_sgn j) 19) (seq 0 512).
Lemma exR_chal c : challenge_poly (challenge_stream (hash_of ex_R) 19 c) 19 (ex_ch (ex_bit c)).
Proof.
  apply (challenge_poly_same (ex_sgn (ex_bit c))); [intros i; symmetry; apply exR_stream|]. exists 19%nat. split; [|reflexivity].
  destruct (ex_bit_cases c) as [-> | ->]; vm_compute; reflexivity.
Qed.
(* the bit of a digest depends on the last byte of the input *)
Lemma last_map_seq (f : nat -> Z) n : forall a, last (map f (seq a (Datatypes.S n))) 0 = f (a + n)%nat.
Proof.
  induction n as [|n IH]; intros a; [cbn [seq map last]; f_equal; lia|].
  change (seq a (Datatypes.S (Datatypes.S n))) with (a :: seq (Datatypes.S a) (Datatypes.S n)). cbn [map].
  rewrite last_cons_nonempty by discriminate. rewrite IH. f_equal. lia.
Qed.
Lemma exR_digest_last n m : (hd 0 m =? 65) || (hd 0 m =? 117) = false -> (hd 0 m =? 99) = false ->
  last (digest (hash_of ex_R) (Datatypes.S (Datatypes.S n)) m) 0 = (last m 0 + Z.of_nat (length m) + Z.of_nat (Datatypes.S n)) mod 128.
Proof.
  intros H1 H2. unfold digest, stream_bytes. rewrite last_map_seq. rewrite exR_hash. unfold ex_Rval. cbv zeta. rewrite H1, H2. reflexivity.
Qed.
Lemma exR_digest_hd n m : (hd 0 m =? 65) || (hd 0 m =? 117) = false -> (hd 0 m =? 99) = false ->
  hd 0 (digest (hash_of ex_R) (Datatypes.S n) m) = 1.
Proof.
  intros H1 H2. unfold digest, stream_bytes. cbn [seq map hd]. rewrite exR_hash. unfold ex_Rval. cbv zeta. rewrite H1, H2. reflexivity.
Qed.
Lemma last_app_one (l : list Z) x : last (l ++ [x]) 0 = x.
Proof. apply last_last. Qed.
Lemma last_app_ne (l m : list Z) : m <> [] -> last (l ++ m) 0 = last m 0.
Proof. intros H. destruct (exists_last H) as (m' & x & ->). rewrite app_assoc, !last_last. reflexivity. Qed.
Lemma exR_mu pkb b : hd 0 pkb = 200 -> last (bound_message (hash_of ex_R) 32 pkb [b]) 0 = (b + 64) mod 128.
Proof.
  intros H. unfold bound_message. rewrite (exR_digest_last 30); [|destruct (digest (hash_of ex_R) 32 pkb) eqn:E..].
  - rewrite last_app_one, app_length, digest_length. cbn [length]. f_equal. lia.
  - pose proof (digest_length (hash_of ex_R) 32 pkb) as L. rewrite E in L. discriminate L.
  - pose proof (exR_digest_hd 31 pkb) as L. rewrite E, H in L. cbn [app hd] in *. rewrite L by reflexivity. reflexivity.
  - pose proof (digest_length (hash_of ex_R) 32 pkb) as L. rewrite E in L. discriminate L.
  - pose proof (exR_digest_hd 31 pkb) as L. rewrite E, H in L. cbn [app hd] in *. rewrite L by reflexivity. reflexivity.
Qed.
Lemma exR_challenge_bit w mu : length (concat w) = 2560%nat -> length mu = 32%nat ->
  ex_bit (challenge_value (hash_of ex_R) 32 w mu) = (last mu 0 + 1) mod 2.
Proof.
  intros Lw Lm. unfold ex_bit, challenge_value. rewrite (exR_digest_last 30) by reflexivity. unfold challenge_input.
  rewrite !app_length, Lw, Lm. rewrite last_app_ne by (destruct w; intros X; apply (f_equal (@length Z)) in X; rewrite app_length, Lm in X; cbn [length] in X; lia).
  rewrite last_app_ne by (intros X; rewrite X in Lm; discriminate Lm). cbn [length].
  generalize (last mu 0). intros x. pose proof (Z.div_mod (x + Z.of_nat (8 + (2560 + 32)) + Z.of_nat 31) 128 ltac:(lia)).
  set (y := (x + Z.of_nat (8 + (2560 + 32)) + Z.of_nat 31) mod 128) in *. clearbody y.
  set (qq := (x + Z.of_nat (8 + (2560 + 32)) + Z.of_nat 31) / 128) in *. clearbody qq.
  replace y with (x + 1 + (1315 - 64 * qq) * 2) by lia. apply Z_mod_plus_full.
Qed.
Lemma ex_sgn_later i : (0 < i)%nat -> ex_sgn 1 i = ex_sgn 0 i.
Proof. intros H. unfold ex_sgn. replace (i =? 0)%nat with false by (symmetry; apply Nat.eqb_neq; lia). reflexivity. Qed.
Lemma ex_word_later t : (0 < t)%nat -> chal_word (ex_sgn 1) t = chal_word (ex_sgn 0) t.
Proof. intros H. unfold chal_word, stream_bytes. cbn [seq map]. rewrite !ex_sgn_later by lia. reflexivity. Qed.
Lemma find_ext_in {A} (f g : A -> bool) l : (forall x, In x l -> f x = g x) -> find f l = find g l.
Proof. induction l as [|x l IH]; intros H; [reflexivity|]. cbn [find]. rewrite (H x (or_introl eq_refl)), IH by (intros y Hy; apply H; right; exact Hy). reflexivity. Qed.
Lemma ex_coef_later n i : (0 < i)%nat -> chal_coef (ex_sgn 1) (Datatypes.S n) i = chal_coef (ex_sgn 0) (Datatypes.S n) i.
Proof.
  intros H. unfold chal_coef. cbn [seq find].
  assert (P1 : chal_pos (ex_sgn 1) 0 = 0%nat) by reflexivity. assert (P0 : chal_pos (ex_sgn 0) 0 = 0%nat) by reflexivity. rewrite P1, P0.
  replace (0 =? i)%nat with false by (symmetry; apply Nat.eqb_neq; lia).
  rewrite (find_ext_in _ (fun t => (chal_pos (ex_sgn 0) t =? i)%nat)).
  - destruct (find _ _) as [t|] eqn:E; [|reflexivity]. apply find_some in E. destruct E as [E _]. apply in_seq in E.
    unfold chal_sign. rewrite ex_word_later by lia. reflexivity.
  - intros t Ht. apply in_seq in Ht. unfold chal_pos. rewrite ex_word_later by lia. reflexivity.
Qed.
Lemma ex_ch_differ : ring_sub (ex_ch 1) (ex_ch 0) = ring_const (q - 2).
Proof.
  apply poly_ext; [unfold ring_sub; rewrite map_length; apply seq_length|reflexivity|]. intros k Hk.
  unfold ring_sub. rewrite coef_map by exact Hk. rewrite coef_const. unfold ex_ch. rewrite !coef_map by exact Hk.
  destruct k as [|k].
  - assert (C1 : chal_coef (ex_sgn 1) 19 0 = q - 1) by reflexivity. assert (C0 : chal_coef (ex_sgn 0) 19 0 = 1) by reflexivity. rewrite C1, C0.
    cbn [Nat.eqb]. rewrite Z.mod_small; rewrite q_Q, Q_val; lia.
  - rewrite ex_coef_later by lia. rewrite Z.sub_diag. cbn [Nat.eqb]. apply mod0.
Qed.
Lemma ex_ch_unit : is_poly (ring_const ((q - 1) / 2)) /\ ring_mul (ring_sub (ex_ch 1) (ex_ch 0)) (ring_const ((q - 1) / 2)) = 1 :: repeat 0 511.
Proof.
  split.
  - split; [reflexivity|]. constructor; [|apply Forall_repeat]; unfold reduced; rewrite q_Q, Q_val; [split; reflexivity || discriminate|lia].
  - rewrite ex_ch_differ, const_mul. apply poly_ext; [unfold ring_scale; rewrite map_length; apply seq_length|reflexivity|]. intros k Hk.
    unfold ring_scale. rewrite coef_map by exact Hk. rewrite coef_const. change (1 :: repeat 0 511) with (ring_const 1). rewrite coef_const.
    destruct (k =? 0)%nat; [rewrite q_Q, Q_val; reflexivity|]. rewrite Z.mul_0_r. apply mod0.
Qed.
(* the key of ExSign.v signs every message with this hash function, at the first attempt *)
Lemma exR_signs msg buf tp : zlen buf = 11524 -> exists sig, sk_sign ex_R 512 (raccoon128_params 2) ex_sk msg buf tp = Ok sig.
Proof.
  intros Lb. apply (zO_sign ex_R exR_zero exR_good_chal exR_good_hash exR_good_mask (raccoon128_params 2) ex_sk ex_secret).
  - vm_compute. reflexivity.
  - vm_compute. discriminate.
  - reflexivity.
  - cbn [ex_sk sk_pkey pk_seed]. apply Forall_repeat. split; [discriminate|reflexivity].
  - reflexivity.
  - apply masked_49. exact ex_sk_masked.
  - exact ex_sk_secret.
  - exact ex_secret_poly.
  - exact ex_secret_small.
  - exact Lb.
  - apply le_n.
Qed.
Lemma exR_first tp pkb A s b n c cp h z : public_key_code (repeat 200 16) (repeat [ring_zero] 5) pkb ->
  public_matrix (hash_of ex_R) (repeat 200 16) 5 4 A -> Forall is_poly s -> map transform s = map unmask (sk_s ex_sk) ->
  first_accepted (hash_of ex_R) (tape_of tp) (row_of (raccoon128_params 2)) A (repeat ring_zero 5) s
    (bound_message (hash_of ex_R) 32 pkb [b]) n c cp h z ->
  n = 0%nat /\ cp = ex_ch ((b + 1) mod 2).
Proof.
  intros (pack & -> & _) PM Fs Es (AT & AC & RJ).
  assert (Ep : A = repeat (repeat ring_zero 4) 5) by exact (public_matrix_fun _ _ _ _ _ _ PM (zO_matrix ex_R exR_zero _ _ _)). subst A.
  assert (E2 : s = ex_secret) by (apply (transform_inj_list _ _ Fs ex_secret_poly); rewrite Es; symmetry; exact ex_sk_secret). subst s.
  assert (HP : params_ok (raccoon128_params 2) = true) by (vm_compute; reflexivity).
  destruct (zO_attempt ex_R exR_zero exR_good_chal (raccoon128_params 2) ex_secret tp (bound_message (hash_of ex_R) 32 (repeat 200 16 ++ pack) [b]) HP eq_refl ex_secret_small) as (c0 & cp0 & h0 & z0 & AT0 & AC0).
  { vm_compute. discriminate. }
  cbn [raccoon128_params p_l p_k] in AT0.
  assert (N : n = 0%nat).
  { destruct n as [|n]; [reflexivity|]. destruct (RJ 0%nat ltac:(lia)) as (c1 & cp1 & h1 & z1 & AT1 & AC1). exfalso. apply AC1.
    destruct (sign_attempt_fun _ _ _ _ _ _ _ _ _ _ _ _ _ _ _ _ AT0 AT1) as (<- & <- & <- & <-). exact AC0. }
  split; [exact N|]. subst n. destruct AT as (Ec & CP & _).
  assert (EB : ex_bit c = (b + 1) mod 2).
  { rewrite Ec. cbn [row_of raccoon128_params r_kappa r_k r_l r_nuw r_uw p_kappa p_k p_l p_nuw p_uw]. change (Z.to_nat (2 * 128 / 8)) with 32%nat.
    rewrite exR_challenge_bit; [| |apply digest_length].
    - rewrite exR_mu by reflexivity. pose proof (Z.div_mod (b + 64) 128 ltac:(lia)) as D.
      set (y := (b + 64) mod 128) in *. clearbody y. set (k := (b + 64) / 128) in *. clearbody k.
      replace (y + 1) with (b + 1 + (32 - 64 * k) * 2) by lia. apply Z_mod_plus_full.
    - apply (concat_len512 _ 5).
      + unfold zipw. rewrite !map_length, combine_length. unfold ring_matvec. rewrite map_length, repeat_length, (proj2 (noise_polys _ _ _ _ _ _)). reflexivity.
      + apply Forall_map. rewrite zipw_map2. apply map2_Forall_r. intros x y. apply round_len, ring_add_poly. }
  rewrite <- EB. exact (challenge_poly_fun _ _ _ _ CP (exR_chal c)).
Qed.
