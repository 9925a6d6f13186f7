(* Key serialization never leaves its arrays, whatever the contents of the key. *)
From Coq Require Import ZArith Lia Bool List Arith.
From Coq Require Import ZifyBool ZifyNat.
From Verif Require Import ModelBase ModelField ModelUtils ModelPoly ModelVec ModelSerial ModelScheme ModelMem.
From Verif Require Import Spec SpecScheme.
From Verif Require Import Words BytesProofs PackProofs MaskedProofs MaskedLemmas SampleProofs SkeyProofs KeyLemmas SigDec SigLemmas MemProofs HashLemmas.
Import ListNotations.
Open Scope Z_scope.
Ltac Zify.zify_post_hook ::= idtac.

Definition len512 (p : list Z) : Prop := length p = 512%nat.
Lemma map2_len {A B C} (f : A -> B -> C) : forall a b, length a = length b -> length (map2 f a b) = length a.
Proof. induction a as [|x a IH]; intros [|y b] L; cbn in *; try lia. rewrite IH; lia. Qed.
Lemma map2_len512 a b : len512 a -> len512 b -> len512 (map2 zq_add a b) /\ len512 (map2 zq_sub a b).
Proof. unfold len512. intros. rewrite !map2_len by lia. split; assumption. Qed.
Lemma upd_len {A} : forall (l : list A) i x, length (upd i x l) = length l.
Proof. induction l as [|y l IH]; intros [|i] x; cbn [upd length]; try reflexivity. rewrite IH. reflexivity. Qed.
Lemma upd_Forall {A} (R : A -> Prop) : forall (l : list A) i x, Forall R l -> R x -> Forall R (upd i x l).
Proof. induction l as [|y l IH]; intros [|i] x F Hx; cbn [upd]; inversion F; subst; constructor; auto. Qed.
Definition xok (n : nat) (x : list (list Z)) : Prop := length x = n /\ Forall len512 x.
Lemma mask_shape O fuel hdr z n (l : list nat) : (forall i, In i l -> (i < n)%nat) -> forall x, xok n x ->
  wp (foldM (fun x ridx => _ <- sampleQ O fuel (hdr ridx) z ;; Ok (upd ridx (poly_sub (nth ridx x []) poly_zero) x)) l x) (xok n).
Proof.
  induction l as [|a l IH]; intros Hl x Hx; [exact Hx|]. cbn [foldM]. apply wp_bind.
  pose proof (sampleQ_not_UB O fuel (hdr a) z) as U. destruct (sampleQ O fuel (hdr a) z) as [p| |] eqn:E; [|congruence|exact I].
  cbn [bind wp]. apply IH; [intros i Hi; apply Hl; right; exact Hi|]. destruct Hx as [L F]. split; [rewrite upd_len; exact L|].
  apply upd_Forall; [exact F|]. apply (map2_len512 (nth a x []) poly_zero); [|apply repeat_length].
  rewrite Forall_forall in F. apply F, nth_In. rewrite L. apply Hl. left. reflexivity.
Qed.
Lemma add_shape n : forall x y, xok n x -> xok n y -> xok n (map2 poly_add x y).
Proof.
  induction n as [|n IH]; intros [|a x] [|b y] [L F] [L' F']; cbn in L, L'; try lia; [split; [reflexivity|constructor]|].
  inversion F; inversion F'; subst. cbn [map2]. destruct (IH x y) as [G1 G2]; [split; [lia|assumption]..|]. split; [cbn [length]; lia|].
  constructor; [|exact G2]. apply map2_len512; assumption.
Qed.
Lemma row_shape d n s i : length s = n -> Forall (fun row => length row = d /\ Forall len512 row) s -> (i < d)%nat -> xok n (map (fun row => nth i row []) s).
Proof.
  intros L F Hi. split; [rewrite map_length; exact L|]. apply Forall_forall. intros p Hp. apply in_map_iff in Hp. destruct Hp as (row & <- & Hr).
  rewrite Forall_forall in F. destruct (F row Hr) as [Lr Fr]. rewrite Forall_forall in Fr. apply Fr, nth_In. lia.
Qed.
Lemma mc_shape O fuel kb d s tp pos rest : Forall (fun row => length row = d /\ Forall len512 row) s -> (1 <= d)%nat ->
  Z.of_nat kb * (Z.of_nat d - 1) <= zlen rest ->
  wp (foldM (mc_share O fuel (8 * Z.of_nat kb) s) (seq 1 (d - 1)) (map (fun row => nth 0 row []) s, rest, Prng tp pos))
     (fun '(x, out, p) => xok (length s) x /\ zlen out = zlen rest).
Proof.
  intros Hs Hd Hrest.
  pose (J := fun (i : nat) (st : list poly * list Z * prng) => let '(x, out, p) := st in xok (length s) x /\ zlen out = zlen rest /\ exists pos', p = Prng tp pos').
  assert (G : wp (foldM (mc_share O fuel (8 * Z.of_nat kb) s) (seq 1 (d - 1)) (map (fun row => nth 0 row []) s, rest, Prng tp pos)) (J (1 + (d - 1))%nat)).
  { apply (wp_foldM_seq J).
    - unfold J. split; [apply (row_shape d); [reflexivity|exact Hs|lia]|]. split; [reflexivity|]. exists pos. reflexivity.
    - intros [[x out] p] i Hi (Hx & Ho & pos' & ->). unfold mc_share. unfold kbytes.
      replace (8 * Z.of_nat kb / 8) with (Z.of_nat kb) by (rewrite (Z.mul_comm 8), Z.div_mul by lia; reflexivity).
      rewrite Nat2Z.id, prng_read_eq. cbn [tape ppos]. set (z := stream_bytes (tape_of tp) pos' kb).
      assert (Lz : zlen z = Z.of_nat kb) by (unfold zlen, z; rewrite stream_bytes_length; reflexivity).
      assert (B1 : 0 <= (Z.of_nat i - 1) * Z.of_nat kb) by (apply Z.mul_nonneg_nonneg; lia).
      assert (B2 : Z.of_nat i * Z.of_nat kb <= (Z.of_nat d - 1) * Z.of_nat kb) by (apply Z.mul_le_mono_nonneg_r; lia).
      assert (W : exists o, write_at out ((Z.of_nat i - 1) * Z.of_nat kb) z = Ok o /\ zlen o = zlen out).
      { destruct (write_at out ((Z.of_nat i - 1) * Z.of_nat kb) z) as [o| |] eqn:E.
        - exists o. split; [reflexivity|]. apply write_at_inv in E. destruct E as (a & b & c & -> & _ & L2 & ->). rewrite !zlen_app. rewrite L2. reflexivity.
        - exfalso. unfold write_at in E. destruct (_ && _) eqn:E2; [discriminate E|]. lia.
        - exfalso. unfold write_at in E. destruct (_ && _) eqn:E2; discriminate E. }
      destruct W as (o & -> & Lo). cbn [bind]. apply wp_bind.
      eapply wp_mono; [apply (mask_shape O fuel (fun ridx => hdr_K i ridx) z (length s)); [intros j Hj; apply in_seq in Hj; exact (proj2 Hj)|exact Hx]|].
      intros x' Hx'. cbn [wp]. unfold J. split; [apply add_shape; [exact Hx'|apply (row_shape d); [reflexivity|exact Hs|lia]]|].
      split; [lia|]. eexists. reflexivity. }
  eapply wp_mono; [exact G|]. intros [[x out] p]. unfold J. tauto.
Qed.
Lemma compress_shape O fuel kb d s s_c tp pos : Forall (fun row => length row = d /\ Forall len512 row) s -> (1 <= d)%nat ->
  zlen s_c = Z.of_nat kb * (Z.of_nat d - 1) + 3136 * zlen s ->
  wp (mask_compress O fuel (8 * Z.of_nat kb) d s s_c (Prng tp pos)) (fun '(out, p) => zlen out = zlen s_c).
Proof.
  intros Hs Hd L. pose proof (zlen_nonneg s). unfold mask_compress. apply wp_bind.
  assert (NN : 0 <= Z.of_nat kb * (Z.of_nat d - 1)) by (apply Z.mul_nonneg_nonneg; lia).
  eapply wp_mono; [apply mc_shape; try assumption; lia|]. intros [[x out] p] ((Lx & Fx) & Lo). cbn beta.
  destruct (split3 out 0 (Z.to_nat (Z.of_nat kb * (Z.of_nat d - 1)))) as (z & dn & rest & E & Lz & L1); [unfold zlen in *; lia|].
  destruct z; [|discriminate]. cbn [app] in E. subst out. rewrite zlen_app in Lo.
  assert (Ld : zlen dn = Z.of_nat kb * (Z.of_nat d - 1)) by (unfold zlen; lia).
  assert (Zx : @zlen (list Z) x = @zlen (list (list Z)) s) by (unfold zlen; f_equal; exact Lx).
  replace ((Z.of_nat d - 1) * (8 * Z.of_nat kb) / 8) with (zlen dn).
  2:{ rewrite Ld. replace ((Z.of_nat d - 1) * (8 * Z.of_nat kb)) with (Z.of_nat kb * (Z.of_nat d - 1) * 8) by lia. rewrite Z.div_mul by lia. reflexivity. }
  destruct (mc_rows_ok x Fx dn rest) as (pack & rest' & E & L2 & L3 & _); [lia|].
  rewrite E. cbn [bind wp]. rewrite !zlen_app. lia.
Qed.
(* shapes only: no assumption on the coefficients *)
Definition pk_shape (P : params) (pk : pkey) : Prop :=
  zlen (pk_seed pk) = p_kappa P / 8 /\ length (pk_t pk) = p_k P /\ Forall (fun row => exists p, row = [p] /\ length p = 512%nat) (pk_t pk).
Lemma pk_to_bytes_shape P pk buf : params_ok P = true -> pk_shape P pk -> zlen buf = pk_byte_len P ->
  exists bytes, pk_to_bytes P pk buf = Ok bytes /\ zlen bytes = pk_byte_len P /\ forall b, zlen b = pk_byte_len P -> pk_to_bytes P pk b = Ok bytes.
Proof.
  intros HP (Ls & Lt & Ft) Lb. destruct (params_facts P HP) as (kb & e & F). pose proof (pf_kappa _ _ _ F) as EK. pose proof (pf_pk _ _ _ F) as EL.
  assert (E8 : p_kappa P / 8 = Z.of_nat kb) by (rewrite EK, (Z.mul_comm 8), Z.div_mul by lia; reflexivity).
  destruct pk as [seed t]. cbn [pk_seed pk_t] in *.
  destruct (encode_public_key_ok seed t buf (p_k P * 64)) as (pack & E & Fp & Bp & Lp); [apply pv_flat_length; assumption|lia|].
  exists (seed ++ pack). unfold pk_to_bytes. rewrite (pf_nut _ _ _ F). cbn [pk_seed pk_t]. split; [exact E|].
  split; [rewrite zlen_app; lia|]. intros b Hb. destruct (encode_public_key_ok seed t b (p_k P * 64)) as (pack' & E' & Fp' & Bp' & Lp'); [apply pv_flat_length; assumption|lia|].
  rewrite E'. f_equal. f_equal. apply bits_of_bytes_inj; try assumption. rewrite Bp, Bp'. reflexivity.
Qed.
Lemma sk_to_bytes_shape O fuel P sk buf tp : params_ok P = true -> pk_shape P (sk_pkey sk) -> length (sk_s sk) = p_l P ->
  Forall (fun row => length row = p_d P /\ Forall len512 row) (sk_s sk) -> zlen buf = sk_byte_len P ->
  wp (sk_to_bytes O fuel P sk buf (prng_new tp)) (fun '(bytes, _) => zlen bytes = sk_byte_len P).
Proof.
  intros HP Hpk Hl Hs Lb. destruct (params_facts P HP) as (kb & e & F). pose proof (pf_sk _ _ _ F) as ES. pose proof (pf_pk _ _ _ F) as EP. pose proof (d1 P kb e F) as Hd.
  assert (NN : 0 <= Z.of_nat kb * (Z.of_nat (p_d P) - 1)) by (apply Z.mul_nonneg_nonneg; lia).
  unfold sk_to_bytes. destruct (split3 buf 0 (Z.to_nat (pk_byte_len P))) as (z & b1 & b2 & E & Lz & L1); [unfold zlen in Lb; lia|].
  destruct z; [|discriminate]. cbn [app] in E. subst buf. assert (Z1 : zlen b1 = pk_byte_len P) by (unfold zlen; lia).
  change (b1 ++ b2) with ([] ++ b1 ++ b2). rewrite subspan_app by (symmetry; assumption || reflexivity). cbn [app bind].
  rewrite (subspan_tail b1 b2 (pk_byte_len P)) by (symmetry; exact Z1). cbn [bind].
  destruct (pk_to_bytes_shape P _ b1 HP Hpk Z1) as (pkb & -> & Lp & _). cbn [bind]. apply wp_bind.
  rewrite (pf_kappa _ _ _ F). rewrite zlen_app in Lb.
  assert (Zl : @zlen (list (list Z)) (sk_s sk) = Z.of_nat (p_l P)) by (rewrite <- Hl; reflexivity).
  unfold prng_new. eapply wp_mono; [apply compress_shape; [exact Hs|exact Hd|rewrite Zl; lia]|].
  intros [out p] Lo. cbn [wp]. rewrite zlen_app. lia.
Qed.

Lemma key_accesses P : params_ok P = true ->
  (forall seed t buf, zlen seed = p_kappa P / 8 -> length t = p_k P ->
     Forall (fun row => exists p, row = [p] /\ length p = 512%nat) t -> zlen buf = pk_byte_len P ->
     exists bytes, pk_to_bytes P (Pkey seed t) buf = Ok bytes /\ zlen bytes = pk_byte_len P) /\
  (forall bytes, Forall is_byte bytes -> zlen bytes = pk_byte_len P -> exists pk, pk_from_bytes P bytes = Ok pk) /\
  (forall O fuel seed t s buf tape, zlen seed = p_kappa P / 8 -> length t = p_k P ->
     Forall (fun row => exists p, row = [p] /\ length p = 512%nat) t ->
     length s = p_l P -> Forall (fun row => length row = p_d P /\ Forall (fun p => length p = 512%nat) row) s ->
     zlen buf = sk_byte_len P ->
     sk_to_bytes O fuel P (Skey (Pkey seed t) s) buf (prng_new tape) <> UB /\
     forall bytes p, sk_to_bytes O fuel P (Skey (Pkey seed t) s) buf (prng_new tape) = Ok (bytes, p) ->
       zlen bytes = sk_byte_len P) /\
  (forall O fuel bytes, Forall is_byte bytes -> zlen bytes = sk_byte_len P -> sk_from_bytes O fuel P bytes <> UB).
Proof.
  intros HP. split; [|split; [|split]].
  - intros seed t buf H1 H2 H3 H4. destruct (pk_to_bytes_shape P (Pkey seed t) buf HP) as (b & E & L & _); [repeat split; assumption|exact H4|].
    exists b. split; assumption.
  - intros bytes Hb L. destruct (pk_bytes_roundtrip P bytes HP Hb L) as (pk & E & _). exists pk. exact E.
  - intros O fuel seed t s buf tp H1 H2 H3 H4 H5 H6.
    destruct (wp_split _ _ (sk_to_bytes_shape O fuel P (Skey (Pkey seed t) s) buf tp HP (conj H1 (conj H2 H3)) H4 H5 H6)) as [A B].
    split; [exact A|]. intros bytes p E. exact (B _ E).
  - intros O fuel bytes Hb L. exact (proj1 (sk_decode_shape O fuel P bytes HP Hb L)).
Qed.

Lemma c41_example :
  Forall is_byte cut_sig128 /\ zlen cut_sig128 = 11524 /\
  decode_sig 32 (5 * 512) (4 * 512) cut_sig128 = UB /\
  forall fuel, safe (decode_sig_mem fuel cut_sig128 (repeat 0 32) (repeat 0 (5 * 512)) (repeat 0 (4 * 512))).
Proof.
  destruct cut_sig128_ok as [A B]. cbn [raccoon128_params p_siglen] in B. split; [exact A|]. split; [exact B|]. split.
  - exact (decode_undefined (repeat 0 32) (repeat 0 (Z.to_nat 11484)) (5 * 512 - 1) (4 * 512)).
  - intros fuel. eapply always_safe. apply decode_mem_ok. rewrite B. change (zlen (repeat 0 32)) with 32. change (2 ^ 60) with 1152921504606846976. lia.
Qed.
