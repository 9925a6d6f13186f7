(* Secret key serialization. *)
From Coq Require Import ZArith Lia Bool List Arith.
From Coq Require Import ZifyBool ZifyNat.
From Verif Require Import ModelBase ModelU128 ModelField ModelUtils ModelPoly ModelVec ModelSerial.
From Verif Require Import Spec.
From Verif Require Import Words FieldProofs ArithLemmas BytesProofs PolyProofs Cong NttEval MaskedProofs SampleProofs PackProofs.
Import ListNotations.
Open Scope Z_scope.
Ltac Zify.zify_post_hook ::= idtac.

Lemma sampleQ_not_UB O fuel hdr sigma : sampleQ O fuel hdr sigma <> UB.
Proof. rewrite sampleQ_eq. unfold take512. destruct (_ <=? _)%nat; discriminate. Qed.

Lemma zmul1 i kb : (1 <= i)%nat -> (Z.of_nat i - 1) * Z.of_nat kb = Z.of_nat ((i - 1) * kb).
Proof. intros H. rewrite Nat2Z.inj_mul, Nat2Z.inj_sub by lia. lia. Qed.
(* ---- packing ---- *)
Definition mc_inv (dn : list Z) (total : Z) (ps : list Z) (st : list Z * Z * Z * Z) : Prop :=
  let '(out, off, buffer, bbo) := st in
  exists wr rest, out = (dn ++ wr) ++ rest /\ off = zlen dn + zlen wr /\ 0 <= bbo < 8 /\ 0 <= buffer < 2 ^ bbo /\
    8 * zlen wr + bbo = 49 * zlen ps /\ zlen wr + zlen rest = total /\ Forall is_byte wr /\
    codes 49 ps = bits_of_bytes wr ++ bits_of (Z.to_nat bbo) buffer.
Lemma MASK49_eq : MASK49 = 2 ^ 49 - 1. Proof. reflexivity. Qed.
Lemma div8_bounds x : 0 <= x -> 8 * (x / 8) <= x < 8 * (x / 8) + 8.
Proof. intros H. pose proof (Z.div_mod x 8 ltac:(lia)). pose proof (Z.mod_pos_bound x 8 ltac:(lia)). lia. Qed.
Lemma mc_put_ok dn total ps st c : mc_inv dn total ps st -> 49 * (zlen ps + 1) <= 8 * total ->
  exists st', mc_put st c = Ok st' /\ mc_inv dn total (ps ++ [c]) st'.
Proof.
  destruct st as [[[out off] buffer] bbo]. intros (wr & rest & -> & -> & Hb & Hbuf & E & Et & F & C) Hl.
  unfold mc_put. rewrite shl_chk_Ok by lia. cbn [bind]. rewrite (land_mask c 49 MASK49) by (exact MASK49_eq || lia).
  destruct (buf_push buffer bbo c 49) as (P1 & P2 & P3); [lia|lia|lia|exact Hbuf|]. rewrite P1. rewrite QBW_val.
  rewrite align8_spec by (unfold is64, two64; lia). 
  replace (8 * ((bbo + 49) / 8) / 8) with ((bbo + 49) / 8) by (rewrite (Z.mul_comm 8), Z.div_mul by lia; reflexivity).
  set (nb := (bbo + 49) / 8). pose proof (div8_bounds (bbo + 49) ltac:(lia)) as D. fold nb in D. clearbody nb.
  rewrite put_le_app; [|rewrite zlen_app; lia|lia|lia]. cbn [bind]. rewrite shr_chk_Ok by lia. cbn [bind].
  eexists. split; [reflexivity|]. set (B := buffer + c mod 2 ^ 49 * 2 ^ bbo) in *. clearbody B.
  destruct (buf_pop B (bbo + 49) (8 * nb)) as [Q1 Q2]; [lia|exact P2|].
  assert (L : zlen (le_bytes (Z.to_nat nb) B) = nb) by (unfold zlen; rewrite le_bytes_length; lia).
  exists (wr ++ le_bytes (Z.to_nat nb) B), (skipn (Z.to_nat nb) rest). rewrite !zlen_app, L. change (zlen [c]) with 1.
  repeat apply conj; try lia; try assumption.
  - rewrite <- !app_assoc. reflexivity.
  - unfold zlen in *. rewrite skipn_length. lia.
  - apply Forall_app. split; [exact F|apply le_bytes_byte].
  - rewrite codes_app, C. cbn [codes map concat]. rewrite app_nil_r, bits_of_bytes_app, bits_of_le_bytes.
    rewrite <- !app_assoc. f_equal. replace (8 * Z.to_nat nb)%nat with (Z.to_nat (8 * nb)) by lia.
    rewrite <- Q1. symmetry. exact P3.
Qed.
Lemma mc_fold_ok dn total cs : forall ps st, mc_inv dn total ps st -> 49 * (zlen ps + zlen cs) <= 8 * total ->
  exists st', foldM mc_put cs st = Ok st' /\ mc_inv dn total (ps ++ cs) st'.
Proof.
  induction cs as [|c cs IH]; intros ps st I L.
  - exists st. rewrite app_nil_r. split; [reflexivity|exact I].
  - rewrite zlen_cons in L. cbn [foldM]. destruct (mc_put_ok dn total ps st c I) as (s1 & -> & I1).
    { pose proof (zlen_nonneg cs). lia. }
    cbn [bind]. destruct (IH (ps ++ [c]) s1 I1) as (s3 & -> & I3); [rewrite zlen_app; unfold zlen in *; cbn [length]; lia|].
    exists s3. split; [reflexivity|]. rewrite <- app_assoc in I3. exact I3.
Qed.
Lemma mc_row_ok dn rest row : length row = 512%nat -> 3136 <= zlen rest ->
  exists pack rest', mc_row (dn ++ rest, zlen dn) row = Ok ((dn ++ pack) ++ rest', zlen dn + 3136) /\
    zlen pack = 3136 /\ zlen pack + zlen rest' = zlen rest /\ Forall is_byte pack /\ bits_of_bytes pack = codes 49 row.
Proof.
  intros Hl Hr. unfold mc_row.
  destruct (mc_fold_ok dn (zlen rest) row [] (dn ++ rest, zlen dn, 0, 0)) as (st2 & E2 & I2).
  + exists [], rest. rewrite app_nil_r, zlen_nil. repeat apply conj; try lia; try reflexivity. constructor.
  + unfold zlen in *. rewrite Hl. cbn [length]. lia.
  + unfold poly in *. rewrite E2. cbn [bind]. destruct st2 as [[[out off] buffer] bbo].
    destruct I2 as (wr & rest' & -> & -> & Hb & Hbuf & E3 & Et & F & C). cbn [app] in *.
    replace (zlen row) with 512 in E3 by (unfold zlen; lia).
    assert (Lw : zlen wr = 3136) by lia. assert (bbo = 0) by lia. subst bbo.
    exists wr, rest'. rewrite Lw. repeat apply conj; try reflexivity; try assumption; try lia.
    rewrite C. cbn [bits_of]. rewrite app_nil_r. reflexivity.
Qed.
Lemma mc_rows_ok x : Forall (fun p => length p = 512%nat) x -> forall dn rest, 3136 * zlen x <= zlen rest ->
  exists pack rest', foldM mc_row x (dn ++ rest, zlen dn) = Ok ((dn ++ pack) ++ rest', zlen dn + 3136 * zlen x) /\
    zlen pack = 3136 * zlen x /\ zlen pack + zlen rest' = zlen rest /\ Forall is_byte pack /\ bits_of_bytes pack = codes 49 (concat x).
Proof.
  induction 1 as [|row x Hrow Hx IH]; intros dn rest L.
  - exists [], rest. cbn [foldM zlen length]. rewrite app_nil_r. change (Z.of_nat 0) with 0. rewrite Z.mul_0_r, Z.add_0_r.
    repeat apply conj; try reflexivity; try lia. constructor.
  - rewrite zlen_cons in *. pose proof (zlen_nonneg x). cbn [foldM].
    destruct (mc_row_ok dn rest row Hrow) as (p1 & r1 & -> & L1 & T1 & F1 & B1); [lia|]. cbn [bind].
    replace (zlen dn + 3136) with (zlen (dn ++ p1)) by (rewrite zlen_app; lia).
    destruct (IH (dn ++ p1) r1) as (p2 & r2 & -> & L2 & T2 & F2 & B2); [lia|].
    exists (p1 ++ p2), r2. rewrite !zlen_app. repeat apply conj; try lia.
    + rewrite <- !app_assoc. f_equal. f_equal. lia.
    + apply Forall_app; split; assumption.
    + cbn [concat]. rewrite bits_of_bytes_app, codes_app, B1, B2. reflexivity.
Qed.

(* ---- combining the shares ---- *)
Lemma zq_sub_0 x : lt49 x -> zq_sub x 0 = x.
Proof.
  unfold lt49. change (2 ^ 49) with 562949953421312. intros Hx. Transparent zq_sub zq_add. unfold zq_sub, zq_add. Opaque zq_sub zq_add.
  rewrite zq_neg_spec by (pose proof Q_pos; lia).
  unfold add64. rewrite u64_small by (unfold is64, two64; rewrite Q_val; lia).
  rewrite reduce_once_gen by (unfold two63; rewrite Q_val; lia).
  destruct (_ <? _) eqn:E1; lia.
Qed.
Lemma poly_sub_zero_w p : wpoly p -> poly_sub p poly_zero = p.
Proof.
  intros [L F]. unfold poly_sub, poly_zero. unfold PN. revert L. generalize 512%nat. intros n.
  revert n. induction F as [|x p Hx Hp IH]; intros n E; [reflexivity|].
  destruct n as [|n]; [discriminate|]. cbn [repeat map2]. f_equal; [|apply IH; cbn in E; lia].
  apply zq_sub_0. exact Hx.
Qed.
Lemma upd_nth {A} (d : A) l : forall i, upd i (nth i l d) l = l.
Proof. induction l as [|x l IH]; intros [|i]; cbn; try reflexivity. rewrite IH. reflexivity. Qed.
Lemma mc_mask_noop O fuel hdr z (l : list nat) : forall x, Forall wpoly x ->
  (forall i, In i l -> (i < length x)%nat) ->
  wp (foldM (fun x ridx => _ <- sampleQ O fuel (hdr ridx) z ;; Ok (upd ridx (poly_sub (nth ridx x []) poly_zero) x)) l x)
     (fun x' => x' = x /\ forall i, In i l -> exists p, sampleQ O fuel (hdr i) z = Ok p).
Proof.
  induction l as [|a l IH]; intros x Hx Hl; [cbn; split; [reflexivity|contradiction]|]. cbn [foldM]. apply wp_bind.
  pose proof (sampleQ_not_UB O fuel (hdr a) z) as U. destruct (sampleQ O fuel (hdr a) z) as [p| |] eqn:E; [|congruence|exact I].
  cbn [bind wp]. rewrite poly_sub_zero_w; [|rewrite Forall_forall in Hx; apply Hx; apply nth_In; apply Hl; left; reflexivity].
  rewrite upd_nth. eapply wp_mono; [apply IH; [exact Hx|intros i Hi; apply Hl; right; exact Hi]|].
  cbn beta. intros x' [-> G]. split; [reflexivity|]. intros i [<-|Hi]; [exists p; exact E|apply G; exact Hi].
Qed.
(* share 0 below 2^49, all other shares reduced: what serialization accepts and deserialization returns *)
Definition kshares (d : nat) (row : list (list Z)) : Prop :=
  length row = d /\ wpoly (nth 0 row []) /\ Forall is_poly (skipn 1 row).
Lemma kshares_ok d row : (0 < d)%nat -> mp_ok d row -> kshares d row.
Proof.
  intros Hd [L F]. split; [exact L|]. destruct row as [|a row]; [cbn in L; lia|]. inversion F; subst. cbn.
  split; [apply is_poly_wpoly; assumption|assumption].
Qed.
Lemma kshares_w d row : kshares d row -> (0 < d)%nat -> mp_w d row.
Proof.
  intros (L & H0 & Hs) Hd. split; [exact L|]. destruct row as [|a row]; [cbn in L; lia|]. cbn in *.
  constructor; [exact H0|]. eapply Forall_impl; [|exact Hs]. intros. apply is_poly_wpoly. assumption.
Qed.
Definition combine_shares (n : nat) (row : list (list Z)) : list Z :=
  fold_left poly_add (firstn n (skipn 1 row)) (nth 0 row []).
Lemma combine_w d row : kshares d row -> forall n, wpoly (combine_shares n row) /\
  forall k, coef (combine_shares n row) k == usum k (firstn (1 + n) row).
Proof.
  intros (L & H0 & Hs) n. unfold combine_shares. destruct row as [|a row].
  { destruct H0 as [H0 _]. discriminate. }
  cbn [nth skipn Nat.add firstn] in *. pose proof (Forall_firstn _ n _ Hs) as F. revert F. generalize (firstn n row) as r. intros r F.
  clear Hs L n row. revert a H0. induction F as [|b r Hb Hr IH]; intros a H0.
  - cbn [fold_left]. split; [exact H0|]. intros k. rewrite usum_cons. unfold usum. cbn. rewrite Z.add_0_r. reflexivity.
  - cbn [fold_left]. destruct (IH (poly_add a b)) as [I1 I2]; [apply poly_add_w; assumption|]. split; [exact I1|].
    intros k. rewrite I2. rewrite !usum_cons. rewrite coef_poly_add by assumption. rewrite Z.add_assoc. reflexivity.
Qed.
Lemma combine_step d row n : kshares d row -> (1 + n < d)%nat ->
  combine_shares (S n) row = poly_add (combine_shares n row) (nth (1 + n) row []).
Proof.
  intros (L & _ & _) H. unfold combine_shares. rewrite (firstn_S_nth []) by (rewrite skipn_length; lia).
  rewrite fold_left_app. cbn [fold_left]. f_equal. destruct row as [|a row]; [cbn in L; lia|]. reflexivity.
Qed.
Lemma map2_map {A C D E} (f : C -> D -> E) (g : A -> C) (h : A -> D) (l : list A) :
  map2 f (map g l) (map h l) = map (fun x => f (g x) (h x)) l.
Proof. induction l as [|x l IH]; [reflexivity|]. cbn [map map2]. rewrite IH. reflexivity. Qed.

(* state after masking share n: sums of shares, tape bytes written *)
Lemma mc_shares_ok O fuel kb d s tp pos rest : Forall (kshares d) s -> (1 <= d)%nat ->
  Z.of_nat kb * (Z.of_nat d - 1) <= zlen rest ->
  wp (foldM (mc_share O fuel (8 * Z.of_nat kb) s) (seq 1 (d - 1)) (map (fun row => nth 0 row []) s, rest, Prng tp pos))
     (fun '(x, out, p) => x = map (combine_shares (d - 1)) s /\
        out = stream_bytes (tape_of tp) pos ((d - 1) * kb) ++ skipn ((d - 1) * kb) rest /\
        p = Prng tp (pos + (d - 1) * kb) /\
        forall sidx ridx, (1 <= sidx < d)%nat -> (ridx < length s)%nat ->
          exists r, sampleQ O fuel (hdr_K sidx ridx) (stream_bytes (tape_of tp) (pos + (sidx - 1) * kb) kb) = Ok r).
Proof.
  intros Hs Hd Hrest.
  pose (I := fun i (st : list poly * list Z * prng) => let '(x, out, p) := st in
        x = map (combine_shares (i - 1)) s /\
        out = stream_bytes (tape_of tp) pos ((i - 1) * kb) ++ skipn ((i - 1) * kb) rest /\
        p = Prng tp (pos + (i - 1) * kb) /\
        forall sidx ridx, (1 <= sidx < i)%nat -> (ridx < length s)%nat ->
          exists r, sampleQ O fuel (hdr_K sidx ridx) (stream_bytes (tape_of tp) (pos + (sidx - 1) * kb) kb) = Ok r).
  assert (G : wp (foldM (mc_share O fuel (8 * Z.of_nat kb) s) (seq 1 (d - 1)) (map (fun row => nth 0 row []) s, rest, Prng tp pos)) (I (1 + (d - 1))%nat)).
  { apply (wp_foldM_seq I).
    - unfold I. cbn [Nat.sub Nat.mul skipn]. rewrite Nat.add_0_r. repeat apply conj; try reflexivity. intros; lia.
    - intros [[x out] p] i Hi (-> & -> & -> & HS). unfold mc_share. unfold kbytes.
      replace (8 * Z.of_nat kb / 8) with (Z.of_nat kb) by (rewrite (Z.mul_comm 8), Z.div_mul by lia; reflexivity).
      rewrite Nat2Z.id, prng_read_eq. cbn [tape ppos].
      destruct (split3 (skipn ((i - 1) * kb) rest) 0 kb) as (z & r1 & r2 & Er & Lz & L1).
      { rewrite skipn_length. assert (H1 : ((i - 1) * kb + kb <= (d - 1) * kb)%nat).
        { pose proof (Nat.mul_le_mono_r (S (i - 1)) (d - 1) kb ltac:(lia)). lia. }
        assert (H2 : ((d - 1) * kb <= length rest)%nat).
        { unfold zlen in Hrest. replace (Z.of_nat kb * (Z.of_nat d - 1)) with (Z.of_nat ((d - 1) * kb)) in Hrest by (rewrite Nat2Z.inj_mul, Nat2Z.inj_sub by lia; lia). lia. }
        lia. }
      destruct z; [|discriminate]. cbn [app] in Er. rewrite Er.
      rewrite write_at_app; [|unfold zlen; rewrite stream_bytes_length; apply zmul1; lia|unfold zlen; rewrite stream_bytes_length; lia].
      cbn [bind]. apply wp_bind.
      eapply wp_mono; [apply (mc_mask_noop O fuel (fun ridx => hdr_K i ridx))|].
      + rewrite Forall_forall. intros y Hy. apply in_map_iff in Hy. destruct Hy as (row & <- & Hrow).
        rewrite Forall_forall in Hs. apply (combine_w d row (Hs row Hrow)).
      + intros j Hj. apply in_seq in Hj. rewrite map_length. exact (proj2 Hj).
      + intros x' [-> HS']. cbn [wp]. unfold I. replace (i + 1 - 1)%nat with (S (i - 1)) by lia. repeat apply conj.
        * etransitivity; [apply map2_map|]. apply map_ext_in. intros row Hrow. rewrite Forall_forall in Hs.
          rewrite (combine_step d row (i - 1) (Hs row Hrow)) by lia. replace (1 + (i - 1))%nat with i by lia. reflexivity.
        * replace (S (i - 1) * kb)%nat with ((i - 1) * kb + kb)%nat by lia. rewrite stream_bytes_app, <- app_assoc. f_equal. f_equal.
          rewrite <- skipn_skipn', Er. rewrite skipn_app, <- L1, Nat.sub_diag, skipn_all. reflexivity.
        * f_equal. lia.
        * intros sidx ridx H1 H2. destruct (Nat.eq_dec sidx i) as [->|N]; [|apply HS; [lia|exact H2]].
          apply HS'. apply in_seq. split; [apply Nat.le_0_l|exact H2]. }
  eapply wp_mono; [exact G|]. intros [[x out] p]. unfold I. replace (1 + (d - 1) - 1)%nat with (d - 1)%nat by lia.
  replace (1 + (d - 1))%nat with d by lia. tauto.
Qed.
Lemma mask_compress_ok O fuel kb d s s_c tp pos : Forall (kshares d) s -> (1 <= d)%nat ->
  zlen s_c = Z.of_nat kb * (Z.of_nat d - 1) + 3136 * zlen s ->
  wp (mask_compress O fuel (8 * Z.of_nat kb) d s s_c (Prng tp pos))
     (fun '(out, p) => p = Prng tp (pos + (d - 1) * kb) /\
        (forall sidx ridx, (1 <= sidx < d)%nat -> (ridx < length s)%nat ->
          exists r, sampleQ O fuel (hdr_K sidx ridx) (stream_bytes (tape_of tp) (pos + (sidx - 1) * kb) kb) = Ok r) /\
        exists pack, out = stream_bytes (tape_of tp) pos ((d - 1) * kb) ++ pack /\
          zlen pack = 3136 * zlen s /\ Forall is_byte pack /\
          bits_of_bytes pack = codes 49 (concat (map (combine_shares (d - 1)) s))).
Proof.
  intros Hs Hd L. pose proof (zlen_nonneg s). unfold mask_compress. apply wp_bind.
  eapply wp_mono; [apply mc_shares_ok; try assumption; lia|]. intros [[x out] p] (-> & -> & -> & HS). cbn beta.
  replace ((Z.of_nat d - 1) * (8 * Z.of_nat kb) / 8) with (zlen (stream_bytes (tape_of tp) pos ((d - 1) * kb))).
  2:{ unfold zlen. rewrite stream_bytes_length. replace ((Z.of_nat d - 1) * (8 * Z.of_nat kb)) with ((Z.of_nat ((d - 1) * kb)) * 8) by (rewrite <- zmul1 by lia; lia).
      rewrite Z.div_mul by lia. reflexivity. }
  destruct (mc_rows_ok (map (combine_shares (d - 1)) s)) with (dn := stream_bytes (tape_of tp) pos ((d - 1) * kb)) (rest := skipn ((d - 1) * kb) s_c)
    as (pack & rest' & E & L1 & L2 & F & B).
  - rewrite Forall_forall. intros y Hy. apply in_map_iff in Hy. destruct Hy as (row & <- & Hrow).
    rewrite Forall_forall in Hs. apply (combine_w d row (Hs row Hrow)).
  - unfold zlen in *. rewrite map_length, skipn_length. rewrite (Z.mul_comm (Z.of_nat kb)), zmul1 in L by lia. lia.
  - unfold poly in *. rewrite E. cbn [bind wp]. split; [reflexivity|]. split; [exact HS|]. exists pack.
    assert (Lm : zlen (map (combine_shares (d - 1)) s) = zlen s) by (unfold zlen; rewrite map_length; reflexivity).
    assert (rest' = []).
    { destruct rest' as [|y r]; [reflexivity|]. rewrite zlen_cons in L2. pose proof (zlen_nonneg r).
      unfold zlen in *. rewrite skipn_length in L2. rewrite (Z.mul_comm (Z.of_nat kb)), zmul1 in L by lia. lia. }
    subst rest'. rewrite app_nil_r. repeat apply conj; try reflexivity; try assumption. rewrite <- Lm. exact L1.
Qed.

(* ---- decoding ---- *)
Definition md_inv (s_c pre : list Z) (total : Z) (st : list Z * Z * Z * Z) : Prop :=
  let '(acc, off, buffer, bbo) := st in
  exists rd rest, s_c = (pre ++ rd) ++ rest /\ off = zlen pre + zlen rd /\ 0 <= bbo < 8 /\ 0 <= buffer < 2 ^ bbo /\
    8 * zlen rd = 49 * zlen acc + bbo /\ zlen rd + zlen rest = total /\
    Forall (fun x => 0 <= x < 2 ^ Z.of_nat 49) acc /\
    bits_of_bytes rd = codes 49 acc ++ bits_of (Z.to_nat bbo) buffer.
Lemma md_get_ok s_c pre total st i : Forall is_byte s_c -> md_inv s_c pre total st ->
  49 * (zlen (fst (fst (fst st))) + 1) <= 8 * total ->
  exists st', md_get s_c st i = Ok st' /\ md_inv s_c pre total st' /\
    zlen (fst (fst (fst st'))) = zlen (fst (fst (fst st))) + 1.
Proof.
  intros Hsc. destruct st as [[[acc off] buffer] bbo]. cbn [fst]. intros (rd & rest & E & -> & Hb & Hbuf & E8 & Et & F & C) Hl.
  unfold md_get. rewrite QBW_val. rewrite align8_spec by (unfold is64, two64; lia).
  replace (8 * ((49 - bbo + 7) / 8) / 8) with ((49 - bbo + 7) / 8) by (rewrite (Z.mul_comm 8), Z.div_mul by lia; reflexivity).
  set (nb := (49 - bbo + 7) / 8). pose proof (div8_bounds (49 - bbo + 7) ltac:(lia)) as D. fold nb in D. clearbody nb.
  destruct (split3 rest 0 (Z.to_nat nb)) as (z & r1 & r2 & Er & Lz & L1).
  { unfold zlen in *. lia. }
  destruct z; [|discriminate]. cbn [app] in Er. subst rest s_c.
  rewrite (subspan_app (pre ++ rd) r1 r2); [|rewrite zlen_app; lia|unfold zlen; lia]. cbn [bind].
  rewrite shl_chk_Ok by lia. cbn [bind].
  assert (Hr1 : Forall is_byte r1) by (rewrite !Forall_app in Hsc; tauto).
  rewrite from_le_bytes_spec by exact Hr1. rewrite firstn_all2 by lia.
  pose proof (le_value_range r1 Hr1) as R. replace (zlen r1) with nb in R by (unfold zlen; lia).
  rewrite pow256_2 in R by lia.
  destruct (buf_push buffer bbo (le_value r1) (8 * nb)) as (P1 & P2 & P3); [lia|lia|lia|exact Hbuf|].
  rewrite (Z.mod_small (le_value r1)) in P1, P2, P3 by exact R. rewrite P1.
  set (B := buffer + le_value r1 * 2 ^ bbo) in *. clearbody B.
  rewrite (land_mask B 49 MASK49) by (exact MASK49_eq || lia). rewrite shr64_spec by lia.
  destruct (buf_pop B (bbo + 8 * nb) 49) as [Q1 Q2]; [lia|exact P2|].
  eexists. split; [reflexivity|]. split.
  - exists (rd ++ r1), r2. rewrite !zlen_app in *. replace (zlen r1) with nb in * by (unfold zlen; lia). change (zlen [B mod 2 ^ 49]) with 1. repeat apply conj; try lia.
    + rewrite <- !app_assoc. reflexivity.
    + apply Forall_app. split; [exact F|]. constructor; [|constructor]. change (Z.of_nat 49) with 49. apply Z.mod_pos_bound. lia.
    + rewrite bits_of_bytes_app, C, codes_app. cbn [codes map concat]. rewrite app_nil_r. rewrite <- !app_assoc. f_equal.
      rewrite <- (bits_of_bytes_le r1 (Z.to_nat (8 * nb)) Hr1) by lia.
      rewrite <- P3, Q1. f_equal. symmetry. exact (bits_of_mod 49 B).
  - cbn [fst]. rewrite zlen_app. reflexivity.
Qed.
Lemma md_fold_ok s_c pre total l : Forall is_byte s_c -> forall st, md_inv s_c pre total st ->
  49 * (zlen (fst (fst (fst st))) + zlen l) <= 8 * total ->
  exists st', foldM (md_get s_c) l st = Ok st' /\ md_inv s_c pre total st' /\
     zlen (fst (fst (fst st'))) = zlen (fst (fst (fst st))) + zlen l.
Proof.
  intros Hs. induction l as [|i l IH]; intros st I L.
  - exists st. split; [reflexivity|]. split; [exact I|]. rewrite zlen_nil. lia.
  - rewrite zlen_cons in *. pose proof (zlen_nonneg l). cbn [foldM].
    destruct (md_get_ok s_c pre total st i Hs I) as (s1 & -> & I1 & E1); [lia|]. cbn [bind].
    destruct (IH s1 I1) as (s2 & -> & I2 & E2); [lia|]. exists s2. split; [reflexivity|]. split; [exact I2|lia].
Qed.
Lemma md_row_ok s_c pre rest : Forall is_byte s_c -> s_c = pre ++ rest -> 3136 <= zlen rest ->
  exists row rd rest' b, foldM (md_get s_c) (seq 0 PN) ([], zlen pre, 0, 0) = Ok (row, zlen pre + 3136, b, 0) /\
    s_c = (pre ++ rd) ++ rest' /\ zlen rd = 3136 /\ length row = 512%nat /\ Forall (fun x => 0 <= x < 2 ^ Z.of_nat 49) row /\
    bits_of_bytes rd = codes 49 row.
Proof.
  intros Hs E L. destruct (md_fold_ok s_c pre (zlen rest) (seq 0 PN) Hs ([], zlen pre, 0, 0)) as (st & Ef & I & El).
  - exists [], rest. rewrite app_nil_r. rewrite zlen_nil. repeat apply conj; try lia; try reflexivity; try assumption. constructor.
  - cbn [fst]. unfold zlen at 1 2. rewrite seq_length. unfold PN. cbn [length]. lia.
  - destruct st as [[[row off] buffer] bbo]. destruct I as (rd & rest' & E1 & -> & Hb & Hbuf & E8 & Et & F & C). cbn [fst] in El.
    assert (Lr : zlen row = 512) by (rewrite El; unfold zlen; rewrite seq_length; reflexivity).
    assert (bbo = 0) by lia. subst bbo. assert (Lrd : zlen rd = 3136) by lia.
    exists row, rd, rest', buffer. rewrite Ef, Lrd. repeat apply conj; try reflexivity; try assumption.
    + unfold zlen in Lr. lia.
    + rewrite C. cbn [bits_of]. apply app_nil_r.
Qed.
Definition fresh_row (d : nat) (p : list Z) : list (list Z) := p :: repeat poly_zero (d - 1).
Lemma md_rows_ok s_c d : Forall is_byte s_c -> forall (l : list nat) acc pre rest, s_c = pre ++ rest -> 3136 * zlen l <= zlen rest ->
  exists xs pack rest', foldM (fun '(s, off) (_ : nat) =>
           '(row, off, _, _) <- foldM (md_get s_c) (seq 0 PN) ([], off, 0, 0) ;;
           Ok (s ++ [row :: repeat poly_zero (d - 1)], off)) l (acc, zlen pre) = Ok (acc ++ map (fresh_row d) xs, zlen pre + 3136 * zlen l) /\
    rest = pack ++ rest' /\ zlen pack = 3136 * zlen l /\ length xs = length l /\
    Forall (fun p => length p = 512%nat /\ Forall (fun x => 0 <= x < 2 ^ Z.of_nat 49) p) xs /\
    bits_of_bytes pack = codes 49 (concat xs).
Proof.
  intros Hs. induction l as [|i l IH]; intros acc pre rest E L.
  - exists [], [], rest. cbn [foldM map]. rewrite app_nil_r. change (zlen (@nil nat)) with 0. rewrite Z.mul_0_r, Z.add_0_r.
    repeat apply conj; try reflexivity. constructor.
  - rewrite zlen_cons in *. pose proof (zlen_nonneg l). cbn [foldM].
    destruct (md_row_ok s_c pre rest Hs E) as (row & rd & r1 & b & Ef & E1 & Lrd & Lrow & Frow & C); [lia|].
    rewrite Ef. cbn [bind].
    replace (zlen pre + 3136) with (zlen (pre ++ rd)) by (rewrite zlen_app; lia).
    assert (Er : rest = rd ++ r1) by (rewrite E, <- app_assoc in E1; apply app_inv_head in E1; exact E1).
    destruct (IH (acc ++ [row :: repeat poly_zero (d - 1)]) (pre ++ rd) r1 E1) as (xs & pack & rest' & -> & E2 & L2 & Lx & Fx & Cx).
    { rewrite Er, zlen_app in L. lia. }
    exists (row :: xs), (rd ++ pack), rest'. rewrite !zlen_app. cbn [map length concat].
    repeat apply conj.
    + rewrite <- app_assoc. cbn [app]. unfold fresh_row. f_equal. f_equal. lia.
    + rewrite Er, E2, app_assoc. reflexivity.
    + lia.
    + lia.
    + constructor; [split; assumption|exact Fx].
    + rewrite bits_of_bytes_app, C, Cx, codes_app. reflexivity.
Qed.
Lemma mask_decompress_ok O fuel kb l d s_c : Forall is_byte s_c -> (1 <= d)%nat ->
  zlen s_c = Z.of_nat kb * (Z.of_nat d - 1) + 3136 * Z.of_nat l ->
  exists seeds pack xs, s_c = seeds ++ pack /\ length seeds = ((d - 1) * kb)%nat /\ length xs = l /\
    Forall (fun p => length p = 512%nat /\ Forall (fun x => 0 <= x < 2 ^ Z.of_nat 49) p) xs /\
    bits_of_bytes pack = codes 49 (concat xs) /\
    wp (mask_decompress O fuel (8 * Z.of_nat kb) l d s_c) (fun s => s = map (fresh_row d) xs) /\
    ((forall sidx ridx, (1 <= sidx < d)%nat -> (ridx < l)%nat ->
          exists r, sampleQ O fuel (hdr_K sidx ridx) (firstn kb (skipn ((sidx - 1) * kb) s_c)) = Ok r) ->
     mask_decompress O fuel (8 * Z.of_nat kb) l d s_c = Ok (map (fresh_row d) xs)).
Proof.
  intros Hs Hd L. rewrite (Z.mul_comm (Z.of_nat kb)), zmul1 in L by lia.
  destruct (split3 s_c ((d - 1) * kb) 0) as (seeds & z & rest & E & Ls & Lz); [unfold zlen in L; lia|].
  destruct z; [|discriminate]. cbn [app] in E.
  destruct (md_rows_ok s_c d Hs (seq 0 l) [] seeds rest E) as (xs & pack & rest' & Ef & Er & Lp & Lx & Fx & C).
  { rewrite E, zlen_app in L. unfold zlen in *. rewrite seq_length. lia. }
  assert (zlen (seq 0 l) = Z.of_nat l) by (unfold zlen; rewrite seq_length; reflexivity).
  assert (rest' = []).
  { destruct rest' as [|y r]; [reflexivity|]. rewrite E, Er, !zlen_app, zlen_cons in L. pose proof (zlen_nonneg r).
    unfold zlen in *. lia. }
  subst rest'. rewrite app_nil_r in Er. subst rest. exists seeds, pack, xs. rewrite seq_length in Lx.
  split; [exact E|]. split; [exact Ls|]. split; [exact Lx|]. split; [exact Fx|]. split; [exact C|].
  unfold mask_decompress, md_rows.
  replace ((Z.of_nat d - 1) * (8 * Z.of_nat kb) / 8) with (zlen seeds).
  2:{ unfold zlen. rewrite Ls. replace ((Z.of_nat d - 1) * (8 * Z.of_nat kb)) with ((Z.of_nat ((d - 1) * kb)) * 8) by (rewrite <- zmul1 by lia; lia).
      rewrite Z.div_mul by lia. reflexivity. }
  replace (8 * Z.of_nat kb / 8) with (Z.of_nat kb) by (rewrite (Z.mul_comm 8), Z.div_mul by lia; reflexivity).
  unfold pvec, mpoly, poly in *. rewrite Ef. cbn [bind app].
  assert (Sub : forall i, In i (seq 1 (d - 1)) -> subspan s_c ((Z.of_nat i - 1) * Z.of_nat kb) (Z.of_nat kb) = Ok (firstn kb (skipn ((i - 1) * kb) s_c))).
  { intros i Hi. apply in_seq in Hi. rewrite zmul1 by lia. rewrite subspan_Ok; [|apply Nat2Z.is_nonneg|lia|].
    - rewrite !Nat2Z.id. reflexivity.
    - rewrite L. pose proof (Nat.mul_le_mono_r (S (i - 1)) (d - 1) kb ltac:(lia)). lia. }
  split.
  - apply wp_foldM; [reflexivity|]. intros s i Hi ->. rewrite (Sub i Hi).
    apply wp_foldM; [reflexivity|]. intros s j Hj ->. cbn [bind].
    match goal with |- context [sampleQ O fuel ?h ?z] => pose proof (sampleQ_not_UB O fuel h z) as U; destruct (sampleQ O fuel h z) end;
      [reflexivity|congruence|exact I].
  - intros HS. assert (FM : forall {S A} (f : S -> A -> res S) l s, (forall a, In a l -> f s a = Ok s) -> foldM f l s = Ok s).
    { clear. intros S A f l s. induction l as [|a l IH]; intros H; [reflexivity|]. cbn [foldM]. rewrite H by (left; reflexivity).
      apply IH. intros b Hb. apply H. right. exact Hb. }
    apply FM. intros i Hi. rewrite (Sub i Hi). apply FM. intros j Hj. cbn [bind].
    apply in_seq in Hi. apply in_seq in Hj. destruct (HS i j) as [r ->]; [lia|lia|]. reflexivity.
Qed.
