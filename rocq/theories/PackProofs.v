(* Bit packing: generic lemmas, public key and secret key encoding. *)
From Coq Require Import ZArith Lia Bool List Arith.
From Coq Require Import ZifyBool ZifyNat.
From Verif Require Import ModelBase ModelU128 ModelField ModelUtils ModelPoly ModelVec ModelSerial.
From Verif Require Import Spec.
From Verif Require Import Words FieldProofs ArithLemmas BytesProofs PolyProofs.
Import ListNotations.
Open Scope Z_scope.
Ltac Zify.zify_post_hook ::= idtac.

Lemma put_le_app (dn rest : list Z) n v off : off = zlen dn -> 0 <= n <= 8 -> n <= zlen rest ->
  put_le (dn ++ rest) off n v = Ok (dn ++ le_bytes (Z.to_nat n) v ++ skipn (Z.to_nat n) rest).
Proof.
  intros -> Hn Hr. unfold put_le.
  assert (L : length (firstn (Z.to_nat n) rest) = Z.to_nat n) by (rewrite firstn_length; unfold zlen in Hr; lia).
  assert (E : dn ++ rest = dn ++ firstn (Z.to_nat n) rest ++ skipn (Z.to_nat n) rest) by (rewrite firstn_skipn; reflexivity).
  rewrite E.
  rewrite subspan_app; [|reflexivity|unfold zlen; lia]. cbn [bind].
  rewrite write_at_app; [|reflexivity|].
  - f_equal. f_equal. f_equal. rewrite to_le_bytes_spec. rewrite L. rewrite Nat.min_r by lia.
    rewrite skipn_all2 by lia. apply app_nil_r.
  - unfold zlen. f_equal. rewrite to_le_bytes_spec. rewrite L, Nat.min_r by lia.
    rewrite skipn_all2 by lia. rewrite app_nil_r, le_bytes_length. reflexivity.
Qed.

(* appending a w-bit value above an o-bit buffer *)
Lemma buf_push b o c w : 0 <= o -> 0 <= w -> o + w <= 64 -> 0 <= b < 2 ^ o ->
  Z.lor b (((c mod 2 ^ w) * 2 ^ o) mod two64) = b + (c mod 2 ^ w) * 2 ^ o /\
  0 <= b + (c mod 2 ^ w) * 2 ^ o < 2 ^ (o + w) /\
  bits_of (Z.to_nat (o + w)) (b + (c mod 2 ^ w) * 2 ^ o)
  = bits_of (Z.to_nat o) b ++ bits_of (Z.to_nat w) c.
Proof.
  intros Ho Hw H Hb. set (x := c mod 2 ^ w).
  assert (Pw : 0 < 2 ^ w) by (apply Z.pow_pos_nonneg; lia).
  assert (Po : 0 < 2 ^ o) by (apply Z.pow_pos_nonneg; lia).
  assert (Hx : 0 <= x < 2 ^ w) by (apply Z.mod_pos_bound; lia).
  assert (E : 2 ^ (o + w) = 2 ^ o * 2 ^ w) by (apply Z.pow_add_r; lia).
  assert (R : 0 <= b + x * 2 ^ o < 2 ^ (o + w)) by nia.
  assert (M : 2 ^ (o + w) <= two64) by (rewrite two64_pow; apply Z.pow_le_mono_r; lia).
  split; [|split; [exact R|]].
  - rewrite Z.mod_small by nia. apply lor_disjoint; lia.
  - rewrite Z2Nat.inj_add by lia. rewrite bits_of_app. f_equal.
    + rewrite <- (bits_of_mod (Z.to_nat o) b), <- (bits_of_mod _ (b + x * 2 ^ o)). f_equal.
      rewrite Z2Nat.id by lia. rewrite Z.mod_add by lia. reflexivity.
    + rewrite Z2Nat.id by lia. rewrite Z.div_add by lia. rewrite Z.div_small by lia. rewrite Z.add_0_l.
      unfold x. rewrite <- (Z2Nat.id w) at 2 by lia. apply bits_of_mod.
Qed.
(* dropping the n low bits of an o-bit buffer *)
Lemma buf_pop b o n : 0 <= n <= o -> 0 <= b < 2 ^ o ->
  bits_of (Z.to_nat o) b = bits_of (Z.to_nat n) b ++ bits_of (Z.to_nat (o - n)) (b / 2 ^ n) /\
  0 <= b / 2 ^ n < 2 ^ (o - n).
Proof.
  intros Hn Hb. split.
  - replace (Z.to_nat o) with (Z.to_nat n + Z.to_nat (o - n))%nat by lia. rewrite bits_of_app. rewrite Z2Nat.id by lia. reflexivity.
  - assert (P : 0 < 2 ^ n) by (apply Z.pow_pos_nonneg; lia). split; [apply Z.div_pos; lia|].
    apply Z.div_lt_upper_bound; [lia|]. rewrite <- Z.pow_add_r by lia. replace (n + (o - n)) with o by lia. lia.
Qed.

(* fixed-width codes *)
Definition codes (w : nat) (l : list Z) : list bool := concat (map (bits_of w) l).
Lemma codes_app w a b : codes w (a ++ b) = codes w a ++ codes w b.
Proof. unfold codes. rewrite map_app, concat_app. reflexivity. Qed.
Lemma codes_cons w a b : codes w (a :: b) = bits_of w a ++ codes w b.
Proof. reflexivity. Qed.
Lemma codes_length w l : length (codes w l) = (w * length l)%nat.
Proof.
  unfold codes. induction l as [|x l IH]; [cbn; lia|]. cbn [map concat length]. rewrite app_length, IH, bits_of_length. lia.
Qed.
Lemma app_inj_len {A} (a b c d : list A) : length a = length c -> a ++ b = c ++ d -> a = c /\ b = d.
Proof.
  revert c. induction a as [|x a IH]; intros [|y c] L E; cbn in *; try lia; [split; auto|].
  injection E as -> E. destruct (IH c (eq_add_S _ _ L) E) as [-> ->]. auto.
Qed.
Lemma codes_inj w l m : Forall (fun x => 0 <= x < 2 ^ Z.of_nat w) l -> Forall (fun x => 0 <= x < 2 ^ Z.of_nat w) m ->
  length l = length m -> codes w l = codes w m -> l = m.
Proof.
  intros Hl. revert m. induction Hl as [|x l Hx Hl IH]; intros [|y m] Hm L E; cbn in L; try lia; [reflexivity|].
  inversion Hm; subst. rewrite !codes_cons in E. apply app_inj_len in E; [|rewrite !bits_of_length; reflexivity].
  destruct E as [E1 E2]. f_equal.
  - apply (f_equal bits_value) in E1. rewrite !bits_value_bits_of in E1. rewrite !Z.mod_small in E1 by assumption. exact E1.
  - apply IH; try assumption; lia.
Qed.

(* ------------------------------ public key ------------------------------ *)
Definition pk_inv (seed : list Z) (total : nat) (ps : list Z) (st : pkenc) : Prop :=
  exists wr rest g p, pe_out st = (seed ++ wr) ++ rest /\ pe_idx st = zlen seed + zlen wr /\
    zlen wr = 7 * g /\ Z.of_nat (length ps) = 8 * g + p /\ 0 <= g /\ 0 <= p <= 8 /\
    zlen wr + zlen rest = 7 * Z.of_nat total /\
    pe_bits st = 7 * p /\ 0 <= pe_buf st < 2 ^ (7 * p) /\ Forall is_byte wr /\
    codes 7 ps = bits_of_bytes wr ++ bits_of (Z.to_nat (7 * p)) (pe_buf st).
Lemma pk_flush_ok seed total ps st : pk_inv seed total ps st -> (length ps <= 8 * total)%nat ->
  exists st', pk_flush 42 st = Ok st' /\ pk_inv seed total ps st' /\ pe_bits st' < 56.
Proof.
  intros (wr & rest & g & p & E1 & E2 & E3 & E4 & G & Pp & E5 & E6 & B & F & C) Hl.
  unfold pk_flush. change (pk_buf_bits 42) with 56. change (pk_buf_bytes 42) with 7.
  destruct (pe_bits st =? 56) eqn:E.
  - assert (p = 8) by lia. subst p. rewrite E1, E2.
    rewrite put_le_app; [|rewrite zlen_app; lia|lia|lia]. cbn [bind]. eexists. split; [reflexivity|]. split; [|cbn; lia].
    exists (wr ++ le_bytes (Z.to_nat 7) (pe_buf st)), (skipn (Z.to_nat 7) rest), (g + 1), 0. cbn [pe_out pe_idx pe_bits pe_buf].
    assert (L : zlen (le_bytes (Z.to_nat 7) (pe_buf st)) = 7) by (unfold zlen; rewrite le_bytes_length; reflexivity).
    rewrite !zlen_app, L. repeat apply conj; try lia.
    + rewrite <- !app_assoc. reflexivity.
    + unfold zlen. rewrite skipn_length. unfold zlen in *. lia.
    + apply Forall_app. split; [exact F|apply le_bytes_byte].
    + rewrite C, bits_of_bytes_app, bits_of_le_bytes. cbn [bits_of]. rewrite app_nil_r. reflexivity.
  - exists st. split; [reflexivity|]. split; [|lia]. exists wr, rest, g, p. repeat apply conj; assumption || lia.
Qed.
Lemma pk_put_ok seed total ps st c : pk_inv seed total ps st -> pe_bits st < 56 ->
  exists st', pk_put 42 st c = Ok st' /\ pk_inv seed total (ps ++ [c]) st'.
Proof.
  intros (wr & rest & g & p & E1 & E2 & E3 & E4 & G & Pp & E5 & E6 & B & F & C) Hb.
  unfold pk_put. change (pk_bitmask 42) with (2 ^ 7 - 1). change (pk_bitcnt 42) with 7.
  rewrite shl_chk_Ok by lia. cbn [bind]. eexists. split; [reflexivity|].
  rewrite (land_mask c 7 (2 ^ 7 - 1)) by (reflexivity || lia). rewrite E6.
  destruct (buf_push (pe_buf st) (7 * p) c 7) as (P1 & P2 & P3); [lia|lia|lia|exact B|].
  exists wr, rest, g, (p + 1). cbn [pe_out pe_idx pe_bits pe_buf]. rewrite P1.
  replace (7 * (p + 1)) with (7 * p + 7) by lia.
  repeat apply conj; try assumption; try lia.
  - rewrite app_length. cbn [length]. lia.
  - rewrite codes_app, C, P3. cbn [codes map concat]. rewrite app_nil_r, app_assoc. reflexivity.
Qed.
Lemma pk_fold_ok seed total cs : forall ps st, pk_inv seed total ps st -> (length ps + length cs <= 8 * total)%nat ->
  exists st', foldM (fun st c => st <- pk_flush 42 st ;; pk_put 42 st c) cs st = Ok st' /\ pk_inv seed total (ps ++ cs) st'.
Proof.
  induction cs as [|c cs IH]; intros ps st I L.
  - exists st. rewrite app_nil_r. split; [reflexivity|exact I].
  - cbn [foldM]. cbn [length] in L. destruct (pk_flush_ok seed total ps st I) as (s1 & -> & I1 & B1); [lia|]. cbn [bind].
    destruct (pk_put_ok seed total ps s1 c I1 B1) as (s2 & -> & I2). cbn [bind].
    destruct (IH (ps ++ [c]) s2 I2) as (s3 & -> & I3); [rewrite app_length; cbn; lia|].
    exists s3. split; [reflexivity|]. rewrite <- app_assoc in I3. exact I3.
Qed.
Lemma encode_public_key_ok seed t buf n : length (pv_flat t) = (8 * n)%nat -> zlen buf = zlen seed + 7 * Z.of_nat n ->
  exists pack, encode_public_key 42 seed t buf = Ok (seed ++ pack) /\ Forall is_byte pack /\
    bits_of_bytes pack = codes 7 (pv_flat t) /\ zlen pack = 7 * Z.of_nat n.
Proof.
  intros Hn Hb. unfold encode_public_key.
  destruct (split3 buf 0 (length seed)) as (a & b & c & -> & La & Lb); [unfold zlen in Hb; lia|].
  assert (a = []) by (destruct a; [reflexivity|discriminate]). subst a.
  rewrite write_at_app; [|reflexivity|unfold zlen; lia]. cbn [bind app].
  assert (Lc : zlen c = 7 * Z.of_nat n) by (rewrite !zlen_app in Hb; unfold zlen in *; lia).
  destruct (pk_fold_ok seed n (pv_flat t) [] (PkEnc (seed ++ c) (zlen seed) 0 0)) as (s1 & -> & I1).
  - exists [], c, 0, 0. cbn [pe_out pe_idx pe_bits pe_buf length]. rewrite app_nil_r, zlen_nil.
    repeat apply conj; try reflexivity; try lia. constructor.
  - cbn [length]. lia.
  - cbn [bind app] in *. destruct (pk_flush_ok seed n (pv_flat t) s1 I1) as (s2 & -> & I2 & B2); [lia|]. cbn [bind].
    destruct I2 as (wr & rest & g & p & E1 & E2 & E3 & E4 & G & Pp & E5 & E6 & B & F & C).
    assert (p = 0) by lia. subst p. assert (g = Z.of_nat n) by lia. subst g.
    assert (rest = []) by (destruct rest; [reflexivity|rewrite zlen_cons in E5; pose proof (zlen_nonneg rest); lia]). subst rest.
    exists wr. rewrite E1, app_nil_r. repeat apply conj; try assumption; try reflexivity.
    rewrite C. cbn [bits_of]. rewrite app_nil_r. reflexivity.
Qed.

Lemma pk_unpack_fold : forall n a b t_idx buffer (l : list nat), length l = n -> t_idx = zlen a -> (n <= length b)%nat ->
  0 <= buffer < 2 ^ (7 * Z.of_nat n) ->
  exists new buf', foldM (fun '(t, t_idx, buffer) _ =>
             t <- write_at t t_idx [Z.land buffer (pk_bitmask 42)] ;;
             Ok (t, t_idx + 1, shr64 buffer (pk_bitcnt 42))) l (a ++ b, t_idx, buffer)
    = Ok ((a ++ new) ++ skipn n b, t_idx + Z.of_nat n, buf') /\
    length new = n /\ Forall (fun x => 0 <= x < 2 ^ Z.of_nat 7) new /\ codes 7 new = bits_of (7 * n) buffer.
Proof.
  induction n as [|n IH]; intros a b t_idx buffer l Hl Ht Hb Hbuf.
  - destruct l; [|discriminate]. exists [], buffer. cbn [foldM app skipn]. rewrite app_nil_r.
    replace (t_idx + Z.of_nat 0) with t_idx by lia. repeat apply conj; try reflexivity. constructor.
  - destruct l as [|y l]; [discriminate|]. destruct b as [|x b]; [cbn in Hb; lia|]. cbn [length] in *.
    cbn [foldM]. change (x :: b) with ([x] ++ b). rewrite write_at_app; [|exact Ht|reflexivity]. cbn [bind].
    change (pk_bitmask 42) with (2 ^ 7 - 1). change (pk_bitcnt 42) with 7.
    rewrite (land_mask buffer 7 (2 ^ 7 - 1)) by (reflexivity || lia). rewrite shr64_spec by lia.
    destruct (buf_pop buffer (7 * Z.of_nat (S n)) 7) as [P1 P2]; [lia|exact Hbuf|].
    rewrite app_assoc.
    destruct (IH (a ++ [buffer mod 2 ^ 7]) b (t_idx + 1) (buffer / 2 ^ 7) l) as (new & buf' & E & L & F & C).
    + lia.
    + rewrite zlen_app. unfold zlen in *. cbn [length]. lia.
    + lia.
    + replace (7 * Z.of_nat n) with (7 * Z.of_nat (S n) - 7) by lia. exact P2.
    + exists ((buffer mod 2 ^ 7) :: new), buf'. split; [|split; [cbn; lia|split]].
      * change (pk_bitmask 42) with (2 ^ 7 - 1) in E. change (pk_bitcnt 42) with 7 in E. rewrite E.
        rewrite <- !app_assoc. cbn [app skipn]. f_equal. f_equal. f_equal. lia.
      * constructor; [change (Z.of_nat 7) with 7; apply Z.mod_pos_bound; lia|exact F].
      * rewrite codes_cons, C. replace (7 * S n)%nat with (7 + 7 * n)%nat by lia. rewrite bits_of_app.
        change (Z.of_nat 7) with 7. f_equal. exact (bits_of_mod 7 buffer).
Qed.
Lemma pk_dec_loop_ok pkey : Forall is_byte pkey -> forall g n pre suf tdone trest idx t_idx,
  pkey = pre ++ suf -> idx = zlen pre -> length suf = (7 * g)%nat -> length trest = (8 * g)%nat ->
  t_idx = zlen tdone -> (g <= n)%nat ->
  exists new, pk_dec_loop 42 n pkey idx (tdone ++ trest) t_idx = Ok (tdone ++ new) /\
    length new = (8 * g)%nat /\ Forall (fun x => 0 <= x < 2 ^ Z.of_nat 7) new /\ codes 7 new = bits_of_bytes suf.
Proof.
  intros Hk. induction g as [|g IH]; intros n pre suf tdone trest idx t_idx E Hi Ls Lt Ht Hn.
  - destruct suf; [|discriminate]. destruct trest; [|discriminate]. rewrite app_nil_r in E. subst pkey idx.
    exists []. unfold pk_dec_loop. destruct n; rewrite Z.leb_refl; (repeat apply conj; try reflexivity; constructor).
  - destruct n as [|n]; [lia|]. cbn [pk_dec_loop].
    assert (Lk : zlen pkey = idx + 7 * Z.of_nat (S g)) by (subst; rewrite zlen_app; unfold zlen; lia).
    replace (zlen pkey <=? idx) with false by lia. change (pk_buf_bytes 42) with 7.
    destruct (split3 suf 0 7) as (z & s1 & s2 & Es & L0 & L1); [lia|]. destruct z; [|discriminate]. cbn [app] in Es. subst suf.
    subst pkey. rewrite (subspan_app pre s1 s2) by (assumption || (unfold zlen; lia)). cbn [bind].
    assert (Hs1 : Forall is_byte s1).
    { rewrite !Forall_app in Hk. tauto. }
    unfold pk_unpack. change (pk_buf_bits 42 / pk_bitcnt 42) with 8.
    rewrite from_le_bytes_spec by exact Hs1. rewrite firstn_all2 by lia.
    destruct (pk_unpack_fold 8 tdone trest t_idx (le_value s1) (seq 0 (Z.to_nat 8))) as (new & buf' & -> & L & F & C).
    + reflexivity.
    + exact Ht.
    + lia.
    + pose proof (le_value_range s1 Hs1) as R. replace (zlen s1) with 7 in R by (unfold zlen; lia). exact R.
    + cbn [bind]. rewrite app_length in Ls.
      destruct (IH n (pre ++ s1) s2 (tdone ++ new) (skipn 8 trest) (idx + 7) (t_idx + Z.of_nat 8)) as (new2 & -> & L2 & F2 & C2).
      * rewrite <- app_assoc. reflexivity.
      * rewrite zlen_app. unfold zlen in *. lia.
      * lia.
      * rewrite skipn_length. lia.
      * rewrite zlen_app. unfold zlen in *. lia.
      * lia.
      * exists (new ++ new2). rewrite app_assoc. split; [reflexivity|]. split; [rewrite app_length; lia|].
        split; [apply Forall_app; split; assumption|]. rewrite codes_app, C, C2, bits_of_bytes_app. f_equal.
        apply bits_of_bytes_le; [exact Hs1|]. rewrite L1. reflexivity.
Qed.
Lemma pv_flat_rows_of k flat : length flat = (k * PN)%nat -> pv_flat (rows_of k flat) = flat.
Proof.
  unfold pv_flat, rows_of. rewrite map_map. cbn [nth]. revert flat.
  assert (G : forall n i (flat : list Z), length flat = ((i + n) * PN)%nat ->
     concat (map (fun r => firstn PN (skipn (r * PN) flat)) (seq i n)) = skipn (i * PN) flat).
  { induction n as [|n IH]; intros i flat L.
    - cbn. rewrite skipn_all2 by lia. reflexivity.
    - cbn [seq map concat]. rewrite IH by lia. replace (S i * PN)%nat with (i * PN + PN)%nat by lia.
      rewrite <- skipn_skipn'. apply firstn_skipn. }
  intros flat L. rewrite (G k 0%nat flat) by lia. reflexivity.
Qed.
Lemma rows_of_pv_flat k t : length t = k -> Forall (fun row => exists p, row = [p] /\ length p = PN) t ->
  rows_of k (pv_flat t) = t.
Proof.
  intros <- H. unfold rows_of, pv_flat.
  assert (G : forall pre (t : pvec), Forall (fun row => exists p, row = [p] /\ length p = PN) t ->
    forall i, length pre = (i * PN)%nat ->
    map (fun r => [firstn PN (skipn (r * PN) (pre ++ concat (map (fun row => nth 0 row []) t)))]) (seq i (length t)) = t).
  { clear. intros pre t H. revert pre. induction H as [|row t (p & -> & Lp) Ht IH]; intros pre i Lpre; [reflexivity|].
    cbn [length seq map concat nth]. f_equal.
    - f_equal. rewrite skipn_app, <- Lpre, Nat.sub_diag, skipn_all2 by lia. cbn [app skipn].
      rewrite firstn_app, Lp, Nat.sub_diag, firstn_O, app_nil_r. rewrite <- Lp. apply firstn_all.
    - rewrite app_assoc. apply (IH (pre ++ p) (S i)). rewrite app_length. lia. }
  apply (G [] t H 0%nat). reflexivity.
Qed.
Lemma rows_of_ok k flat : length flat = (k * PN)%nat ->
  length (rows_of k flat) = k /\ Forall (fun row => exists p, row = [p] /\ length p = PN) (rows_of k flat).
Proof.
  intros L. unfold rows_of. rewrite map_length, seq_length. split; [reflexivity|].
  rewrite Forall_forall. intros row Hr. apply in_map_iff in Hr. destruct Hr as (r & <- & Hr). apply in_seq in Hr.
  eexists. split; [reflexivity|]. rewrite firstn_length, skipn_length, L. unfold PN. nia.
Qed.
Lemma decode_public_key_ok kappa k bytes : 0 <= kappa / 8 -> Forall is_byte bytes ->
  zlen bytes = kappa / 8 + 7 * (Z.of_nat k * 64) ->
  exists seed t pack, decode_public_key kappa k 42 bytes = Ok (seed, t) /\
    bytes = seed ++ pack /\ zlen seed = kappa / 8 /\ bits_of_bytes pack = codes 7 (pv_flat t) /\
    length t = k /\ Forall (fun row => exists p, row = [p] /\ length p = PN) t /\
    Forall (fun x => 0 <= x < 2 ^ Z.of_nat 7) (pv_flat t).
Proof.
  intros Hk Hb L. unfold decode_public_key.
  destruct (split3 bytes (Z.to_nat (kappa / 8)) 0) as (seed & z & pack & E & Ls & Lz); [unfold zlen in L; lia|].
  destruct z; [|discriminate]. cbn [app] in E.
  assert (Zs : zlen seed = kappa / 8) by (unfold zlen; lia).
  assert (E1 : subspan bytes 0 (kappa / 8) = Ok seed).
  { rewrite E. change (seed ++ pack) with ([] ++ seed ++ pack). apply subspan_app; [reflexivity|lia]. }
  rewrite E1. cbn [bind].
  assert (Lp : length pack = (7 * (k * 64))%nat).
  { rewrite E, zlen_app in L. unfold zlen in *. lia. }
  destruct (pk_dec_loop_ok bytes Hb (k * 64) (length bytes) seed pack [] (repeat 0 (k * PN)) (kappa / 8) 0) as (new & D & Ln & F & C).
  - exact E.
  - lia.
  - exact Lp.
  - rewrite repeat_length. unfold PN. lia.
  - reflexivity.
  - rewrite E, app_length. lia.
  - cbn [app] in D. rewrite D. cbn [bind].
    assert (Ln' : length new = (k * PN)%nat) by (rewrite Ln; unfold PN; lia).
    destruct (rows_of_ok k new Ln') as [R1 R2].
    exists seed, (rows_of k new), pack. rewrite pv_flat_rows_of by exact Ln'.
    repeat apply conj; try assumption; try reflexivity. symmetry. exact C.
Qed.
