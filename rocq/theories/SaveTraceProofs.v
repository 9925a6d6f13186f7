(* The order of the stores made when a key is saved. *)
From Coq Require Import ZArith Lia Bool List Arith.
From Coq Require Import ZifyBool ZifyNat.
From Verif Require Import ModelBase ModelU128 ModelField ModelUtils ModelPoly ModelVec ModelSerial ModelScheme ModelTrace ModelSaveTrace.
From Verif Require Import Spec SpecScheme SpecTrace.
From Verif Require Import Words FieldProofs ArithLemmas BytesProofs PolyProofs MaskedProofs SampleProofs PackProofs SkeyProofs MaskedLemmas ParamProofs KeyLemmas SigEnc TraceProofs.
Import ListNotations.
Open Scope Z_scope.
Ltac Zify.zify_post_hook ::= idtac.

(* ---------- forgetting the log ---------- *)
Lemma snd_lbind {A B} (m : lres A) (f : A -> lres B) : snd (lbind m f) = bind (snd m) (fun a => snd (f a)).
Proof. destruct m as [lg [a| |]]; [|reflexivity|reflexivity]. cbn [lbind snd bind]. destruct (f a); reflexivity. Qed.
Lemma snd_foldL {S A} (f : S -> A -> lres S) (g : S -> A -> res S) : (forall s a, snd (f s a) = g s a) ->
  forall l s, snd (foldL f l s) = foldM g l s.
Proof.
  intros H. induction l as [|a l IH]; intros s; [reflexivity|]. cbn [foldL foldM]. rewrite snd_lbind, H.
  destruct (g s a) as [s'| |]; cbn [bind]; [apply IH|reflexivity|reflexivity].
Qed.
Lemma snd_write_log out off v : snd (write_log out off v) = write_at out off v.
Proof. unfold write_log. destruct (write_at _ _ _); reflexivity. Qed.
Lemma snd_put_le_w out off n b : snd (put_le_w out off n b) = put_le out off n b.
Proof. unfold put_le_w. destruct (put_le _ _ _ _); reflexivity. Qed.
Lemma bind_ret {A} (r : res A) : bind r (fun a => Ok a) = r.
Proof. destruct r; reflexivity. Qed.
Lemma bind_eq {A B} (r r' : res A) (f g : A -> res B) : r = r' -> (forall a, f a = g a) -> bind r f = bind r' g.
Proof. intros -> H. destruct r' as [a| |]; [apply H|reflexivity|reflexivity]. Qed.
Lemma pk_flush_forget nut st : snd (pk_flush_log nut st) = pk_flush nut st.
Proof.
  unfold pk_flush_log, pk_flush. destruct (_ =? _); [|reflexivity]. rewrite snd_lbind, snd_put_le_w. reflexivity.
Qed.
Lemma encode_public_key_forget nut seed t buf : snd (encode_public_key_log nut seed t buf) = encode_public_key nut seed t buf.
Proof.
  unfold encode_public_key_log, encode_public_key. rewrite snd_lbind, snd_write_log. apply bind_eq; [reflexivity|]. intros out.
  rewrite snd_lbind. apply bind_eq.
  - apply snd_foldL. intros s a. rewrite snd_lbind, pk_flush_forget. reflexivity.
  - intros st. rewrite snd_lbind, pk_flush_forget. reflexivity.
Qed.
Lemma pk_to_bytes_forget P pk buf : snd (pk_to_bytes_log P pk buf) = pk_to_bytes P pk buf.
Proof. apply encode_public_key_forget. Qed.
Lemma mc_put_forget st c : snd (mc_put_log st c) = mc_put st c.
Proof.
  destruct st as [[[out off] buffer] bbo]. unfold mc_put_log, mc_put. rewrite snd_lbind. apply bind_eq; [reflexivity|]. intros v. cbv zeta.
  rewrite snd_lbind, snd_put_le_w. apply bind_eq; [reflexivity|]. intros o. rewrite snd_lbind. reflexivity.
Qed.
Lemma mc_row_forget st row : snd (mc_row_log st row) = mc_row st row.
Proof.
  destruct st as [out off]. unfold mc_row_log, mc_row. rewrite snd_lbind. apply bind_eq; [apply snd_foldL; exact mc_put_forget|].
  intros [[[o f] b] c]. reflexivity.
Qed.
Lemma mc_share_forget O fuel kappa s st sidx : snd (mc_share_log O fuel kappa s st sidx) = mc_share O fuel kappa s st sidx.
Proof.
  destruct st as [[x out] p]. unfold mc_share_log, mc_share. destruct (prng_read p (kbytes kappa)) as [z p1]. cbv zeta.
  rewrite snd_lbind, snd_write_log. apply bind_eq; [reflexivity|]. intros o. rewrite snd_lbind. apply bind_eq; [reflexivity|]. reflexivity.
Qed.
Lemma mask_compress_forget O fuel kappa d s sc p : snd (mask_compress_log O fuel kappa d s sc p) = mask_compress O fuel kappa d s sc p.
Proof.
  unfold mask_compress_log, mask_compress. cbv zeta. rewrite snd_lbind. apply bind_eq.
  - apply snd_foldL. intros s1 a. apply mc_share_forget.
  - intros [[x out] p1]. rewrite snd_lbind. apply bind_eq; [apply snd_foldL; exact mc_row_forget|]. intros [o f]. reflexivity.
Qed.
Lemma sk_to_bytes_forget O fuel P sk buf p : snd (sk_to_bytes_log O fuel P sk buf p) = sk_to_bytes O fuel P sk buf p.
Proof.
  unfold sk_to_bytes_log, sk_to_bytes. cbv zeta. rewrite snd_lbind. apply bind_eq; [reflexivity|]. intros a. rewrite snd_lbind.
  apply bind_eq; [reflexivity|]. intros b. rewrite snd_lbind, pk_to_bytes_forget. apply bind_eq; [reflexivity|]. intros c.
  rewrite snd_lbind, <- mask_compress_forget. destruct (mask_compress_log O fuel (p_kappa P) (p_d P) (sk_s sk) b p) as [lg r]. cbn [snd].
  apply bind_eq; [reflexivity|]. intros [o q]. reflexivity.
Qed.

(* ---------- the log grows in order ---------- *)
(* started with log lg0, the computation ends with a log satisfying Post, or stops with a log satisfying Bad *)
Definition lw {A} (m : lres A) (lg0 : list (Z * Z)) (Bad : list (Z * Z) -> Prop) (Post : A -> list (Z * Z) -> Prop) : Prop :=
  match m with
  | (lg, Ok a) => Post a (lg0 ++ lg)
  | (lg, _) => Bad (lg0 ++ lg)
  end.
Lemma lw_bind {A B} (m : lres A) (f : A -> lres B) lg0 (Bad : _ -> Prop) (P1 : A -> _ -> Prop) (P2 : B -> _ -> Prop) :
  lw m lg0 Bad P1 -> (forall a lg1, P1 a lg1 -> lw (f a) lg1 Bad P2) -> lw (lbind m f) lg0 Bad P2.
Proof.
  intros H1 H2. destruct m as [lg [a| |]]; [|exact H1|exact H1]. cbn [lw lbind] in *. pose proof (H2 a _ H1) as H3. destruct (f a) as [lg' r].
  unfold lw in *. rewrite <- app_assoc in H3. destruct r; exact H3.
Qed.
Lemma lw_ret {A} (r : res A) lg0 (Bad : _ -> Prop) (P : A -> _ -> Prop) : (forall a, r = Ok a -> P a lg0) -> Bad lg0 -> lw (lret r) lg0 Bad P.
Proof. intros H1 H2. unfold lw, lret. rewrite app_nil_r. destruct r; [apply H1; reflexivity|exact H2|exact H2]. Qed.
Lemma lw_mono {A} (m : lres A) lg0 (Bad B2 : _ -> Prop) (P1 P2 : A -> _ -> Prop) : lw m lg0 Bad P1 ->
  (forall a lg, P1 a lg -> P2 a lg) -> (forall lg, Bad lg -> B2 lg) -> lw m lg0 B2 P2.
Proof. intros H G1 G2. destruct m as [lg [a| |]]; cbn [lw] in *; auto. Qed.
Lemma lw_foldL {S A} (f : S -> A -> lres S) (Bad : _ -> Prop) (I : nat -> S -> list (Z * Z) -> Prop) : forall (l : list A) k s lg0, I k s lg0 ->
  (forall j s lg a, (k <= j < k + length l)%nat -> nth_error l (j - k) = Some a -> I j s lg -> lw (f s a) lg Bad (I (1 + j)%nat)) ->
  lw (foldL f l s) lg0 Bad (I (k + length l)%nat).
Proof.
  induction l as [|a l IH]; intros k s lg0 H0 HS.
  - cbn [foldL length]. rewrite Nat.add_0_r. unfold lw, lret. rewrite app_nil_r. exact H0.
  - cbn [foldL]. eapply lw_bind.
    + apply (HS k s lg0 a); [cbn [length]; lia|rewrite Nat.sub_diag; reflexivity|exact H0].
    + cbn beta. intros s1 lg1 H1. replace (k + length (a :: l))%nat with (1 + k + length l)%nat by (cbn [length]; lia). apply IH; [exact H1|].
      intros j s2 lg b Hj E H2. apply HS; [cbn [length]; lia| |exact H2]. replace (j - k)%nat with (Datatypes.S (j - (1 + k)))%nat by lia. exact E.
Qed.
Definition upto (buf : list Z) (lg : list (Z * Z)) : Prop := in_order lg /\ (length lg <= length buf)%nat.
Lemma upto_log_ok buf out lg : log_ok buf out lg -> upto buf lg.
Proof. intros (A & B & _). split; assumption. Qed.
Lemma log_ok_nil buf : log_ok buf buf [].
Proof. split; [reflexivity|]. split; [cbn [length]; lia|]. reflexivity. Qed.
Lemma write_log_ok buf out lg v (Bad : _ -> Prop) : log_ok buf out lg -> Bad lg -> 
  lw (write_log out (zlen lg) v) lg Bad (fun o lg' => lg' = lg ++ stores (zlen lg) v /\ log_ok buf o lg').
Proof.
  intros (O1 & O2 & EO) HB. unfold write_log. destruct (write_at out (zlen lg) v) as [o| |] eqn:E; [|unfold lw; rewrite app_nil_r; exact HB|unfold lw; rewrite app_nil_r; exact HB].
  unfold lw. split; [reflexivity|].
  unfold write_at in E. destruct (_ && _) eqn:C in E; [|discriminate E].
  assert (EO' : o = firstn (Z.to_nat (zlen lg)) out ++ v ++ skipn (Z.to_nat (zlen lg) + length v) out) by congruence. clear E.
  assert (LO : length out = length buf). { rewrite EO, app_length, map_length, skipn_length. lia. }
  split; [apply stores_order; [exact O1|reflexivity]|]. rewrite app_length, stores_length. split.
  - unfold zlen in *. lia.
  - rewrite map_app, stores_snd, <- app_assoc, EO'. unfold zlen. rewrite Nat2Z.id. f_equal.
    + rewrite EO, firstn_app, map_length, Nat.sub_diag. cbn [firstn]. rewrite app_nil_r. apply firstn_all2. rewrite map_length. lia.
    + f_equal. rewrite EO, skipn_app, map_length. rewrite (skipn_all2 (map snd lg)) by (rewrite map_length; lia). cbn [app].
      rewrite skipn_add. f_equal. lia.
Qed.
Lemma put_le_w_ok buf out lg n b (Bad : _ -> Prop) : log_ok buf out lg -> 0 <= n <= 8 -> Bad lg ->
  lw (put_le_w out (zlen lg) n b) lg Bad (fun o lg' => log_ok buf o lg' /\ zlen lg' = zlen lg + n).
Proof.
  intros L Hn HB. unfold put_le_w. destruct (put_le out (zlen lg) n b) as [o| |] eqn:E; [|unfold lw; rewrite app_nil_r; exact HB|unfold lw; rewrite app_nil_r; exact HB].
  unfold lw. exact (put_le_log buf out lg n b o L Hn E).
Qed.

(* ---------- public key ---------- *)
Definition pkl (buf : list Z) (ns : Z) (j : nat) (st : pkenc) (lg : list (Z * Z)) : Prop :=
  log_ok buf (pe_out st) lg /\ pe_idx st = zlen lg /\
  exists g p, zlen lg = ns + 7 * g /\ pe_bits st = 7 * p /\ 0 <= p <= 8 /\ 8 * g + p = Z.of_nat j.
Lemma pk_flush_log_ok buf ns j st lg : pkl buf ns j st lg -> lw (pk_flush_log 42 st) lg (upto buf) (fun st lg => pkl buf ns j st lg /\ pe_bits st < 56).
Proof.
  intros (L & E & g & p & E1 & E2 & Hp & E3). unfold pk_flush_log. change (pk_buf_bits 42) with 56. change (pk_buf_bytes 42) with 7.
  destruct (pe_bits st =? 56) eqn:C.
  - eapply lw_bind.
    + rewrite E. apply (put_le_w_ok buf); [exact L|lia|exact (upto_log_ok _ _ _ L)].
    + cbn beta. intros o lg' [L' Z']. apply lw_ret; [|exact (upto_log_ok _ _ _ L')]. intros a Ea. apply ok_inj in Ea. subst a.
      split; [|cbn; lia]. split; [exact L'|]. cbn [pe_out pe_idx pe_bits pe_buf]. split; [lia|]. exists (g + 1), 0. repeat split; lia.
  - apply lw_ret; [|exact (upto_log_ok _ _ _ L)]. intros a Ea. apply ok_inj in Ea. subst a. split; [|lia].
    split; [exact L|]. split; [exact E|]. exists g, p. repeat split; lia.
Qed.
Lemma encode_public_key_log_ok seed t buf n : length (pv_flat t) = (8 * n)%nat ->
  lw (encode_public_key_log 42 seed t buf) [] (upto buf) (fun out lg => log_ok buf out lg /\ zlen lg = zlen seed + 7 * Z.of_nat n).
Proof.
  intros Hn. unfold encode_public_key_log. eapply lw_bind.
  - exact (write_log_ok buf buf [] seed (upto buf) (log_ok_nil buf) (upto_log_ok _ _ _ (log_ok_nil buf))).
  - cbn beta. intros o lg [Elg L]. eapply lw_bind.
    + apply (lw_foldL _ (upto buf) (pkl buf (zlen seed)) (pv_flat t) 0%nat).
      * split; [exact L|]. cbn [pe_out pe_idx pe_bits pe_buf]. subst lg. cbn [app]. unfold zlen. rewrite stores_length. split; [reflexivity|].
        exists 0, 0. repeat split; lia.
      * intros j st lg1 c Hj _ I. eapply lw_bind; [apply pk_flush_log_ok; exact I|]. cbn beta. intros st2 lg2 [(L2 & E2 & g & p & F1 & F2 & F3 & F4) B2].
        apply lw_ret; [|exact (upto_log_ok _ _ _ L2)]. intros st3 E. unfold pk_put in E. apply bind_ok_inv in E. destruct E as (v & _ & E).
        apply ok_inj in E. subst st3. change (pk_bitcnt 42) with 7. split; [exact L2|]. cbn [pe_out pe_idx pe_bits pe_buf]. split; [exact E2|].
        exists g, (p + 1). repeat split; lia.
    + cbn beta. intros st lg1 I. eapply lw_bind; [apply pk_flush_log_ok; exact I|]. cbn beta. intros st2 lg2 [(L2 & E2 & g & p & F1 & F2 & F3 & F4) B2].
      apply lw_ret; [|exact (upto_log_ok _ _ _ L2)]. intros out E. apply ok_inj in E. subst out. split; [exact L2|]. rewrite Hn in F4. cbn [Nat.add] in F4. lia.
Qed.

(* ---------- secret part ---------- *)
Definition mcl (buf : list Z) (n0 : Z) (j : nat) (st : list Z * Z * Z * Z) (lg : list (Z * Z)) : Prop :=
  let '(out, off, buffer, bbo) := st in
  log_ok buf out lg /\ off = zlen lg /\ 0 <= bbo < 8 /\ 8 * (zlen lg - n0) + bbo = 49 * Z.of_nat j.
Lemma mc_put_log_ok buf n0 j st c lg : mcl buf n0 j st lg -> lw (mc_put_log st c) lg (upto buf) (mcl buf n0 (1 + j)%nat).
Proof.
  destruct st as [[[out off] buffer] bbo]. intros (L & -> & Hb & E). unfold mc_put_log. pose proof (upto_log_ok _ _ _ L) as U.
  eapply lw_bind; [apply (lw_ret _ lg (upto buf) (fun _ lg' => lg' = lg)); [reflexivity|exact U]|]. cbn beta. intros v lg1 ->. cbv zeta.
  rewrite QBW_val. rewrite align8_spec by (unfold is64, two64; lia).
  replace (8 * ((bbo + 49) / 8) / 8) with ((bbo + 49) / 8) by (rewrite (Z.mul_comm 8), Z.div_mul by lia; reflexivity).
  set (nb := (bbo + 49) / 8). pose proof (div8_bounds (bbo + 49) ltac:(lia)) as D. fold nb in D. clearbody nb.
  eapply lw_bind; [apply (put_le_w_ok buf); [exact L|lia|exact U]|]. cbn beta. intros o lg' [L' Z']. pose proof (upto_log_ok _ _ _ L') as U'.
  eapply lw_bind; [apply (lw_ret _ lg' (upto buf) (fun _ lg'' => lg'' = lg')); [reflexivity|exact U']|]. cbn beta. intros w lg2 ->.
  apply lw_ret; [|exact U']. intros a Ea. apply ok_inj in Ea. subst a. split; [exact L'|]. repeat split; lia.
Qed.
Lemma mc_row_log_ok buf out lg row : log_ok buf out lg -> length row = 512%nat ->
  lw (mc_row_log (out, zlen lg) row) lg (upto buf) (fun st lg' => log_ok buf (fst st) lg' /\ snd st = zlen lg' /\ zlen lg' = zlen lg + 3136).
Proof.
  intros L Hr. unfold mc_row_log. eapply lw_bind.
  - apply (lw_foldL _ (upto buf) (mcl buf (zlen lg)) row 0%nat).
    + split; [exact L|]. repeat split; lia.
    + intros j st lg1 c _ _ I. apply mc_put_log_ok. exact I.
  - cbn beta. intros [[[o off] bf] bbo] lg1 (L1 & -> & Hb & E). apply lw_ret; [|exact (upto_log_ok _ _ _ L1)]. intros a Ea. apply ok_inj in Ea. subst a.
    cbn [fst snd]. split; [exact L1|]. split; [reflexivity|]. unfold poly in *. rewrite Hr in E. cbn [Nat.add] in E. lia.
Qed.
Lemma stores_app a b : stores 0 (a ++ b) = stores 0 a ++ stores (zlen a) b.
Proof.
  unfold stores. rewrite app_length, seq_app, map_app. rewrite (map_ext_in (fun i => zlen a + Z.of_nat i) (fun i => 0 + Z.of_nat (length a + i))) by (intros; unfold zlen; lia).
  rewrite <- (map_map (fun i => (length a + i)%nat) (fun i => 0 + Z.of_nat i)).
  assert (E : forall n k m, map (fun i => (m + i)%nat) (seq k n) = seq (m + k) n).
  { clear. induction n as [|n IH]; intros k m; [reflexivity|]. cbn [seq map]. rewrite IH. rewrite Nat.add_succ_r. reflexivity. }
  rewrite E, Nat.add_0_r. cbn [Nat.add]. generalize (seq (length a) (length b)). intros l2.
  assert (G : forall (x y : list Z) (a b : list Z), length x = length a -> combine (x ++ y) (a ++ b) = combine x a ++ combine y b).
  { clear. induction x as [|u x IH]; intros y [|v a] b H; cbn [length] in H; try lia; [reflexivity|]. cbn [app combine]. rewrite IH by lia. reflexivity. }
  apply G. rewrite map_length, seq_length. reflexivity.
Qed.
Definition seeds_log (tp : nat -> byte) (pos kb d : nat) (lg : list (Z * Z)) : Prop :=
  exists i, (i <= d - 1)%nat /\ lg = stores 0 (stream_bytes (tape_of tp) pos (i * kb)).
Lemma mc_shares_log_ok O fuel kb d s (x : list poly) buf tp pos : (1 <= d)%nat ->
  lw (foldL (mc_share_log O fuel (8 * Z.of_nat kb) s) (seq 1 (d - 1)) (x, buf, Prng tp pos)) []
     (seeds_log tp pos kb d)
     (fun '(_, out, _) lg => log_ok buf out lg /\ lg = stores 0 (stream_bytes (tape_of tp) pos ((d - 1) * kb))).
Proof.
  intros Hd.
  pose (I := fun (j : nat) (st : list poly * list Z * prng) lg => let '(_, out, p) := st in
     log_ok buf out lg /\ lg = stores 0 (stream_bytes (tape_of tp) pos (j * kb)) /\ p = Prng tp (pos + j * kb)).
  eapply lw_mono.
  - apply (lw_foldL _ (seeds_log tp pos kb d) I (seq 1 (d - 1)) 0%nat).
    + unfold I. cbn [Nat.mul]. split; [apply log_ok_nil|]. split; [reflexivity|]. f_equal. lia.
    + intros j [[x1 out] p] lg a Hj Ea (L & Elg & ->). rewrite seq_length in Hj.
      assert (a = (1 + j)%nat).
      { rewrite Nat.sub_0_r in Ea. apply (nth_error_nth _ _ 0%nat) in Ea. rewrite seq_nth in Ea by lia. lia. }
      subst a. clear Ea. unfold mc_share_log, kbytes.
      replace (8 * Z.of_nat kb / 8) with (Z.of_nat kb) by (rewrite (Z.mul_comm 8), Z.div_mul by lia; reflexivity).
      rewrite Nat2Z.id, prng_read_eq. cbn [tape ppos]. cbv zeta.
      assert (Zl : (Z.of_nat (1 + j) - 1) * Z.of_nat kb = zlen lg).
      { rewrite Elg. unfold zlen. rewrite stores_length, stream_bytes_length. rewrite zmul1 by lia. f_equal. f_equal. lia. }
      rewrite Zl. eapply lw_bind.
      * apply (write_log_ok buf); [exact L|]. exists j. split; [lia|exact Elg].
      * cbn beta. intros o lg1 [E1 L1].
        assert (E2 : lg1 = stores 0 (stream_bytes (tape_of tp) pos ((1 + j) * kb))).
        { rewrite E1. replace ((1 + j) * kb)%nat with (j * kb + kb)%nat by lia. rewrite stream_bytes_app, stores_app, <- Elg.
          f_equal. f_equal. rewrite Elg. unfold zlen. rewrite stores_length. reflexivity. }
        assert (B1 : seeds_log tp pos kb d lg1) by (exists (1 + j)%nat; split; [lia|exact E2]).
        eapply lw_bind; [apply (lw_ret _ lg1 (seeds_log tp pos kb d) (fun _ lg'' => lg'' = lg1)); [reflexivity|exact B1]|].
        cbn beta. intros x2 lg2 ->. apply lw_ret; [|exact B1]. intros a Ea. apply ok_inj in Ea. subst a. split; [exact L1|]. split; [exact E2|]. f_equal. lia.
  - rewrite seq_length. cbn [Nat.add]. intros [[x1 out] p] lg (L & E & _). split; assumption.
  - auto.
Qed.
Lemma rows_log_ok buf : forall x out lg, Forall (fun p => length p = 512%nat) x -> log_ok buf out lg ->
  lw (foldL mc_row_log x (out, zlen lg)) lg (upto buf) (fun st lg' => log_ok buf (fst st) lg' /\ zlen lg' = zlen lg + 3136 * zlen x).
Proof.
  induction x as [|row x IH]; intros out lg F L.
  - cbn [foldL]. apply lw_ret; [|exact (upto_log_ok _ _ _ L)]. intros a Ea. apply ok_inj in Ea. subst a. split; [exact L|]. change (zlen (@nil (list Z))) with 0. lia.
  - inversion F; subst. cbn [foldL]. eapply lw_bind; [apply (mc_row_log_ok buf); assumption|]. cbn beta. intros [o off] lg1 (L1 & E1 & Z1). cbn [fst snd] in *. subst off.
    eapply lw_mono; [apply IH; assumption| |auto]. intros st lg2 [L2 Z2]. split; [exact L2|]. rewrite zlen_cons. lia.
Qed.
Lemma seeds_log_order tp pos kb d lg : seeds_log tp pos kb d lg -> in_order lg /\ (length lg <= (d - 1) * kb)%nat.
Proof.
  intros (i & Hi & ->). split.
  - change (stores 0 (stream_bytes (tape_of tp) pos (i * kb))) with ([] ++ stores 0 (stream_bytes (tape_of tp) pos (i * kb))). apply stores_order; reflexivity.
  - rewrite stores_length, stream_bytes_length. apply Nat.mul_le_mono_r. exact Hi.
Qed.
Lemma mask_compress_log_ok O fuel kb d s s_c tp pos : Forall (kshares d) s -> (1 <= d)%nat ->
  zlen s_c = Z.of_nat kb * (Z.of_nat d - 1) + 3136 * zlen s ->
  match mask_compress_log O fuel (8 * Z.of_nat kb) d s s_c (Prng tp pos) with
  | (lg, Ok (out, _)) => log_ok s_c out lg /\ length lg = length s_c
  | (lg, UB) => False
  | (lg, OutOfFuel) => seeds_log tp pos kb d lg
  end.
Proof.
  intros Hs Hd L. pose proof (zlen_nonneg s) as Zs.
  pose proof (mask_compress_forget O fuel (8 * Z.of_nat kb) d s s_c (Prng tp pos)) as FG.
  pose proof (mask_compress_ok O fuel kb d s s_c tp pos Hs Hd L) as W. apply wp_split in W. destruct W as [W1 _]. rewrite <- FG in W1. clear FG.
  unfold mask_compress_log in *. cbv zeta in *.
  assert (Hrest : Z.of_nat kb * (Z.of_nat d - 1) <= zlen s_c) by lia.
  pose proof (mc_shares_ok O fuel kb d s tp pos s_c Hs Hd Hrest) as WS.
  pose proof (mc_shares_log_ok O fuel kb d s (map (fun row => nth 0 row []) s) s_c tp pos Hd) as LS.
  rewrite <- (snd_foldL (mc_share_log O fuel (8 * Z.of_nat kb) s) (mc_share O fuel (8 * Z.of_nat kb) s) (mc_share_forget O fuel (8 * Z.of_nat kb) s)) in WS.
  unfold pvec, mpoly, poly in *.
  match type of LS with lw ?m _ _ _ => destruct m as [lg1 [[[x out] p]| |]] end.
  2:{ cbn [lbind snd] in W1. exact (W1 eq_refl). }
  2:{ cbn [lbind]. exact LS. }
  cbn [snd wp lw app] in WS, LS. destruct WS as (Ex & Eo & _ & _). destruct LS as [L1 E1].
  assert (Zl : (Z.of_nat d - 1) * (8 * Z.of_nat kb) / 8 = zlen lg1).
  { rewrite E1. unfold zlen. rewrite stores_length, stream_bytes_length. replace ((Z.of_nat d - 1) * (8 * Z.of_nat kb)) with ((Z.of_nat ((d - 1) * kb)) * 8) by (rewrite <- zmul1 by lia; lia).
    rewrite Z.div_mul by lia. reflexivity. }
  cbn [lbind] in *. rewrite Zl in *.
  assert (Fx : Forall (fun p => length p = 512%nat) x).
  { rewrite Ex. apply Forall_forall. intros y Hy. apply in_map_iff in Hy. destruct Hy as (row & <- & Hrow).
    rewrite Forall_forall in Hs. apply (combine_w d row (Hs row Hrow)). }
  assert (Lx : zlen x = zlen s) by (rewrite Ex; unfold zlen; rewrite map_length; reflexivity).
  pose proof (rows_log_ok s_c x out lg1 Fx L1) as LR.
  pose proof (snd_foldL mc_row_log mc_row mc_row_forget x (out, zlen lg1)) as SR.
  assert (OKR : exists st, foldM mc_row x (out, zlen lg1) = Ok st).
  { rewrite Eo. replace (zlen lg1) with (zlen (stream_bytes (tape_of tp) pos ((d - 1) * kb))) by (rewrite E1; unfold zlen; rewrite stores_length; reflexivity).
    destruct (mc_rows_ok x Fx (stream_bytes (tape_of tp) pos ((d - 1) * kb)) (skipn ((d - 1) * kb) s_c)) as (pack & rest' & E & _).
    - rewrite Lx. unfold zlen in *. rewrite skipn_length. rewrite (Z.mul_comm (Z.of_nat kb)), zmul1 in L by lia. lia.
    - eexists. exact E. }
  destruct OKR as [st OKR]. unfold poly in *. rewrite OKR in SR.
  destruct (foldL mc_row_log x (out, zlen lg1)) as [lg2 r2]. cbn [snd] in SR. subst r2. destruct st as [o2 f2]. cbn [lbind lret lw fst] in *.
  destruct LR as [L2 Z2]. rewrite app_nil_r. split; [exact L2|].
  assert (ZL : zlen (lg1 ++ lg2) = zlen s_c).
  { rewrite Z2, Lx, L. replace (zlen lg1) with (Z.of_nat ((d - 1) * kb)) by (rewrite E1; unfold zlen; rewrite stores_length, stream_bytes_length; reflexivity).
    rewrite <- zmul1 by exact Hd. lia. }
  unfold zlen in ZL. lia.
Qed.
Lemma shift_order lg0 lg : in_order lg0 -> in_order lg -> in_order (lg0 ++ shift_log (zlen lg0) lg).
Proof.
  unfold in_order, shift_log. intros A B. rewrite map_app, app_length, map_length, seq_app, map_app, A. f_equal. rewrite map_map. cbn [fst].
  rewrite <- (map_map fst (fun i => zlen lg0 + i)), B, map_map. unfold zlen. cbn [Nat.add]. rewrite seq_plus_map, Nat.add_0_r. reflexivity.
Qed.
Lemma shift_snd off lg : map snd (shift_log off lg) = map snd lg.
Proof. unfold shift_log. rewrite map_map. apply map_ext. reflexivity. Qed.
Lemma full_log buf out lg : log_ok buf out lg -> length lg = length buf -> map snd lg = out.
Proof. intros (_ & _ & ->) E. rewrite E, skipn_all, app_nil_r. reflexivity. Qed.
