(* Noise sampling, vectors, matrix product, key generation and signing of ModelLeak.v compute what the model
   computes. *)
From Coq Require Import ZArith Lia Bool List Arith.
From Coq Require Import ZifyBool ZifyNat.
From Verif Require Import ModelBase ModelU128 ModelField ModelUtils ModelPoly ModelVec ModelSerial ModelScheme ModelLeak.
From Verif Require Import Spec Words LeakProofs.
Import ListNotations.
Open Scope Z_scope.
Ltac Zify.zify_post_hook ::= idtac.
Opaque powers_of_zeta neg_powers_of_zeta INV_N zq_add zq_sub zq_mul Q R Q_BIT_WIDTH.

Definition isbyte (b : Z) : Prop := 0 <= b < 256.
Lemma byteZ_b b : isbyte (byteZ b).
Proof. exact (byteZ_range b). Qed.
Lemma mod64 x : 0 <= x < two64 -> u64 x = x.
Proof. intros H. apply Z.mod_small. exact H. Qed.
Lemma u64_idem x : u64 (u64 x) = u64 x.
Proof. apply Z.mod_mod. discriminate. Qed.
Lemma u64_add a b : u64 (u64 a + b) = u64 (a + b).
Proof. apply Zplus_mod_idemp_l. Qed.
Lemma u64_add_r a b : u64 (a + u64 b) = u64 (a + b).
Proof. apply Zplus_mod_idemp_r. Qed.
Lemma u64_sub a b : u64 (u64 a - b) = u64 (a - b).
Proof. apply Zminus_mod_idemp_l. Qed.
Lemma u64_s64 x : u64 (s64_of_u64 x) = u64 x.
Proof.
  unfold s64_of_u64. destruct (x <? two63); [reflexivity|]. unfold u64. rewrite <- (Z_mod_plus_full x (-1) two64). f_equal.
Qed.
Lemma s64_cong x y : u64 (s64_of_u64 x + y) = u64 (x + y).
Proof. rewrite <- u64_add, u64_s64, u64_add. reflexivity. Qed.
Lemma s64_cong_r a b : u64 (a - s64_of_u64 b) = u64 (a - b).
Proof.
  transitivity (u64 (a - u64 (s64_of_u64 b))); [symmetry; apply Zminus_mod_idemp_r|]. rewrite u64_s64. apply Zminus_mod_idemp_r.
Qed.
Lemma noise_coeff_v O raw f : is (noise_coeff_l (zm O) raw (u64 f)) (noise_coeff raw f).
Proof.
  unfold is, noise_coeff_l. repeat (rewrite fst_bind; cbn [zm m_op m_shr m_neg m_not m_ct_ge m_lit fst bind]). unfold noise_coeff. cbv zeta. f_equal.
  assert (E : add64 raw (u64 f) = u64_of_s64 (s64_of_u64 raw + f)) by (unfold add64, u64_of_s64; rewrite u64_add_r, s64_cong; reflexivity).
  rewrite E. set (c := s64_of_u64 raw + f). set (lt := neg64 (shr64 (u64_of_s64 c) 63)). set (ge := ct_ge64 _ _).
  unfold sub64, add64, u64_of_s64. rewrite u64_sub, s64_cong_r. replace (s64_of_u64 (Z.land Q lt) + c - Z.land Q ge) with (s64_of_u64 (Z.land Q lt) + (c - Z.land Q ge)) by lia.
  rewrite s64_cong. replace (Z.land Q lt + u64 c - Z.land Q ge) with (u64 c + (Z.land Q lt - Z.land Q ge)) by lia. rewrite u64_add. f_equal. lia.
Qed.
Lemma from_le_v O b : Forall isbyte b -> is (from_le_bytes_l (zm O) 8 b) (from_le_bytes 8 b).
Proof.
  intros F. unfold is, from_le_bytes_l, from_le_bytes. rewrite fst_for.
  destruct (foldM_ok (fun _ => True) (fun s i => fst (x <<- ld (zm O) b i ;; s0 <<- m_shl (zm O) x (8 * Z.of_nat i) ;; m_op (zm O) Or s s0))
     (fun r i => Z.lor r (Z.shiftl (nth i b 0) (8 * Z.of_nat i))) (seq 0 (Nat.min 8 (length b))) 0 Logic.I) as [E _]; [|exact E].
  intros s i Hi _. split; [|exact Logic.I]. apply in_seq in Hi.
  repeat (rewrite fst_bind; cbn [ld zm m_shl m_op m_lit fst bind]). cbn [zm m_op fst]. f_equal. f_equal.
  unfold shl64. apply mod64. rewrite Forall_forall in F. assert (H : isbyte (nth i b 0)) by (apply F, nth_In; lia). unfold isbyte in H.
  rewrite Z.shiftl_mul_pow2 by lia. change two64 with (256 * 2 ^ 56). pose proof (Z.pow_le_mono_r 2 (8 * Z.of_nat i) 56). assert (0 < 2 ^ (8 * Z.of_nat i)) by (apply Z.pow_pos_nonneg; lia).
  split; [apply Z.mul_nonneg_nonneg; lia|]. apply Z.le_lt_trans with (nth i b 0 * 2 ^ 56); [apply Z.mul_le_mono_nonneg_l; lia|]. apply Z.mul_lt_mono_pos_r; lia.
Qed.
Lemma sampleU_word u b : sub64 (Z.land (from_le_bytes 8 b) (shl64 1 (u - 1) - 1)) (Z.land (from_le_bytes 8 b) (shl64 1 (u - 1))) = u64 (sampleU_coeff u b).
Proof.
  unfold sampleU_coeff, sub64. cbv zeta. set (w := from_le_bytes 8 b). symmetry. rewrite s64_cong_r, <- Z.add_opp_r, s64_cong, Z.add_opp_r. reflexivity.
Qed.
Lemma fill_v (body : nat -> list Z -> lk (list Z)) (F : nat -> Z -> Z) r : len512 r ->
  (forall i s, (i < 512)%nat -> len512 s -> is (body i s) (upd i (F i (nth i s 0)) s)) ->
  is (for_ (seq 0 PN) body r) (map (fun i => F i (nth i r 0)) (seq 0 PN)).
Proof.
  intros L H. unfold is. rewrite fst_for.
  destruct (foldM_ok len512 (fun s i => fst (body i s)) (fun s i => upd i (F i (nth i s 0)) s) (seq 0 PN) r L) as [E _].
  - intros s i Hi Hs. apply in_seq in Hi. change PN with 512%nat in Hi. split; [apply H; [lia|exact Hs]|unfold len512; rewrite upd_len; exact Hs].
  - rewrite E. f_equal. apply fill0. exact L.
Qed.
Lemma firstn_F {A} (P : A -> Prop) n : forall l, Forall P l -> Forall P (firstn n l).
Proof. induction n as [|n IH]; intros [|x l] F; cbn [firstn]; try constructor; inversion F; subst; auto. Qed.
Lemma skipn_F {A} (P : A -> Prop) n : forall l, Forall P l -> Forall P (skipn n l).
Proof. induction n as [|n IH]; intros [|x l] F; cbn [skipn]; auto. inversion F; subst; auto. Qed.
Lemma sampleU_v O u hdr sigma : is (sampleU_l (zm O) u hdr sigma) (map u64 (sampleU O u hdr sigma)).
Proof.
  unfold sampleU_l, sampleU. cbv zeta. unfold is. rewrite fst_bind. cbn [zm m_squeeze fst bind]. unfold xof_squeeze, xof_absorb, xof_new. cbn [xof_in xof_out app].
  set (bytes := map (fun i : nat => byteZ (shake256 O (hdr ++ sigma) i)) (seq 0 (Z.to_nat ((u + 7) / 8) * PN))).
  assert (Fb : Forall isbyte bytes) by (apply Forall_map, Forall_forall; intros; apply byteZ_b). clearbody bytes.
  rewrite map_map.
  rewrite (fill_v _ (fun i _ => u64 (sampleU_coeff u (firstn (Z.to_nat ((u + 7) / 8)) (skipn (i * Z.to_nat ((u + 7) / 8)) bytes)))) (repeat 0 PN)); [reflexivity|apply repeat_length|].
  intros i s _ _. set (b := firstn _ _). assert (F : Forall isbyte b) by (apply firstn_F, skipn_F, Fb). unfold is. rewrite fst_bind, (from_le_v O b F). cbn [bind]. rewrite <- sampleU_word. reflexivity.
Qed.
Lemma sampleU_len O u hdr sigma : len512 (sampleU O u hdr sigma).
Proof. unfold sampleU, xof_squeeze. cbv zeta. unfold len512. rewrite map_length, seq_length. reflexivity. Qed.
Section V.
  Variable O : oracles.
  Notation M := (zm O).
  Definition pok (d : nat) (s : list (list Z) * prng) : Prop := mok d (fst s).
  Lemma noise_share_v u kappa idx i_rep sidx d s : pok d s -> (sidx < d)%nat ->
    is (noise_share_l M u kappa idx i_rep sidx s) (noise_share O u kappa idx i_rep s sidx) /\ pok d (noise_share O u kappa idx i_rep s sidx).
  Proof.
    destruct s as [mp p]. unfold pok. cbn [fst]. intros H Hi. unfold noise_share_l, noise_share. unfold poly, mpoly in *.
    destruct (prng_read p (kbytes kappa)) as [sigma p1] eqn:Er. unfold is. rewrite fst_bind. cbn [zm m_read fst bind]. rewrite Er. cbn [fst bind].
    rewrite fst_bind. cbn [m_lit zm]. rewrite map_id. set (hdr := [117; _; _; _; _; _; _; _]). rewrite (sampleU_v O u hdr sigma). cbn [bind].
    assert (L : len512 (nth sidx mp [])) by (apply (mok_nth d); assumption). pose proof (sampleU_len O u hdr sigma) as Lu. set (f := sampleU O u hdr sigma) in *.
    rewrite fst_bind. rewrite (fill_v _ (fun i x => noise_coeff x (nth i f 0)) (nth sidx mp []) L).
    - cbn [bind lret fst]. rewrite <- (map_seq_nth2 noise_coeff 0 0 (nth sidx mp []) f) by (rewrite L, Lu; reflexivity). rewrite L.
      split; [reflexivity|]. apply mok_upd; [exact H|]. unfold len512. rewrite map_length, seq_length. reflexivity.
    - intros i s Hi' Ls. unfold is. repeat (rewrite fst_bind; cbn [ld fst bind]). change (m_lit M 0) with 0.
      replace (nth i (map u64 f) 0) with (u64 (nth i f 0)) by (rewrite <- (map_nth u64 f 0 i); reflexivity).
      rewrite (noise_coeff_v O). reflexivity.
  Qed.
  Definition ook {A} (d : nat) (s : list (list Z) * A * mrng) : Prop := mok d (fst (fst s)).
  Lemma mp_noise_v fuel u rep kappa d idx a p g : mok d a ->
    fst (mp_add_rep_noise_l M fuel u rep kappa d idx a p g) = mp_add_rep_noise O fuel u rep kappa d idx a p g /\
    (forall s', mp_add_rep_noise O fuel u rep kappa d idx a p g = Ok s' -> ook d s').
  Proof.
    intros H. unfold mp_add_rep_noise_l, mp_add_rep_noise. rewrite fst_for. apply (foldM_inv (ook d)); [exact H|].
    intros [[b q] g1] i _ Hb. unfold ook in Hb. cbn [fst] in Hb. rewrite fst_bind, fst_for.
    assert (K : forall bq : list (list Z) * prng, pok d bq ->
       fst (let '(a, p) := bq in '(a, g) <<- mp_refresh_l M fuel d a g1 ;; lret (a, p, g)) = (let '(a, p) := bq in '(a, m) <- mp_refresh O fuel d a g1 ;; Ok (a, p, m)) /\
       (forall s', (let '(a, p) := bq in '(a, m) <- mp_refresh O fuel d a g1 ;; Ok (a, p, m)) = Ok s' -> ook d s')).
    { intros [b1 q1] P. unfold pok in P. cbn [fst] in P.
      rewrite fst_bind. eapply (bind_inv (gok d)); [apply refresh_v; exact P|]. intros [c g2] Hc. split; [reflexivity|]. intros s' E'. injection E' as <-. exact Hc. }
    destruct (foldM_ok (pok d) (fun s j => fst (noise_share_l M u kappa idx i j s)) (noise_share O u kappa idx i) (seq 0 d) (b, q) Hb) as [E P].
    { intros s j Hj Hs. apply in_seq in Hj. apply noise_share_v; [exact Hs|lia]. }
    rewrite E. cbn [bind]. exact (K _ P).
  Qed.
  (* ---- vectors ---- *)
  Lemma pv1_v n d f g v : (forall a, mok d a -> is (f a) (g a) /\ mok d (g a)) -> vok n d v -> is (rows1 [] n f v) (map g v) /\ vok n d (map g v).
  Proof.
    intros H [L F]. split.
    - apply rows1_v; [exact L|]. intros y Hy. rewrite Forall_forall in F. apply H. apply F. exact Hy.
    - split; [rewrite map_length; exact L|]. rewrite Forall_map. eapply Forall_impl; [|exact F]. intros a Ha. apply H. exact Ha.
  Qed.
  Lemma pv_ntt_v n d v : vok n d v -> is (pv_ntt_l M n d v) (pv_ntt v) /\ vok n d (pv_ntt v).
  Proof. apply pv1_v. intros a Ha. split; [apply mp_ntt_v; exact Ha|]. apply mok_map; [|exact Ha]. intros x Hx. unfold len512. rewrite ntt_len. exact Hx. Qed.
  Lemma pv_intt_v n d v : vok n d v -> is (pv_intt_l M n d v) (pv_intt v) /\ vok n d (pv_intt v).
  Proof. apply pv1_v. intros a Ha. split; [apply mp_intt_v; exact Ha|]. apply mok_map; [|exact Ha]. intros x Hx. unfold len512. rewrite intt_len. exact Hx. Qed.
  Lemma pv_rshr_v n d off v : vok n d v -> is (pv_rounding_shr_l M n d off v) (pv_rounding_shr off v) /\ vok n d (pv_rounding_shr off v).
  Proof. apply pv1_v. intros a Ha. split; [apply mp_rshr_v; exact Ha|]. apply mok_map; [|exact Ha]. intros x Hx. unfold len512, poly_rounding_shr. rewrite map_length. exact Hx. Qed.
  Lemma pv_mulp_v n d c v : len512 c -> vok n d v -> is (pv_mul_poly_l M n d v c) (pv_mul_poly v c) /\ vok n d (pv_mul_poly v c).
  Proof. intros Lc. apply pv1_v. intros a Ha. split; [apply mp_mul_poly_v; assumption|]. apply mok_map; [|exact Ha]. intros x Hx. apply map2_512; assumption. Qed.
  Lemma pv_decode_v n d v : vok n d v -> is (pv_decode_l M n d v) (pv_decode v) /\ vok n 1 (pv_decode v).
  Proof.
    intros [L F]. rewrite Forall_forall in F. split.
    - apply (rows1_v [] n _ (fun row => [mp_decode row])); [exact L|]. intros y Hy. unfold is. rewrite fst_bind. destruct (mp_decode_v O d y (F y Hy)) as [E _]. rewrite E. reflexivity.
    - split; [unfold pv_decode; rewrite map_length; exact L|]. apply Forall_forall. intros x Hx. unfold pv_decode in Hx. apply in_map_iff in Hx. destruct Hx as [y [<- Hy]].
      split; [reflexivity|]. constructor; [|constructor]. apply (mp_decode_v O d). apply F. exact Hy.
  Qed.
  Lemma vok_map2 n d f v w : (forall a b, mok d a -> mok d b -> mok d (f a b)) -> vok n d v -> vok n d w -> vok n d (map2 f v w).
  Proof.
    intros H [L F] [L' F']. split; [rewrite map2_len; lia|]. clear L L'. revert w F'. induction F as [|x v Hx Fv IH]; intros [|y w] F'; cbn [map2]; [constructor..|].
    inversion F'; subst. constructor; [apply H; assumption|apply IH; assumption].
  Qed.
  Lemma pv_add_v n d v w : vok n d v -> vok n d w -> is (pv_add_l M n d v w) (pv_add v w) /\ vok n d (pv_add v w).
  Proof.
    intros Hv Hw. split.
    - destruct Hv as [L F], Hw as [L' F']. rewrite Forall_forall in F, F'. apply rows2_v; [exact L|exact L'|]. intros a b Ha Hb. apply mp_add_v; [apply F; exact Ha|apply F'; exact Hb].
    - apply vok_map2; [|exact Hv|exact Hw]. intros a b Ha Hb. apply mok_map2; [intros; apply map2_512; assumption|exact Ha|exact Hb].
  Qed.
  Definition vgok (d : nat) (s : list (list (list Z)) * mrng) : Prop := Forall (mok d) (fst s).
  Definition vgok_n (n d : nat) (s : list (list (list Z)) * mrng) : Prop := vok n d (fst s).
  Lemma grow {S} d (pr : S -> list (list (list Z))) (F G : S -> nat -> res S) : forall n k s, vok k d (pr s) ->
    (forall s i, (k <= i < k + n)%nat -> F s i = G s i /\ (forall s', G s i = Ok s' -> exists z, pr s' = pr s ++ [z] /\ mok d z)) ->
    foldM F (seq k n) s = foldM G (seq k n) s /\ (forall s', foldM G (seq k n) s = Ok s' -> vok (k + n) d (pr s')).
  Proof.
    induction n as [|n IH]; intros k s Hs H.
    - cbn [seq foldM]. split; [reflexivity|]. intros s' E. injection E as <-. rewrite Nat.add_0_r. exact Hs.
    - cbn [seq foldM]. replace (k + Datatypes.S n)%nat with (Datatypes.S k + n)%nat by lia. eapply (bind_inv (fun s' => vok (Datatypes.S k) d (pr s'))).
      + destruct (H s k ltac:(lia)) as [E P]. split; [exact E|]. intros s' E'. destruct (P s' E') as [z [-> Hz]]. destruct Hs as [L Fa].
        split; [rewrite app_length, L; cbn [length]; lia|]. apply Forall_app. split; [exact Fa|]. constructor; [exact Hz|constructor].
      + intros s1 H1. apply IH; [exact H1|]. intros s2 i Hi. apply H. lia.
  Qed.
  Lemma pv_zenc_v fuel n d g :
    fst (pv_zero_encoding_l M fuel n d g) = pv_zero_encoding O fuel n d g /\ (forall s', pv_zero_encoding O fuel n d g = Ok s' -> vok n d (fst s')).
  Proof.
    unfold pv_zero_encoding_l, pv_zero_encoding. rewrite fst_for. apply (grow d fst _ _ n 0%nat); [split; [reflexivity|constructor]|].
    intros [acc g1] i _. rewrite fst_bind. eapply (bind_inv (gok d)); [apply zenc_v|]. intros [z g2] Hz. split; [reflexivity|].
    intros s' E. injection E as <-. exists z. split; [reflexivity|exact Hz].
  Qed.
  Lemma foldM_seq_nth {A S} (f : S -> A -> res S) x : forall l s, foldM f l s = foldM (fun s i => f s (nth i l x)) (seq 0 (length l)) s.
  Proof.
    intros l. assert (E : l = map (fun i => nth i l x) (seq 0 (length l))) by (rewrite (map_seq_nth (fun z => z) x l), map_id; reflexivity).
    intros s. transitivity (foldM f (map (fun i => nth i l x) (seq 0 (length l))) s); [rewrite <- E; reflexivity|]. clear E.
    generalize (seq 0 (length l)). intros q. revert s. induction q as [|i q IH]; intros s; [reflexivity|]. cbn [foldM map]. destruct (f s (nth i l x)); cbn [bind]; [apply IH|reflexivity|reflexivity].
  Qed.
  Lemma vok_nth n d i v : vok n d v -> (i < n)%nat -> mok d (nth i v []).
  Proof. intros [L F] Hi. rewrite Forall_forall in F. apply F, nth_In. lia. Qed.
  Lemma pv_refresh_v fuel n d v g : vok n d v ->
    fst (pv_refresh_l M fuel n d v g) = pv_refresh O fuel d v g /\ (forall s', pv_refresh O fuel d v g = Ok s' -> vok n d (fst s')).
  Proof.
    intros Hv. unfold pv_refresh_l, pv_refresh. rewrite fst_for. rewrite (@foldM_seq_nth (list (list Z)) _ _ [] v). rewrite (proj1 Hv).
    apply (grow d fst _ _ n 0%nat); [split; [reflexivity|constructor]|].
    intros [acc g1] i Hi. rewrite fst_bind. eapply (bind_inv (gok d)); [apply refresh_v, (vok_nth n); [exact Hv|lia]|]. intros [z g2] Hz. split; [reflexivity|].
    intros s' E. injection E as <-. exists z. split; [reflexivity|exact Hz].
  Qed.
  Definition fst3 {A B C} (x : A * B * C) : A := fst (fst x).
  Lemma pv_noise_v fuel u rep kappa n d v p g : vok n d v ->
    fst (pv_add_rep_noise_l M fuel u rep kappa n d v p g) = pv_add_rep_noise O fuel u rep kappa d v p g /\
    (forall s', pv_add_rep_noise O fuel u rep kappa d v p g = Ok s' -> vok n d (fst3 s')).
  Proof.
    intros Hv. unfold pv_add_rep_noise_l, pv_add_rep_noise. rewrite fst_for. unfold mpoly, poly in *. rewrite (proj1 Hv).
    apply (grow d fst3 _ _ n 0%nat); [split; [reflexivity|constructor]|].
    intros [[acc p1] g1] i Hi. rewrite fst_bind. eapply (bind_inv (ook d)); [apply mp_noise_v, (vok_nth n); [exact Hv|lia]|]. intros [[z p2] g2] Hz. split; [reflexivity|].
    intros s' E. injection E as <-. exists z. split; [reflexivity|exact Hz].
  Qed.
  (* ---- matrix product ---- *)
  (* acc[i] = F(acc[i], i) for i = k, k+1, .. *)
  Lemma fill_mp (F : list Z -> nat -> list Z) : forall n k pre r, length r = n -> length pre = k ->
    fold_left (fun acc i => upd i (F (nth i acc []) i) acc) (seq k n) (pre ++ r) = pre ++ map (fun i => F (nth (i - k) r []) i) (seq k n).
  Proof.
    induction n as [|n IH]; intros k pre r Lr Lp; [destruct r; [reflexivity|discriminate Lr]|].
    destruct r as [|y r]; [discriminate Lr|]. cbn [length] in Lr. cbn [seq fold_left map].
    rewrite Nat.sub_diag. cbn [nth]. rewrite app_nth2 by lia. replace (k - length pre)%nat with 0%nat by lia. cbn [nth].
    replace (upd k (F y k) (pre ++ y :: r)) with (pre ++ F y k :: r) by (subst k; symmetry; apply upd_mid). change (F y k :: r) with ([F y k] ++ r). rewrite app_assoc.
    rewrite IH; [|lia|rewrite app_length; cbn [length]; lia]. rewrite <- app_assoc. cbn [app]. f_equal. f_equal.
    apply map_ext_in. intros i Hi. apply in_seq in Hi. f_equal. replace (i - k)%nat with (S (i - S k)) by lia. reflexivity.
  Qed.
  Definition aok (rows cols : nat) (A : list (list Z)) : Prop := length A = (rows * cols)%nat /\ Forall len512 A.
  Lemma mat_row_v rows cols d A v r : aok rows cols A -> vok cols d v -> (r < rows)%nat ->
    is (mat_row_l M cols d A v r)
       (fold_left (fun acc c => map2 (fun a s => poly_add a (poly_mul (mat_get cols A r c) s)) acc (nth c v [])) (seq 0 cols) (repeat poly_zero d)) /\
    mok d (fold_left (fun acc c => map2 (fun a s => poly_add a (poly_mul (mat_get cols A r c) s)) acc (nth c v [])) (seq 0 cols) (repeat poly_zero d)).
  Proof.
    intros [LA FA] Hv Hr. unfold is, mat_row_l. rewrite fst_for.
    apply (foldM_ok (mok d) _ (fun acc c => map2 (fun a s => poly_add a (poly_mul (mat_get cols A r c) s)) acc (nth c v []))).
    { split; [apply repeat_length|]. apply Forall_forall. intros x Hx. apply repeat_spec in Hx. subst x. apply zero512. }
    intros acc c Hc Ha. apply in_seq in Hc. assert (Hvc : mok d (nth c v [])) by (apply (vok_nth cols); [exact Hv|lia]).
    assert (LAc : len512 (mat_get cols A r c)). { rewrite Forall_forall in FA. apply FA. apply nth_In. unfold poly. rewrite LA. assert ((r + 1) * cols <= rows * cols)%nat by (apply Nat.mul_le_mono_r; lia). lia. }
    split.
    - rewrite fst_for.
      destruct (foldM_ok (mok d) (fun s i => fst (m <<- poly_mul_l M (nth (r * cols + c) A []) (nth i (nth c v []) []) ;; s0 <<- poly_add_l M (nth i s []) m ;; lret (upd i s0 s)))
        (fun s i => upd i (poly_add (nth i s []) (poly_mul (mat_get cols A r c) (nth i (nth c v []) []))) s) (seq 0 d) acc Ha) as [E _].
      + intros s i Hi Hs. apply in_seq in Hi. assert (L1 : len512 (nth i (nth c v []) [])) by (apply (mok_nth d); [exact Hvc|lia]). assert (L2 : len512 (nth i s [])) by (apply (mok_nth d); [exact Hs|lia]).
        assert (L3 : len512 (poly_mul (mat_get cols A r c) (nth i (nth c v []) []))) by (apply map2_512; assumption).
        split; [|apply mok_upd; [exact Hs|apply map2_512; assumption]].
        rewrite fst_bind. pose proof (vp2 O (fun O => poly_mul_l (zm O)) poly_mul _ _ poly_mul_c LAc L1) as E1. unfold is, mat_get in E1. unfold poly in E1. cbv beta in E1. rewrite E1. cbn [bind].
        rewrite fst_bind. pose proof (vp2 O (fun O => poly_add_l (zm O)) poly_add _ _ poly_add_c L2 L3) as E2. unfold is, mat_get in E2. unfold poly in E2. cbv beta in E2. rewrite E2. reflexivity.
      + rewrite E. f_equal. pose proof (fill_mp (fun x i => poly_add x (poly_mul (mat_get cols A r c) (nth i (nth c v []) []))) d 0 [] acc (proj1 Ha) eq_refl) as E2. cbn [app] in E2. etransitivity; [exact E2|].
        pose proof (map_seq_nth2 (fun a s => poly_add a (poly_mul (mat_get cols A r c) s)) [] [] acc (nth c v [])) as E3. unfold poly in E3; rewrite (proj1 Ha) in E3. etransitivity; [|apply E3; symmetry; exact (proj1 Hvc)].
        apply map_ext. intros i. rewrite Nat.sub_0_r. reflexivity.
    - apply mok_map2; [|exact Ha|exact Hvc]. intros x y Hx Hy. apply map2_512; [exact Hx|]. apply map2_512; assumption.
  Qed.
  Lemma mat_mul_v rows cols d A v : aok rows cols A -> vok cols d v -> is (mat_mul_l M rows cols d A v) (mat_mul rows cols d A v) /\ vok rows d (mat_mul rows cols d A v).
  Proof.
    intros HA Hv. unfold is, mat_mul_l. rewrite fst_for. unfold mat_mul. split.
    - destruct (foldM_ok (fun _ => True) (fun s i => fst (x <<- mat_row_l M cols d A v i ;; lret (s ++ [x])))
        (fun s r => s ++ [fold_left (fun acc c => map2 (fun a s => poly_add a (poly_mul (mat_get cols A r c) s)) acc (nth c v [])) (seq 0 cols) (repeat poly_zero d)]) (seq 0 rows) [] Logic.I) as [E _].
      + intros s i Hi _. apply in_seq in Hi. split; [|exact Logic.I]. rewrite fst_bind. destruct (mat_row_v rows cols d A v i HA Hv ltac:(lia)) as [E _]. rewrite E. reflexivity.
      + rewrite E. f_equal. exact (fold_snoc _ (seq 0 rows) []).
    - split; [rewrite map_length, seq_length; reflexivity|]. apply Forall_map, Forall_forall. intros r Hr. apply in_seq in Hr. apply (mat_row_v rows); [exact HA|exact Hv|lia].
  Qed.
  (* ---- key generation and signing ---- *)
  Lemma is_bind {A B} (m : lk A) v (k : A -> lk B) : is m v -> fst (lbind m k) = fst (k v).
  Proof. intros H. rewrite fst_bind, H. reflexivity. Qed.
  Lemma bind_same {A B} (J : A -> Prop) (m m' : res A) (k k' : A -> res B) :
    m = m' /\ (forall a, m' = Ok a -> J a) -> (forall a, J a -> k a = k' a) -> bind m k = bind m' k'.
  Proof. intros [-> P] H. destruct m' as [a| |]; cbn [bind]; [|reflexivity..]. apply H, P. reflexivity. Qed.
  Lemma generate_v fuel Pm A p g : aok (p_k Pm) (p_l Pm) A ->
    fst (generate_l M fuel Pm A p g) =
    ('(s, m) <- pv_zero_encoding O fuel (p_l Pm) (p_d Pm) g ;;
     '(s, prng, m) <- pv_add_rep_noise O fuel (p_ut Pm) (p_rep Pm) (p_kappa Pm) (p_d Pm) s p m ;;
     let s := pv_ntt s in
     let t := pv_intt (mat_mul (p_k Pm) (p_l Pm) (p_d Pm) A s) in
     '(t, prng, m) <- pv_add_rep_noise O fuel (p_ut Pm) (p_rep Pm) (p_kappa Pm) (p_d Pm) t prng m ;;
     let t' := pv_rounding_shr (p_nut Pm) (pv_decode t) in
     Ok (t', s)).
  Proof.
    intros HA. unfold generate_l. rewrite fst_bind. eapply bind_same; [apply pv_zenc_v|]. intros [s g1] Hs. cbn [fst] in Hs.
    rewrite fst_bind. eapply bind_same; [apply pv_noise_v; exact Hs|]. intros [[s1 p1] g2] Hs1. unfold fst3 in Hs1. cbn [fst] in Hs1. cbv zeta.
    destruct (pv_ntt_v (p_l Pm) (p_d Pm) s1 Hs1) as [E1 H1]. rewrite (is_bind _ _ _ E1).
    destruct (mat_mul_v (p_k Pm) (p_l Pm) (p_d Pm) A _ HA H1) as [E2 H2]. rewrite (is_bind _ _ _ E2).
    destruct (pv_intt_v _ _ _ H2) as [E3 H3]. rewrite (is_bind _ _ _ E3).
    rewrite fst_bind. eapply bind_same; [apply pv_noise_v; exact H3|]. intros [[t1 p2] g3] Ht. unfold fst3 in Ht. cbn [fst] in Ht.
    destruct (pv_decode_v _ _ _ Ht) as [E4 H4]. rewrite (is_bind _ _ _ E4).
    destruct (pv_rshr_v _ _ (p_nut Pm) _ H4) as [E5 H5]. rewrite (is_bind _ _ _ E5). reflexivity.
  Qed.
  Lemma commit_v fuel Pm A p g : aok (p_k Pm) (p_l Pm) A ->
    fst (commit_l M fuel Pm A p g) =
    ('(r, m) <- pv_zero_encoding O fuel (p_l Pm) (p_d Pm) g ;;
     '(r, prng, m) <- pv_add_rep_noise O fuel (p_uw Pm) (p_rep Pm) (p_kappa Pm) (p_d Pm) r p m ;;
     let r := pv_ntt r in
     let w := pv_intt (mat_mul (p_k Pm) (p_l Pm) (p_d Pm) A r) in
     '(w, prng, m) <- pv_add_rep_noise O fuel (p_uw Pm) (p_rep Pm) (p_kappa Pm) (p_d Pm) w prng m ;;
     let w' := pv_rounding_shr (p_nuw Pm) (pv_decode w) in
     Ok (w', r, prng, m)).
  Proof.
    intros HA. unfold commit_l. rewrite fst_bind. eapply bind_same; [apply pv_zenc_v|]. intros [s g1] Hs. cbn [fst] in Hs.
    rewrite fst_bind. eapply bind_same; [apply pv_noise_v; exact Hs|]. intros [[s1 p1] g2] Hs1. unfold fst3 in Hs1. cbn [fst] in Hs1. cbv zeta.
    destruct (pv_ntt_v (p_l Pm) (p_d Pm) s1 Hs1) as [E1 H1]. rewrite (is_bind _ _ _ E1).
    destruct (mat_mul_v (p_k Pm) (p_l Pm) (p_d Pm) A _ HA H1) as [E2 H2]. rewrite (is_bind _ _ _ E2).
    destruct (pv_intt_v _ _ _ H2) as [E3 H3]. rewrite (is_bind _ _ _ E3).
    rewrite fst_bind. eapply bind_same; [apply pv_noise_v; exact H3|]. intros [[t1 p2] g3] Ht. unfold fst3 in Ht. cbn [fst] in Ht.
    destruct (pv_decode_v _ _ _ Ht) as [E4 H4]. rewrite (is_bind _ _ _ E4).
    destruct (pv_rshr_v _ _ (p_nuw Pm) _ H4) as [E5 H5]. rewrite (is_bind _ _ _ E5). reflexivity.
  Qed.
  Lemma respond_v fuel Pm c s r g : len512 c -> vok (p_l Pm) (p_d Pm) s -> vok (p_l Pm) (p_d Pm) r ->
    fst (respond_l M fuel Pm c s r g) =
    ('(s, m) <- pv_refresh O fuel (p_d Pm) s g ;;
     '(r, m) <- pv_refresh O fuel (p_d Pm) r m ;;
     let z := pv_add (pv_mul_poly s c) r in
     '(z, m) <- pv_refresh O fuel (p_d Pm) z m ;;
     Ok (pv_decode z, s, m)).
  Proof.
    intros Hc Hs Hr. unfold respond_l. rewrite fst_bind. eapply bind_same; [apply pv_refresh_v; exact Hs|]. intros [s1 g1] Hs1. cbn [fst] in Hs1.
    rewrite fst_bind. eapply bind_same; [apply pv_refresh_v; exact Hr|]. intros [r1 g2] Hr1. cbn [fst] in Hr1.
    destruct (pv_mulp_v _ _ c _ Hc Hs1) as [E1 H1]. rewrite (is_bind _ _ _ E1). destruct (pv_add_v _ _ _ _ H1 Hr1) as [E2 H2]. rewrite (is_bind _ _ _ E2). cbv zeta.
    rewrite fst_bind. eapply bind_same; [apply pv_refresh_v; exact H2|]. intros [z1 g3] Hz. cbn [fst] in Hz.
    destruct (pv_decode_v _ _ _ Hz) as [E3 H3]. rewrite (is_bind _ _ _ E3). reflexivity.
  Qed.
End V.

(* ---- packing of a row of the secret key ---- *)
From Verif Require Import BytesProofs FieldProofs.
Lemma skipn_plus {A} a : forall b (l : list A), skipn a (skipn b l) = skipn (b + a) l.
Proof. induction b as [|b IH]; intros l; [reflexivity|]. destruct l as [|x l]; [rewrite !skipn_nil; reflexivity|]. cbn [skipn Nat.add]. apply IH. Qed.
Lemma fold_write (h : nat -> Z) : forall n k (pre mid post : list Z), length mid = n ->
  fold_left (fun out i => upd (length pre + i) (h i) out) (seq k n) (pre ++ firstn k (map h (seq 0 k)) ++ mid ++ post) = pre ++ map h (seq 0 (k + n)) ++ post.
Proof.
  induction n as [|n IH]; intros k pre mid post L.
  - destruct mid; [|discriminate L]. cbn [seq fold_left app]. rewrite Nat.add_0_r, firstn_all2 by (rewrite map_length, seq_length; lia). reflexivity.
  - destruct mid as [|y mid]; [discriminate L|]. cbn [length] in L. cbn [seq fold_left]. rewrite firstn_all2 by (rewrite map_length, seq_length; lia).
    replace (upd (length pre + k) (h k) (pre ++ map h (seq 0 k) ++ (y :: mid) ++ post)) with (pre ++ map h (seq 0 (S k)) ++ mid ++ post).
    + replace (k + S n)%nat with (S k + n)%nat by lia. rewrite <- (IH (S k) pre mid post) by lia. rewrite (firstn_all2 (map h (seq 0 (S k)))) by (rewrite map_length, seq_length; lia). reflexivity.
    + rewrite seq_S, map_app. cbn [Nat.add map]. rewrite !app_assoc. replace (length pre + k)%nat with (length (pre ++ map h (seq 0 k))) by (rewrite app_length, map_length, seq_length; reflexivity).
      rewrite <- (app_assoc (pre ++ map h (seq 0 k)) (y :: mid) post). cbn [app]. rewrite upd_mid. rewrite <- !app_assoc. reflexivity.
Qed.
Lemma write_eq (h : nat -> Z) out off n : (off + n <= length out)%nat ->
  fold_left (fun out i => upd (off + i) (h i) out) (seq 0 n) out = firstn off out ++ map h (seq 0 n) ++ skipn (off + n) out.
Proof.
  intros L. pose proof (fold_write h n 0 (firstn off out) (firstn n (skipn off out)) (skipn (off + n) out)) as E. cbn [seq map firstn app Nat.add] in E.
  assert (Lf : length (firstn off out) = off) by (rewrite firstn_length; lia). rewrite Lf in E. rewrite <- E; [|rewrite firstn_length, skipn_length; lia]. f_equal.
  rewrite <- skipn_plus. rewrite !firstn_skipn. reflexivity.
Qed.
Lemma put_v O v (off n : Z) out : 0 <= off -> 0 <= n <= 8 -> off + n <= zlen out ->
  fst (to_le_bytes_l (zm O) v (Z.to_nat off) (Z.to_nat n) out) = put_le out off n v /\ (forall s', put_le out off n v = Ok s' -> zlen s' = zlen out).
Proof.
  intros H1 H2 H3. unfold zlen in H3. assert (Hmin : Nat.min 8 (Z.to_nat n) = Z.to_nat n) by lia.
  assert (E : put_le out off n v = Ok (firstn (Z.to_nat off) out ++ map (fun i => shr64 v (8 * Z.of_nat i) mod 256) (seq 0 (Z.to_nat n)) ++ skipn (Z.to_nat off + Z.to_nat n) out)).
  { unfold put_le, subspan, write_at, to_le_bytes, zlen. replace ((0 <=? off) && (0 <=? n) && (off + n <=? Z.of_nat (length out))) with true by lia. cbn [bind].
    set (sp := firstn (Z.to_nat n) (skipn (Z.to_nat off) out)). assert (Ls : length sp = Z.to_nat n) by (unfold sp; rewrite firstn_length, skipn_length; lia).
    rewrite Ls, Hmin. rewrite skipn_all2 by lia. rewrite app_nil_r. rewrite !map_length, !seq_length. rewrite Z2Nat.id by lia.
    replace ((0 <=? off) && (off + n <=? Z.of_nat (length out))) with true by lia. reflexivity. }
  rewrite E. split.
  - unfold to_le_bytes_l. rewrite fst_for, Hmin.
    destruct (foldM_ok (fun _ => True) (fun s i => fst (b <<- m_shr (zm O) v (8 * Z.of_nat i) ;; b <<- m_op (zm O) And b (m_lit (zm O) 255) ;; st s (Z.to_nat off + i) b))
      (fun out i => upd (Z.to_nat off + i) (shr64 v (8 * Z.of_nat i) mod 256) out) (seq 0 (Z.to_nat n)) out Logic.I) as [E2 _].
    + intros s i _ _. split; [|exact Logic.I]. cbn [zm m_shr m_op m_lit lbind fst st]. f_equal. f_equal. change 255 with (Z.ones 8). rewrite Z.land_ones by lia. reflexivity.
    + rewrite E2. f_equal. apply (write_eq (fun i => shr64 v (8 * Z.of_nat i) mod 256)). lia.
  - intros s' Es. injection Es as <-. unfold zlen. rewrite !app_length, firstn_length, map_length, seq_length, skipn_length. lia.
Qed.
Lemma align_small b : 0 <= b < 8 -> let x := b + 49 in align8 x = 8 * (x / 8) /\ 0 <= align8 x / 8 <= 7 /\ 0 <= align8 x < 64 /\ 0 <= x - align8 x < 8 /\ 8 * (align8 x / 8) = align8 x.
Proof.
  intros H. assert (D : b = 0 \/ b = 1 \/ b = 2 \/ b = 3 \/ b = 4 \/ b = 5 \/ b = 6 \/ b = 7) by lia.
  destruct D as [->|[->|[->|[->|[->|[->|[->| ->]]]]]]]; vm_compute; repeat split; discriminate.
Qed.
Definition mcok (off0 len : Z) (i : nat) (s : list Z * Z * Z * Z) : Prop :=
  let '(out, off, _, b) := s in 8 * off + b = 8 * off0 + 49 * Z.of_nat i /\ 0 <= b < 8 /\ zlen out = len.
Lemma mc_put_v O c off0 i s len : 0 <= off0 -> (i < 512)%nat -> off0 + 3136 <= len -> mcok off0 len i s ->
  fst (mc_put_l (zm O) c i s) = mc_put s (nth i c 0) /\ (forall s', mc_put s (nth i c 0) = Ok s' -> mcok off0 len (S i) s').
Proof.
  destruct s as [[[out off] buf] b]. intros H0 Hi Hl [H1 [H2 H3]]. unfold mc_put_l, mc_put. rewrite QBW_val.
  destruct (align_small b H2) as [A1 [A2 [A3 [A4 A5]]]]. set (wb := align8 (b + 49)) in *. 
  rewrite fst_bind. cbn [ld fst bind]. change (m_lit (zm O) 0) with 0. rewrite fst_bind. cbn [zm m_op m_lit fst bind]. rewrite fst_bind. cbn [zm m_shl fst bind]. rewrite fst_bind. cbn [zm m_op fst bind].
  unfold shl_chk. replace ((0 <=? b) && (b <? 64)) with true by lia. cbn [bind]. cbv zeta. fold wb.
  rewrite fst_bind. eapply (bind_inv (fun o => zlen o = len)).
  - destruct (put_v O (Z.lor buf (shl64 (Z.land (nth i c 0) MASK49) b)) off (wb / 8) out) as [E P]; [lia|lia|lia|]. split; [exact E|]. intros o Eo. rewrite <- H3. apply P. exact Eo.
  - intros o Lo. rewrite fst_bind. cbn [zm m_shr fst bind]. unfold shr_chk. replace ((0 <=? wb) && (wb <? 64)) with true by lia. cbn [bind]. split; [reflexivity|].
    intros s' E. injection E as <-. unfold mcok. split; [lia|]. split; [lia|exact Lo].
Qed.
Lemma foldM_idx {S} (J : nat -> S -> Prop) (f g : S -> nat -> res S) : forall n k s, J k s ->
  (forall s i, (k <= i < k + n)%nat -> J i s -> f s i = g s i /\ (forall s', g s i = Ok s' -> J (Datatypes.S i) s')) -> foldM f (seq k n) s = foldM g (seq k n) s.
Proof.
  induction n as [|n IH]; intros k s Hs H; [reflexivity|]. cbn [seq foldM]. destruct (H s k ltac:(lia) Hs) as [E P]. rewrite E. destruct (g s k) as [s1| |]; cbn [bind]; [|reflexivity..].
  apply IH; [apply P; reflexivity|]. intros s2 i Hi. apply H. lia.
Qed.
Lemma mc_row_v O c out off : len512 c -> 0 <= off -> off + 3136 <= zlen out -> fst (mc_row_l (zm O) c (out, off)) = mc_row (out, off) c.
Proof.
  intros Lc H1 H2. unfold mc_row_l, mc_row. rewrite fst_bind, fst_for. rewrite (foldM_seq_nth mc_put 0 c). rewrite Lc. change PN with 512%nat.
  rewrite (foldM_idx (mcok off (zlen out)) (fun s i => fst (mc_put_l (zm O) c i s)) (fun s i => mc_put s (nth i c 0)) 512 0).
  - destruct (foldM _ (seq 0 512) _) as [[[[o f] bu] bb]| |]; reflexivity.
  - split; [lia|]. split; [lia|reflexivity].
  - intros s i Hi Hs. apply mc_put_v; [exact H1|lia|exact H2|exact Hs].
Qed.
