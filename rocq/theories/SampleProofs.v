(* Rejection sampling loops: what they return as a function of the stream. *)
From Coq Require Import ZArith Lia Bool List Arith.
From Coq Require Import ZifyBool ZifyNat.
From Verif Require Import ModelBase ModelU128 ModelField ModelUtils ModelPoly ModelVec.
From Verif Require Import Spec.
From Verif Require Import Words FieldProofs ArithLemmas BytesProofs PolyProofs Cong NttBounds MaskedProofs.
Import ListNotations.
Open Scope Z_scope.
Ltac Zify.zify_post_hook ::= idtac.

Lemma stream_bytes_length S p n : length (stream_bytes S p n) = n.
Proof. unfold stream_bytes. rewrite map_length, seq_length. reflexivity. Qed.
Lemma stream_bytes_app S p n m : stream_bytes S p (n + m) = stream_bytes S p n ++ stream_bytes S (p + n) m.
Proof. unfold stream_bytes. rewrite seq_app, map_app. reflexivity. Qed.
Lemma stream_bytes_sub S p n a m : (a + m <= n)%nat ->
  firstn m (skipn a (stream_bytes S p n)) = stream_bytes S (p + a) m.
Proof.
  intros H. replace n with (a + (m + (n - a - m)))%nat by lia. rewrite stream_bytes_app.
  rewrite skipn_app, skipn_all2, stream_bytes_length, Nat.sub_diag by (rewrite stream_bytes_length; lia).
  cbn [app]. rewrite skipn_O, stream_bytes_app, firstn_app, stream_bytes_length, Nat.sub_diag, firstn_O, app_nil_r.
  apply firstn_all2. rewrite stream_bytes_length. lia.
Qed.
Lemma hash_bytes O m p n : Forall is_byte (stream_bytes (hash_of O m) p n).
Proof.
  unfold stream_bytes. apply Forall_map, Forall_forall. intros i _. unfold hash_of. apply byteZ_range.
Qed.
Lemma tape_bytes tp p n : Forall is_byte (stream_bytes (tape_of tp) p n).
Proof.
  unfold stream_bytes. apply Forall_map, Forall_forall. intros i _. unfold tape_of. apply byteZ_range.
Qed.
Lemma squeeze_eq O x n : xof_squeeze O x n = (stream_bytes (hash_of O (xof_in x)) (xof_out x) n, Xof (xof_in x) (xof_out x + n)).
Proof. reflexivity. Qed.
Lemma prng_read_eq p n : prng_read p n = (stream_bytes (tape_of (tape p)) (ppos p) n, Prng (tape p) (ppos p + n)).
Proof. reflexivity. Qed.

(* generic rejection loop *)
Definition take512 (l : list Z) : res (list Z) := if (512 <=? length l)%nat then Ok (firstn 512 l) else OutOfFuel.
Definition acc_from (c : nat -> Z) (t n : nat) : list Z := filter (fun x => x <? q) (map c (seq t n)).
Lemma acc_from_S c t n : acc_from c t (S n) = (if c t <? q then [c t] else []) ++ acc_from c (S t) n.
Proof. unfold acc_from. cbn [seq map filter]. destruct (c t <? q); reflexivity. Qed.
Lemma take512_done acc l : length acc = 512%nat -> take512 (acc ++ l) = Ok acc.
Proof.
  intros H. unfold take512. rewrite app_length. replace (512 <=? length acc + length l)%nat with true by lia.
  rewrite firstn_app, H, Nat.sub_diag, firstn_O, app_nil_r, firstn_all2 by lia. reflexivity.
Qed.

(* ---------- sampleQ ---------- *)
Lemma MASK49_spec x : Z.land x MASK49 = x mod 2 ^ 49.
Proof. apply land_mask; [lia|]. vm_compute. reflexivity. Qed.
Lemma NEEDED_7 : NEEDED_BYTES = 7%nat. Proof. reflexivity. Qed.
Lemma sampleQ_loop_eq O inp : let S := hash_of O inp in
  forall fuel t p0 off acc, (p0 + off = 7 * t)%nat -> (off <= 136)%nat -> (length acc <= 512)%nat ->
  sampleQ_loop O fuel (Xof inp (p0 + 136)) (stream_bytes S p0 136) off acc
  = take512 (acc ++ acc_from (candidate49 S) t fuel).
Proof.
  intros S. induction fuel as [|f IH]; intros t p0 off acc Hp Hoff Hacc; cbn [sampleQ_loop]; change PN with 512%nat.
  - unfold acc_from. cbn [seq map filter]. rewrite app_nil_r. unfold take512.
    destruct (512 <=? length acc)%nat eqn:E; [|reflexivity]. rewrite firstn_all2 by lia. reflexivity.
  - destruct (512 <=? length acc)%nat eqn:E.
    + rewrite take512_done by lia. reflexivity.
    + rewrite stream_bytes_length, NEEDED_7.
      assert (Step : forall p1 off1, (p1 + off1 = 7 * t)%nat -> (off1 + 7 <= 136)%nat ->
        (let coeff := Z.land (from_le_bytes 8 (firstn 7 (skipn off1 (stream_bytes S p1 136)))) MASK49 in
         let off := (off1 + 7)%nat in
         if Q <=? coeff then sampleQ_loop O f (Xof inp (p1 + 136)) (stream_bytes S p1 136) off acc
         else sampleQ_loop O f (Xof inp (p1 + 136)) (stream_bytes S p1 136) off (acc ++ [coeff]))
        = take512 (acc ++ acc_from (candidate49 S) t (Datatypes.S f))).
      { intros p1 off1 H1 H2. cbv zeta. rewrite stream_bytes_sub by lia.
        rewrite from_le_bytes_spec by apply hash_bytes. rewrite firstn_all2 by (rewrite stream_bytes_length; lia).
        rewrite MASK49_spec. replace (p1 + off1)%nat with (7 * t)%nat by lia.
        change (le_value (stream_bytes S (7 * t) 7) mod 2 ^ 49) with (candidate49 S t).
        rewrite acc_from_S. rewrite <- q_Q.
        destruct (candidate49 S t <? q) eqn:C.
        - replace (q <=? candidate49 S t) with false by lia.
          rewrite (IH (Datatypes.S t)) by (try rewrite app_length; cbn [length]; lia). rewrite <- app_assoc. reflexivity.
        - replace (q <=? candidate49 S t) with true by lia. cbn [app]. apply IH; lia. }
      destruct (136 <? off + 7)%nat eqn:B.
      * rewrite squeeze_eq. cbn [xof_in xof_out].
        rewrite stream_bytes_sub by lia.
        change (hash_of O inp) with S.
        assert (E1 : stream_bytes S (p0 + off) (136 - off) ++ stream_bytes S (p0 + 136) (136 - (136 - off)) = stream_bytes S (p0 + off) 136).
        { replace 136%nat with ((136 - off) + (136 - (136 - off)))%nat at 5 by lia. rewrite stream_bytes_app.
          f_equal. f_equal. lia. }
        rewrite E1.
        replace (p0 + 136 + (136 - (136 - off)))%nat with (p0 + off + 136)%nat by lia.
        apply (Step (p0 + off)%nat 0%nat); lia.
      * apply Step; lia.
Qed.
Lemma accepted_from S n : accepted49 S n = acc_from (candidate49 S) 0 n.
Proof. reflexivity. Qed.
Lemma sampleQ_eq O fuel hdr sigma :
  sampleQ O fuel hdr sigma = take512 (accepted49 (hash_of O (hdr ++ sigma)) fuel).
Proof.
  unfold sampleQ. rewrite squeeze_eq. cbn [xof_absorb xof_new xof_in xof_out app].
  change SHAKE256_RATE_BYTES with 136%nat.
  rewrite accepted_from. apply (sampleQ_loop_eq O (hdr ++ sigma) fuel 0 0 0 []); cbn [length]; lia.
Qed.
Lemma candidate_range S t : 0 <= candidate49 S t < 2 ^ 49.
Proof. apply Z.mod_pos_bound. reflexivity. Qed.
Lemma accepted_reduced S n : Forall reduced (accepted49 S n).
Proof.
  unfold accepted49. apply Forall_forall. intros x Hx. apply filter_In in Hx. destruct Hx as [Hx H].
  apply in_map_iff in Hx. destruct Hx as (t & <- & _). pose proof (candidate_range S t).
  unfold reduced. apply Z.ltb_lt in H. lia.
Qed.
Lemma uniform_poly_poly S p : uniform_poly S p -> is_poly p.
Proof.
  intros (n & L & ->). split; [apply firstn_length_le; lia|]. apply Forall_firstn, accepted_reduced.
Qed.
Lemma take512_Ok l p : take512 l = Ok p -> (512 <= length l)%nat /\ p = firstn 512 l.
Proof. unfold take512. destruct (512 <=? length l)%nat eqn:E; intros H; inversion H. split; [lia|reflexivity]. Qed.
Lemma sampleQ_uniform O fuel hdr sigma :
  wp (sampleQ O fuel hdr sigma) (uniform_poly (hash_of O (hdr ++ sigma))).
Proof.
  rewrite sampleQ_eq. unfold take512. destruct (512 <=? length (accepted49 _ fuel))%nat eqn:E; [|exact I].
  cbn [wp]. exists fuel. split; [lia|reflexivity].
Qed.
(* uniform_poly is functional *)
Lemma accepted_app S n m : accepted49 S (n + m) = accepted49 S n ++ acc_from (candidate49 S) n m.
Proof. unfold accepted49, acc_from. rewrite seq_app, map_app, filter_app. reflexivity. Qed.
Lemma uniform_poly_fun S p p' : uniform_poly S p -> uniform_poly S p' -> p = p'.
Proof.
  assert (G : forall n n', (n <= n')%nat -> (512 <= length (accepted49 S n))%nat -> firstn 512 (accepted49 S n') = firstn 512 (accepted49 S n)).
  { intros n n' H L. replace n' with (n + (n' - n))%nat by lia. rewrite accepted_app, firstn_app.
    replace (512 - length (accepted49 S n))%nat with 0%nat by lia. rewrite firstn_O, app_nil_r. reflexivity. }
  intros (n & L & ->) (n' & L' & ->). destruct (le_ge_dec n n') as [H|H].
  - symmetry. apply G; [exact H|exact L].
  - apply G; [exact H|exact L'].
Qed.

(* ---------- expandA ---------- *)
Lemma expandA_ok O fuel k l seed : (k <= 256)%nat -> (l <= 256)%nat ->
  wp (expandA O fuel k l seed) (fun A => length A = (k * l)%nat /\
    forall r c, (r < k)%nat -> (c < l)%nat ->
      uniform_poly (matrix_stream (hash_of O) seed r c) (mat_get l A r c)).
Proof.
  intros Hk Hl. unfold expandA.
  pose (I := fun (n : nat) (A : pmat) => length A = n /\ forall i, (i < n)%nat ->
          uniform_poly (matrix_stream (hash_of O) seed (i / l) (i mod l)) (nth i A [])).
  assert (G : wp (foldM (fun A ridx => foldM (fun A cidx =>
                    p <- sampleQ O fuel (expandA_hdr ridx cidx) seed ;; Ok (A ++ [p])) (seq 0 l) A) (seq 0 k) [])
               (fun A => I (k * l)%nat A)).
  { apply (wp_foldM_seq (fun r A => I (r * l)%nat A) (fun A ridx => foldM (fun A cidx =>
                    p <- sampleQ O fuel (expandA_hdr ridx cidx) seed ;; Ok (A ++ [p])) (seq 0 l) A) k 0).
    - split; [reflexivity|]. cbn [Nat.mul]. intros i Hi. lia.
    - intros A r Hr HA.
      apply (wp_mono _ (fun A => I (r * l + (0 + l))%nat A)); [|intros A' HA'; replace ((r + 1) * l)%nat with (r * l + (0 + l))%nat by lia; exact HA'].
      apply (wp_foldM_seq (fun c A => I (r * l + c)%nat A) (fun A cidx =>
                    p <- sampleQ O fuel (expandA_hdr r cidx) seed ;; Ok (A ++ [p])) l 0).
      + rewrite Nat.add_0_r. exact HA.
      + intros A' c Hc [L F]. apply wp_bind.
        apply (wp_mono _ _ _ (sampleQ_uniform O fuel (expandA_hdr r c) seed)). intros p Hp. cbn [wp].
        split; [rewrite app_length; cbn [length]; unfold poly in *; lia|].
        intros i Hi. unfold pmat, poly in *. destruct (lt_dec i (r * l + c)) as [Hlt|Hge].
        * rewrite app_nth1 by lia. apply F. exact Hlt.
        * assert (i = r * l + c)%nat by lia. subst i. rewrite app_nth2 by lia. rewrite L, Nat.sub_diag. cbn [nth].
          rewrite Nat.div_add_l by lia. rewrite (Nat.div_small c l) by lia. rewrite Nat.add_0_r.
          replace ((r * l + c) mod l)%nat with c by (rewrite Nat.add_comm, Nat.mod_add, Nat.mod_small by lia; reflexivity).
          unfold expandA_hdr in Hp. rewrite !Z.mod_small in Hp by lia. exact Hp. }
  apply (wp_mono _ _ _ G). intros A [L F]. split; [exact L|]. intros r c Hr Hc. unfold mat_get.
  assert (Hi : (r * l + c < k * l)%nat).
  { assert ((r + 1) * l <= k * l)%nat by (apply Nat.mul_le_mono_r; lia). lia. }
  specialize (F _ Hi). rewrite Nat.div_add_l in F by lia. rewrite (Nat.div_small c l), Nat.add_0_r in F by lia.
  replace ((r * l + c) mod l)%nat with c in F by (rewrite Nat.add_comm, Nat.mod_add, Nat.mod_small by lia; reflexivity).
  exact F.
Qed.

(* ---------- sample_polynomial (mask generator) ---------- *)
Definition mrng_word (O : oracles) (st : ascon_state) (t : nat) : Z :=
  a0 (Nat.iter t (ascon_permute O 6) st) mod 2 ^ 49.
Lemma iter_S {A} (f : A -> A) n x : Nat.iter n f (f x) = Nat.iter (S n) f x.
Proof. induction n as [|n IH]; [reflexivity|]. cbn [Nat.iter nat_rect]. f_equal. exact IH. Qed.
Lemma sample_loop_eq O d idx : (idx < d - 1)%nat -> forall fuel t st m acc, length m = (d - 1)%nat ->
  nth idx m ascon_zero = Nat.iter t (ascon_permute O 6) st -> (length acc <= 512)%nat ->
  (x <- sample_polynomial_loop O fuel d idx m acc ;; Ok (fst x)) = take512 (acc ++ acc_from (mrng_word O st) t fuel).
Proof.
  intros Hidx. induction fuel as [|f IH]; intros t st m acc L N Hacc; cbn [sample_polynomial_loop]; change PN with 512%nat.
  - unfold acc_from. cbn [seq map filter]. rewrite app_nil_r. unfold take512.
    destruct (512 <=? length acc)%nat eqn:E; [|reflexivity]. cbn [bind fst]. rewrite firstn_all2 by lia. reflexivity.
  - destruct (512 <=? length acc)%nat eqn:E.
    + rewrite take512_done by lia. reflexivity.
    + unfold mrng_get. replace (d - 1 <=? idx)%nat with false by lia. rewrite MASK49_spec, N, acc_from_S.
      change (a0 (Nat.iter t (ascon_permute O 6) st) mod 2 ^ 49) with (mrng_word O st t). rewrite <- q_Q.
      assert (N' : nth idx (upd idx (ascon_permute O 6 (Nat.iter t (ascon_permute O 6) st)) m) ascon_zero = Nat.iter (S t) (ascon_permute O 6) st).
      { rewrite NttLayers.upd_nth_eq by (unfold mrng in *; lia). reflexivity. }
      destruct (mrng_word O st t <? q) eqn:C.
      * rewrite (IH (S t) st) by (try rewrite app_length; cbn [length]; try rewrite NttLayers.upd_length; try assumption; lia).
        rewrite <- app_assoc. reflexivity.
      * cbn [app]. apply IH; [rewrite NttLayers.upd_length; exact L|exact N'|lia].
Qed.

(* ---------- challenge polynomial ---------- *)
Definition nonzero (l : list Z) : nat := length (filter (fun x => negb (x =? 0)) l).
Lemma nonzero_upd l i v : (i < length l)%nat -> nth i l 0 = 0 -> v <> 0 -> nonzero (upd i v l) = S (nonzero l).
Proof.
  unfold nonzero. revert i. induction l as [|x l IH]; intros [|i] Hi Hn Hv; cbn [length] in Hi; try lia; cbn [upd filter nth] in *.
  - subst x. replace (v =? 0) with false by lia. reflexivity.
  - destruct (negb (x =? 0)); cbn [length]; rewrite IH by (try assumption; lia); reflexivity.
Qed.
Lemma chal_word_range S t : (forall i, is_byte (S i)) -> 0 <= chal_word S t < 65536.
Proof.
  intros H. unfold chal_word, stream_bytes. cbn [seq map le_value]. pose proof (H (2 * t)%nat) as A.
  pose proof (H (Datatypes.S (2 * t))) as B. unfold is_byte in *. lia.
Qed.
Lemma chal_pos_lt S t : (chal_pos S t < 512)%nat.
Proof.
  unfold chal_pos. pose proof (Z.mod_pos_bound (chal_word S t / 2) 512 eq_refl). lia.
Qed.
Lemma chal_sign_cases S t : chal_sign S t = 1 \/ chal_sign S t = q - 1.
Proof. unfold chal_sign. destruct (Z.odd _); auto. Qed.
Lemma find_none {A} (f : A -> bool) l : (forall x, In x l -> f x = false) -> find f l = None.
Proof. induction l as [|x l IH]; intros H; [reflexivity|]. cbn [find]. rewrite H by (left; reflexivity). apply IH. intros y Hy. apply H. right. exact Hy. Qed.
Lemma find_app {A} (f : A -> bool) a b : find f (a ++ b) = match find f a with Some x => Some x | None => find f b end.
Proof. induction a as [|x a IH]; [reflexivity|]. cbn [app find]. destruct (f x); [reflexivity|exact IH]. Qed.
Lemma chal_coef_S S n i : chal_coef S (Datatypes.S n) i =
  if chal_coef S n i =? 0 then (if (chal_pos S n =? i)%nat then chal_sign S n else 0) else chal_coef S n i.
Proof.
  unfold chal_coef. rewrite seq_S, find_app, Nat.add_0_l.
  destruct (find (fun t => (chal_pos S t =? i)%nat) (seq 0 n)) as [t|].
  - assert (chal_sign S t <> 0) by (destruct (chal_sign_cases S t) as [->| ->]; [lia|]; rewrite q_Q, Q_val; lia).
    replace (chal_sign S t =? 0) with false by lia. reflexivity.
  - cbn [find Z.eqb]. destruct (chal_pos S n =? i)%nat; reflexivity.
Qed.
Definition chal_vec (S : nat -> Z) (n : nat) : list Z := map (chal_coef S n) (seq 0 512).
Lemma chal_vec_nth S n i : (i < 512)%nat -> nth i (chal_vec S n) 0 = chal_coef S n i.
Proof. apply nth_map_seq. Qed.
Lemma chal_coef_in S n i : chal_coef S n i = 0 <-> existsb (Nat.eqb i) (distinct (map (chal_pos S) (seq 0 n))) = false.
Proof.
  induction n as [|n IH]; [split; reflexivity|].
  rewrite chal_coef_S. unfold distinct. rewrite seq_S, map_app, fold_left_app. cbn [map fold_left]. rewrite Nat.add_0_l.
  fold (distinct (map (chal_pos S) (seq 0 n))).
  destruct (chal_coef S n i =? 0) eqn:E.
  - apply Z.eqb_eq in E. apply IH in E.
    destruct (chal_pos S n =? i)%nat eqn:P.
    + apply Nat.eqb_eq in P. subst i. rewrite E. rewrite existsb_app, E. cbn [existsb orb]. rewrite Nat.eqb_refl.
      destruct (chal_sign_cases S n) as [->| ->]; [split; intros; lia|]. rewrite q_Q, Q_val. split; intros; lia.
    + destruct (existsb (Nat.eqb (chal_pos S n)) _) eqn:X; [tauto|]. rewrite existsb_app, E. cbn [existsb orb].
      rewrite Nat.eqb_sym, P. tauto.
  - apply Z.eqb_neq in E. split; [intros H; contradiction|]. intros H. exfalso. apply E, IH.
    destruct (existsb (Nat.eqb (chal_pos S n)) _); [exact H|]. rewrite existsb_app in H. apply orb_false_iff in H. apply H.
Qed.
Lemma nth_ext_Z (a b : list Z) : length a = length b -> (forall i, (i < length a)%nat -> nth i a 0 = nth i b 0) -> a = b.
Proof. apply nth_ext. Qed.
Lemma nonzero_zero n : nonzero (repeat 0 n) = 0%nat.
Proof. induction n as [|n IH]; [reflexivity|]. exact IH. Qed.
Lemma chal_vec_S S n : chal_vec S (Datatypes.S n) =
  if chal_coef S n (chal_pos S n) =? 0 then upd (chal_pos S n) (chal_sign S n) (chal_vec S n) else chal_vec S n.
Proof.
  pose proof (chal_pos_lt S n) as HP.
  assert (LV : forall n, length (chal_vec S n) = 512%nat) by (intros m; unfold chal_vec; rewrite map_length, seq_length; reflexivity).
  apply nth_ext_Z.
  - destruct (_ =? 0); [rewrite NttLayers.upd_length|]; rewrite !LV; reflexivity.
  - rewrite LV. intros i Hi. rewrite chal_vec_nth by exact Hi. rewrite chal_coef_S.
    destruct (chal_coef S n (chal_pos S n) =? 0) eqn:E.
    + destruct (Nat.eq_dec (chal_pos S n) i) as [<-|Ne].
      * rewrite NttLayers.upd_nth_eq by (rewrite LV; exact Hi). rewrite E, Nat.eqb_refl. reflexivity.
      * rewrite NttLayers.upd_nth_neq by exact Ne. rewrite chal_vec_nth by exact Hi.
        replace (chal_pos S n =? i)%nat with false by lia. destruct (chal_coef S n i =? 0) eqn:E2; lia.
    + rewrite chal_vec_nth by exact Hi. destruct (chal_coef S n i =? 0) eqn:E2; [|reflexivity].
      destruct (chal_pos S n =? i)%nat eqn:P; [|lia]. apply Nat.eqb_eq in P. subst i. congruence.
Qed.
Definition distinct_count (S : nat -> Z) (n : nat) : nat := length (distinct (map (chal_pos S) (seq 0 n))).
Lemma distinct_count_S S n : distinct_count S (Datatypes.S n) =
  (distinct_count S n + (if (chal_coef S n (chal_pos S n) =? 0)%Z then 1 else 0))%nat.
Proof.
  unfold distinct_count, distinct. rewrite seq_S, map_app, fold_left_app. cbn [map fold_left]. rewrite Nat.add_0_l.
  fold (distinct (map (chal_pos S) (seq 0 n))).
  destruct (chal_coef S n (chal_pos S n) =? 0) eqn:E.
  - apply Z.eqb_eq in E. apply chal_coef_in in E. rewrite E, app_length. reflexivity.
  - apply Z.eqb_neq in E. destruct (existsb (Nat.eqb (chal_pos S n)) _) eqn:X; [lia|]. exfalso. apply E, chal_coef_in, X.
Qed.
Lemma chal_nonzero S n : nonzero (chal_vec S n) = distinct_count S n.
Proof.
  induction n as [|n IH].
  - unfold chal_vec. rewrite (map_ext _ (fun _ => 0)) by reflexivity.
    replace (map (fun _ => 0) (seq 0 512)) with (repeat 0 512) by reflexivity. apply nonzero_zero.
  - rewrite chal_vec_S, distinct_count_S. destruct (chal_coef S n (chal_pos S n) =? 0) eqn:E; [|rewrite IH; lia].
    pose proof (chal_pos_lt S n). rewrite nonzero_upd; [rewrite IH; lia| | |].
    + unfold chal_vec. rewrite map_length, seq_length. assumption.
    + rewrite chal_vec_nth by assumption. apply Z.eqb_eq, E.
    + destruct (chal_sign_cases S n) as [->| ->]; [lia|]. rewrite q_Q, Q_val. lia.
Qed.
Lemma chal_step_eq S n b : (forall i, is_byte (S i)) -> b = stream_bytes S (2 * n) 2 ->
  chal_step (chal_vec S n) b = (chal_vec S (Datatypes.S n), if chal_coef S n (chal_pos S n) =? 0 then 1%nat else 0%nat).
Proof.
  intros HS ->. unfold chal_step.
  assert (Fb : Forall is_byte (stream_bytes S (2 * n) 2)) by (unfold stream_bytes; apply Forall_map, Forall_forall; intros; apply HS).
  rewrite from_le_bytes_spec by exact Fb. rewrite firstn_all2 by (rewrite stream_bytes_length; lia).
  change (le_value (stream_bytes S (2 * n) 2)) with (chal_word S n).
  rewrite (land_mask (chal_word S n) 1 1) by (try reflexivity; lia).
  rewrite (land_mask _ 9) by (try reflexivity; lia). rewrite Z.shiftr_div_pow2 by lia.
  change (2 ^ 1) with 2. change (2 ^ 9) with 512.
  change (Z.to_nat ((chal_word S n / 2) mod 512)) with (chal_pos S n).
  pose proof (chal_pos_lt S n) as HP.
  rewrite chal_vec_nth by exact HP. rewrite chal_vec_S.
  assert (V : zq_sub 1 (2 * (chal_word S n mod 2)) = chal_sign S n).
  { unfold chal_sign. rewrite Zmod_odd. destruct (Z.odd (chal_word S n)); rewrite zq_sub_spec by (unfold canon; rewrite Q_val; lia); rewrite ?q_Q; reflexivity. }
  rewrite V. destruct (chal_coef S n (chal_pos S n) =? 0); [reflexivity|].
  f_equal. apply nth_ext_Z; [apply NttLayers.upd_length|]. rewrite NttLayers.upd_length. intros i Hi.
  destruct (Nat.eq_dec (chal_pos S n) i) as [<-|Ne].
  - rewrite NttLayers.upd_nth_eq by exact Hi. symmetry. apply chal_vec_nth. exact HP.
  - apply NttLayers.upd_nth_neq. exact Ne.
Qed.
Lemma chal_loop_eq O inp omega : let S := hash_of O inp in
  forall fuel n, (distinct_count S n <= omega)%nat ->
  match chal_poly_loop O fuel omega (Xof inp (2 * n)) (chal_vec S n) (distinct_count S n) with
  | Ok c => exists m, (n <= m <= n + fuel)%nat /\ distinct_count S m = omega /\ c = chal_vec S m
  | UB => False
  | OutOfFuel => (distinct_count S (n + fuel) < omega)%nat
  end.
Proof.
  intros S. assert (HS : forall i, is_byte (S i)) by (intros i; unfold S, hash_of; apply byteZ_range).
  induction fuel as [|f IH]; intros n Hn; cbn [chal_poly_loop].
  - destruct (omega <=? distinct_count S n)%nat eqn:E; [|rewrite Nat.add_0_r; lia].
    exists n. split; [lia|]. split; [lia|reflexivity].
  - destruct (omega <=? distinct_count S n)%nat eqn:E.
    + exists n. split; [lia|]. split; [lia|reflexivity].
    + rewrite squeeze_eq. cbn [xof_in xof_out]. change (hash_of O inp) with S.
      rewrite (chal_step_eq S n _ HS eq_refl). rewrite <- distinct_count_S.
      replace (2 * n + 2)%nat with (2 * Datatypes.S n)%nat by lia.
      specialize (IH (Datatypes.S n)).
      assert (HB : (distinct_count S (Datatypes.S n) <= omega)%nat) by (rewrite distinct_count_S; destruct (_ =? 0); lia).
      specialize (IH HB).
      destruct (chal_poly_loop O f omega _ _ _) as [c| |].
      * destruct IH as (m & Hm & H1 & H2). exists m. split; [lia|]. split; assumption.
      * exact IH.
      * replace (n + Datatypes.S f)%nat with (Datatypes.S n + f)%nat by lia. exact IH.
Qed.
Lemma chal_vec_0 S : chal_vec S 0 = poly_zero.
Proof. reflexivity. Qed.
Lemma chal_poly_eq O fuel omega c_hash : (omega < 256)%nat ->
  let S := challenge_stream (hash_of O) omega c_hash in
  match chal_poly O fuel omega c_hash with
  | Ok c => exists m, (m <= fuel)%nat /\ distinct_count S m = omega /\ c = chal_vec S m
  | UB => False
  | OutOfFuel => (distinct_count S fuel < omega)%nat
  end.
Proof.
  intros Ho S. unfold chal_poly. rewrite Z.mod_small by lia. cbn [xof_absorb xof_new xof_in xof_out app].
  pose proof (chal_loop_eq O ([99; Z.of_nat omega; 0; 0; 0; 0; 0; 0] ++ c_hash) omega fuel 0) as H.
  cbn [Nat.mul Nat.add app] in H. rewrite chal_vec_0 in H. specialize (H (Nat.le_0_l _)).
  change (distinct_count _ 0) with 0%nat in H.
  unfold S, challenge_stream. cbn [app] in *.
  destruct (chal_poly_loop O fuel omega _ poly_zero 0) as [c| |]; [|exact H|exact H].
  destruct H as (m & Hm & H1 & H2). exists m. split; [lia|]. split; assumption.
Qed.
Lemma chal_poly_ok O fuel omega c_hash : (omega < 256)%nat ->
  wp (chal_poly O fuel omega c_hash) (challenge_poly (challenge_stream (hash_of O) omega c_hash) omega).
Proof.
  intros Ho. pose proof (chal_poly_eq O fuel omega c_hash Ho) as H. cbv zeta in H.
  destruct (chal_poly O fuel omega c_hash) as [c| |]; [|exact H|exact I].
  destruct H as (m & _ & H1 & H2). exists m. split; [exact H1|exact H2].
Qed.
Lemma chal_coef_cases S n i : chal_coef S n i = 0 \/ chal_coef S n i = 1 \/ chal_coef S n i = q - 1.
Proof.
  unfold chal_coef. destruct (find _ _) as [t|]; [|auto]. destruct (chal_sign_cases S t); auto.
Qed.
Lemma challenge_poly_facts S omega c : challenge_poly S omega c ->
  is_poly c /\ nonzero c = omega /\ Forall (fun x => x = 0 \/ x = 1 \/ x = q - 1) c.
Proof.
  intros (n & H1 & ->). repeat apply conj.
  - rewrite map_length, seq_length. reflexivity.
  - apply Forall_map, Forall_forall. intros i _. unfold reduced. pose proof q_Q. pose proof Q_val.
    destruct (chal_coef_cases S n i) as [->|[->| ->]]; lia.
  - rewrite <- H1. apply chal_nonzero.
  - apply Forall_map, Forall_forall. intros i _. apply chal_coef_cases.
Qed.
Lemma distinct_count_mono S n m : (n <= m)%nat -> (distinct_count S n <= distinct_count S m)%nat.
Proof.
  intros H. induction H as [|m H IH]; [lia|]. rewrite distinct_count_S. lia.
Qed.
(* the challenge polynomial is determined by the stream *)
Lemma challenge_poly_fun S omega c c' : challenge_poly S omega c -> challenge_poly S omega c' -> c = c'.
Proof.
  assert (G : forall n m, (n <= m)%nat -> distinct_count S n = distinct_count S m -> chal_vec S n = chal_vec S m).
  { intros n m H. induction H as [|m H IH]; [reflexivity|]. intros E.
    pose proof (distinct_count_mono S n m H) as M. rewrite distinct_count_S in E. rewrite chal_vec_S.
    destruct (_ =? 0); [lia|]. apply IH. lia. }
  intros (n & H1 & ->) (m & H2 & ->). fold (distinct_count S n) in H1. fold (distinct_count S m) in H2.
  fold (chal_vec S n). fold (chal_vec S m).
  destruct (le_ge_dec n m) as [H|H]; [apply G|symmetry; apply G]; try exact H; lia.
Qed.
