(* Statements assembled for PropMasked.v. *)
From Coq Require Import ZArith Lia Bool List Arith.
From Coq Require Import ZifyBool ZifyNat.
From Verif Require Import ModelBase ModelU128 ModelField ModelUtils ModelPoly ModelVec ModelSerial ModelScheme.
From Verif Require Import Spec.
From Verif Require Import Words FieldProofs ArithLemmas BytesProofs PolyProofs NttLayers NttProofs Cong NttEval NttBounds MaskedProofs LinProofs.
Import ListNotations.
Open Scope Z_scope.
Ltac Zify.zify_post_hook ::= idtac.

Lemma wp_split {A} (r : res A) P : wp r P -> r <> UB /\ forall a, r = Ok a -> P a.
Proof.
  destruct r; cbn [wp]; intros H; [split; [congruence|intros a' E; inversion E; subst; exact H]|contradiction|split; [congruence|intros a' E; discriminate]].
Qed.
Lemma pow2_e e : pow2 (2 ^ e). Proof. exists e. reflexivity. Qed.

(* refreshing = adding a fresh zero encoding *)
Lemma mp_refresh_eq O fuel d a m :
  mp_refresh O fuel d a m = ('(z, m) <- mp_zero_encoding O fuel d m ;; Ok (mp_add a z, m)).
Proof. reflexivity. Qed.
Lemma pv_refresh_eq O fuel d v m :
  pv_refresh O fuel d v m = ('(z, m) <- pv_zero_encoding O fuel (length v) d m ;; Ok (pv_add v z, m)).
Proof.
  unfold pv_refresh, pv_zero_encoding.
  assert (G : forall v s n acc' m, length n = length acc' ->
    foldM (fun '(acc, m) row => '(z, m) <- mp_refresh O fuel d row m ;; Ok (acc ++ [z], m)) v (pv_add n acc', m)
    = ('(z, m) <- foldM (fun '(v, m) (_ : nat) => '(z, m) <- mp_zero_encoding O fuel d m ;; Ok (v ++ [z], m)) (seq s (length v)) (acc', m) ;;
       Ok (pv_add (n ++ v) z, m))).
  { clear v m. induction v as [|row v IH]; intros s n acc' m L2; cbn [length seq foldM bind].
    - rewrite app_nil_r. reflexivity.
    - rewrite mp_refresh_eq. destruct (mp_zero_encoding O fuel d m) as [[z m']| |]; cbn [bind]; [|reflexivity|reflexivity].
      replace (pv_add n acc' ++ [mp_add row z]) with (pv_add (n ++ [row]) (acc' ++ [z])).
      + rewrite (IH (S s) (n ++ [row]) (acc' ++ [z])) by (rewrite ?app_length; cbn [length]; unfold mpoly, poly in *; lia).
        rewrite <- app_assoc. reflexivity.
      + unfold pv_add. clear - L2. revert acc' L2. induction n as [|x n IH]; intros [|y acc'] L; cbn [length] in L; try lia; [reflexivity|].
        cbn [app map2]. f_equal. apply IH. lia. }
  exact (G v 0%nat [] [] m eq_refl).
Qed.

Lemma mrng_new_eq O d : mrng_new O d = repeat ascon_zero (d - 1).
Proof.
  unfold mrng_new. generalize (repeat ascon_zero (d - 1)). generalize (seq 0 (d - 1)). induction l as [|x l IH]; intros s; [reflexivity|].
  cbn [fold_left]. apply IH.
Qed.
Lemma mrng_len O d idx m : length (snd (mrng_get O d idx m)) = length m.
Proof. unfold mrng_get. destruct (d - 1 <=? idx)%nat; [reflexivity|]. cbn [snd]. apply upd_length. Qed.
Lemma iter_succ n {A} (f : A -> A) x : Nat.iter (S n) f x = f (Nat.iter n f x).
Proof. reflexivity. Qed.
Lemma mrng_stream O d idx n : (idx < d - 1)%nat ->
  nth idx (Nat.iter n (fun m => snd (mrng_get O d idx m)) (mrng_new O d)) ascon_zero = Nat.iter n (ascon_permute O 6) ascon_zero
  /\ length (Nat.iter n (fun m => snd (mrng_get O d idx m)) (mrng_new O d)) = (d - 1)%nat.
Proof.
  intros Hi. induction n as [|n [IH IL]].
  - cbn [Nat.iter nat_rect]. rewrite mrng_new_eq, repeat_length. split; [|reflexivity].
    apply nth_repeat.
  - rewrite !(iter_succ n).
    set (m := Nat.iter n (fun m => snd (mrng_get O d idx m)) (mrng_new O d)) in *. clearbody m.
    split; [|rewrite mrng_len; exact IL].
    unfold mrng_get. replace (d - 1 <=? idx)%nat with false by lia. cbn [snd].
    rewrite upd_nth_eq by (unfold mrng in *; lia). rewrite IH. reflexivity.
Qed.
Lemma mrng_refuted :
  (forall O d i n, (i < d - 1)%nat ->
     fst (mrng_get O d i (Nat.iter n (fun m => snd (mrng_get O d i m)) (mrng_new O d)))
     = a0 (Nat.iter n (ascon_permute O 6) ascon_zero)) /\
  (forall O d i, fst (mrng_get O d i (mrng_new O d)) = 0) /\
  (forall O fuel P, exists masks, forall sk sk', length (sk_s sk) = p_l P ->
     sk_refresh O fuel P sk = Ok sk' -> sk_s sk' = pv_add (sk_s sk) masks).
Proof.
  repeat apply conj.
  - intros O d i n Hi. unfold mrng_get at 1. replace (d - 1 <=? i)%nat with false by lia. cbn [fst].
    rewrite (proj1 (mrng_stream O d i n Hi)). reflexivity.
  - intros O d i. unfold mrng_get. destruct (d - 1 <=? i)%nat; [reflexivity|]. cbn [fst]. rewrite mrng_new_eq, nth_repeat. reflexivity.
  - intros O fuel P. destruct (pv_zero_encoding O fuel (p_l P) (p_d P) (mrng_new O (p_d P))) as [[z m]| |] eqn:E.
    + exists z. intros sk sk' L H. unfold sk_refresh in H. rewrite pv_refresh_eq in H.
      replace (@length mpoly (sk_s sk)) with (p_l P) in H by (symmetry; exact L). rewrite E in H. cbn [bind] in H. inversion H. reflexivity.
    + exists []. intros sk sk' L H. unfold sk_refresh in H. rewrite pv_refresh_eq in H.
      replace (@length mpoly (sk_s sk)) with (p_l P) in H by (symmetry; exact L). rewrite E in H. discriminate.
    + exists []. intros sk sk' L H. unfold sk_refresh in H. rewrite pv_refresh_eq in H.
      replace (@length mpoly (sk_s sk)) with (p_l P) in H by (symmetry; exact L). rewrite E in H. discriminate.
Qed.

Lemma refresh_preserves O fuel P sk e : p_d P = (2 ^ e)%nat -> masked_vec49 (p_l P) (p_d P) (sk_s sk) ->
  sk_refresh O fuel P sk <> UB /\
  forall sk', sk_refresh O fuel P sk = Ok sk' ->
    sk_pkey sk' = sk_pkey sk /\
    map unmask (sk_s sk') = map unmask (sk_s sk) /\
    masked_vec49 (p_l P) (p_d P) (sk_s sk') /\
    (masked_vec (p_l P) (p_d P) (sk_s sk) -> masked_vec (p_l P) (p_d P) (sk_s sk')) /\
    (p_d P = 1%nat -> masked_vec (p_l P) (p_d P) (sk_s sk) -> sk' = sk).
Proof.
  intros Hd Hs. unfold sk_refresh.
  assert (P2 : pow2 (p_d P)) by (exists e; exact Hd).
  pose proof (pv_refresh_w O fuel (p_l P) (p_d P) (sk_s sk) (mrng_new O (p_d P)) P2 Hs) as W.
  destruct (pv_refresh O fuel (p_d P) (sk_s sk) (mrng_new O (p_d P))) as [[s m]| |] eqn:E; cbn [bind wp fst] in *.
  - split; [congruence|]. intros sk' H. inversion H; subst. cbn [sk_pkey sk_s]. destruct W as [W1 W2].
    repeat apply conj; [reflexivity|exact W2|exact (proj1 W1)|exact (proj2 W1)| |].
    + intros Hc. pose proof (pv_refresh_ok O fuel (p_l P) (p_d P) (sk_s sk) (mrng_new O (p_d P)) P2 Hc) as W'. rewrite E in W'. apply W'.
    + intros H1 Hc. rewrite H1 in *. rewrite (pv_refresh_1 O fuel (p_l P)) in E by exact Hc. inversion E. destruct sk; reflexivity.
  - contradiction.
  - split; [congruence|]. intros sk' H. discriminate.
Qed.

Lemma zero_encoding_zero O fuel e m :
  mp_zero_encoding O fuel (2 ^ e) m <> UB /\
  forall z m', mp_zero_encoding O fuel (2 ^ e) m = Ok (z, m') -> masked (2 ^ e) z /\ unmask z = ring_zero.
Proof.
  destruct (wp_split _ _ (mp_zero_encoding_ok O fuel (2 ^ e) m (pow2_e e))) as [H1 H2]. split; [exact H1|].
  intros z m' E. destruct (H2 _ E) as [A B]. split; [exact A|]. apply unmask_zero. exact B.
Qed.

(* ---------- homomorphic operations ---------- *)
Lemma concat_nth {A} (M : list (list A)) cols r c d : Forall (fun row => length row = cols) M -> (r < length M)%nat -> (c < cols)%nat ->
  nth (r * cols + c) (concat M) d = nth c (nth r M []) d.
Proof.
  revert r. induction M as [|row M IH]; intros r F Hr Hc; cbn [length] in Hr; [lia|]. inversion F; subst. cbn [concat].
  destruct r as [|r]; cbn [nth Nat.mul].
  - rewrite Nat.add_0_l. apply app_nth1. exact Hc.
  - rewrite app_nth2 by lia. replace (length row + r * length row + c - length row)%nat with (r * length row + c)%nat by lia.
    apply IH; [assumption|lia|exact Hc].
Qed.
Lemma concat_len {A} (M : list (list A)) cols : Forall (fun row => length row = cols) M -> length (concat M) = (length M * cols)%nat.
Proof. induction 1 as [|row M L F IH]; [reflexivity|]. cbn [concat length]. rewrite app_length, IH. cbn [Nat.mul]. lia. Qed.
Lemma mat_F_id (F G : list Z -> list Z) (FG : forall p, is_poly p -> G (F p) = p) rows cols (M : list (list (list Z))) :
  length M = rows -> Forall (fun row => length row = cols) M -> Forall (Forall is_poly) M ->
  map (fun r => map (fun c => G (mat_get cols (concat (map (map F) M)) r c)) (seq 0 cols)) (seq 0 rows) = M.
Proof.
  intros L FL FP. transitivity (map (fun r => nth r M []) (seq 0 rows)); [|apply map_seq_nth; exact L]. apply map_ext_in. intros r Hr. apply in_seq in Hr.
  assert (Lr : length (nth r M []) = cols) by (rewrite Forall_forall in FL; apply FL, nth_In; lia).
  assert (Fr : Forall is_poly (nth r M [])) by (rewrite Forall_forall in FP; apply FP, nth_In; lia).
  transitivity (map (fun c => nth c (nth r M []) []) (seq 0 cols)); [|apply map_seq_nth; exact Lr]. apply map_ext_in. intros c Hc. apply in_seq in Hc.
  unfold mat_get. rewrite concat_nth.
  - change (nth r (map (map F) M) []) with (nth r (map (map F) M) (map F [])). rewrite map_nth.
    rewrite (nth_indep _ [] (F [])) by (rewrite map_length; lia). rewrite map_nth. apply FG.
    rewrite Forall_forall in Fr. apply Fr, nth_In. lia.
  - apply Forall_map. apply (Forall_impl _ (fun row H => eq_trans (map_length F row) H) FL).
  - rewrite map_length. lia.
  - lia.
Qed.
Lemma mat_F_ok (F : list Z -> list Z) (FP : forall p, is_poly p -> is_poly (F p)) rows cols (M : list (list (list Z))) :
  length M = rows -> Forall (fun row => length row = cols) M -> Forall (Forall is_poly) M -> mat_ok rows cols (concat (map (map F) M)).
Proof.
  intros L FL F2. split.
  - rewrite (concat_len _ cols), map_length, L; [reflexivity|].
    apply Forall_map. apply (Forall_impl _ (fun row H => eq_trans (map_length F row) H) FL).
  - apply Forall_concat, Forall_map. apply (Forall_impl _ (fun row H => proj2 (Forall_map F is_poly row) (Forall_impl _ FP H)) F2).
Qed.
Lemma masked_hom :
  (forall d a b, masked49 d a -> masked d b -> unmask (mp_add a b) = ring_add (unmask a) (unmask b)) /\
  (forall d a, masked d a -> unmask (mp_ntt a) = ntt (unmask a) /\ unmask (mp_intt a) = intt (unmask a)) /\
  (forall k d v c, masked_vec k d v -> is_poly c ->
     map unmask (pv_intt (pv_mul_poly (pv_ntt v) (ntt c))) = map (fun p => ring_mul p c) (map unmask v)) /\
  (forall rows cols d A v, length A = rows -> Forall (fun row => length row = cols /\ Forall is_poly row) A -> masked_vec cols d v ->
     map unmask (pv_intt (mat_mul rows cols d (concat (map (map ntt) A)) (pv_ntt v))) = ring_matvec A (map unmask v)) /\
  (forall d a, masked d a -> mp_decode a = unmask a).
Proof.
  repeat apply conj.
  - intros d a b Ha Hb. apply (unmask_add d); assumption.
  - intros d a Ha. exact (conj (unmask_ntt d a Ha) (unmask_intt d a Ha)).
  - intros k d v c Hv Hc.
    pose proof (pv_ntt_ok k d v Hv) as Hn.
    destruct (pv_mul_poly_ok k d (pv_ntt v) (ntt c) (pv_ok_w _ _ _ Hn) (ntt_poly c Hc)) as [M1 M2].
    rewrite (pv_unmask_intt k d) by exact M1. rewrite M2. rewrite (pv_unmask_ntt k d) by exact Hv.
    rewrite !map_map. apply map_ext_in. intros a Ha.
    rewrite intt_pw_mul by (apply ntt_poly; try exact Hc; apply unmask_poly).
    rewrite !intt_ntt by (try exact Hc; apply unmask_poly). reflexivity.
  - intros rows cols d A v L FA Hv.
    assert (FL : Forall (fun row => length row = cols) A) by (apply (Forall_impl _ (fun row H => proj1 H) FA)).
    assert (FP : Forall (Forall is_poly) A) by (apply (Forall_impl _ (fun row H => proj2 H) FA)).
    pose proof (mat_F_ok ntt ntt_poly rows cols A L FL FP) as HA.
    etransitivity; [exact (mat_mul_intt rows cols d _ _ HA (pv_ntt_ok cols d v Hv))|].
    rewrite (pv_unmask_ntt cols d) by exact Hv.
    pose proof (mat_F_id ntt intt intt_ntt rows cols A L FL FP) as EM.
    change (ring_mat rows cols (concat (map (map ntt) A)) = A) in EM.
    transitivity (ring_matvec A (map intt (map ntt (map unmask v)))); [exact (f_equal (fun M => ring_matvec M (map intt (map ntt (map unmask v)))) EM)|].
    f_equal.
    rewrite map_map. rewrite <- (map_id (map unmask v)) at 2. apply map_ext_in. intros p Hp.
    apply in_map_iff in Hp. destruct Hp as (a & <- & _). apply intt_ntt, unmask_poly.
  - intros d a Ha. apply (mp_decode_unmask d). exact Ha.
Qed.
Lemma is_poly49_of p : is_poly p -> is_poly49 p.
Proof. apply is_poly_wpoly. Qed.
Lemma masked_matvec_coef rows cols d A v i k : length A = rows ->
  Forall (fun row => length row = cols /\ Forall is_poly row) A -> masked_vec cols d v ->
  coef (nth i (map unmask (pv_intt (mat_mul rows cols d (concat (map (map ntt) A)) (pv_ntt v)))) []) k
  = coef (nth i (ring_matvec A (map unmask v)) []) k.
Proof.
  intros L HA Hv. pose proof (proj1 (proj2 (proj2 (proj2 masked_hom))) rows cols d A v L HA Hv) as E.
  exact (f_equal (fun l => coef (nth i l []) k) E).
Qed.
Lemma ring_dot_1_coef a b k : (k < 512)%nat -> coef (ring_dot [a] [b]) k = (negacyclic_coef a b k mod q + 0) mod q.
Proof.
  intros Hk. unfold ring_dot. cbn [combine map fold_right]. rewrite coef_add by exact Hk. rewrite coef_ring_zero.
  unfold ring_mul. rewrite coef_map by exact Hk. reflexivity.
Qed.
