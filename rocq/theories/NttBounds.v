(* The checked transforms never leave the arrays and equal the unchecked ones. *)
From Coq Require Import ZArith Lia Bool List Arith.
From Coq Require Import ZifyBool ZifyNat.
From Verif Require Import ModelBase ModelU128 ModelField ModelUtils ModelPoly ModelVec ModelPolyChk.
From Verif Require Import Words FieldProofs BytesProofs PolyProofs NttLayers NttTable.
Import ListNotations.
Open Scope Z_scope.
Ltac Zify.zify_post_hook ::= idtac.

Lemma foldM_app {S A} (f : S -> A -> res S) l1 l2 s :
  foldM f (l1 ++ l2) s = (s' <- foldM f l1 s ;; foldM f l2 s').
Proof.
  revert s. induction l1 as [|a l1 IH]; intros s; [reflexivity|]. cbn [foldM app].
  destruct (f s a); cbn [bind]; [apply IH|reflexivity|reflexivity].
Qed.
Lemma foldM_Ok {S A} (I : S -> Prop) (f : S -> A -> res S) (g : S -> A -> S) l : forall s, I s ->
  (forall s a, In a l -> I s -> f s a = Ok (g s a) /\ I (g s a)) ->
  foldM f l s = Ok (fold_left g l s) /\ I (fold_left g l s).
Proof.
  induction l as [|a l IH]; intros s Hs H; [split; [reflexivity|exact Hs]|].
  cbn [foldM fold_left]. destruct (H s a (or_introl eq_refl) Hs) as [E H']. rewrite E. cbn [bind].
  apply IH; [exact H'|]. intros s' a' Ha. apply H. right. exact Ha.
Qed.
Lemma aget_Ok l i : (i < length l)%nat -> aget l (Z.of_nat i) = Ok (nth i l 0).
Proof. intros H. unfold aget, zlen. replace (_ && _) with true by lia. rewrite Nat2Z.id. reflexivity. Qed.
Lemma aset_Ok l i v : (i < length l)%nat -> aset l (Z.of_nat i) v = Ok (upd i v l).
Proof. intros H. unfold aset, zlen. replace (_ && _) with true by lia. rewrite Nat2Z.id. reflexivity. Qed.
Lemma add64_nat a b : (a + b < 4000)%nat -> add64 (Z.of_nat a) (Z.of_nat b) = Z.of_nat (a + b).
Proof. intros H. unfold add64, u64, two64. rewrite Z.mod_small by lia. lia. Qed.
Lemma sub64_nat a b : (b <= a)%nat -> (a < 4000)%nat -> sub64 (Z.of_nat a) (Z.of_nat b) = Z.of_nat (a - b).
Proof. intros H H2. unfold sub64, u64, two64. rewrite Z.mod_small by lia. lia. Qed.
Lemma shl64_nat l : (l <= 9)%nat -> shl64 1 (Z.of_nat l) = Z.of_nat (2 ^ l).
Proof.
  intros H. unfold shl64, u64. rewrite Z.shiftl_1_l.
  rewrite Nat2Z.inj_pow. change (Z.of_nat 2) with 2. apply Z.mod_small.
  split; [apply Z.pow_nonneg; lia|]. apply Z.le_lt_trans with (2 ^ 9); [apply Z.pow_le_mono_r; lia|reflexivity].
Qed.
Lemma shr64_nat a l : shr64 (Z.of_nat a) (Z.of_nat l) = Z.of_nat (a / 2 ^ l).
Proof.
  unfold shr64. rewrite Z.shiftr_div_pow2 by lia. rewrite Nat2Z.inj_div, Nat2Z.inj_pow. reflexivity.
Qed.
Lemma ntt_bf_chk z len p i : length p = 512%nat -> (i + len < 512)%nat ->
  ntt_butterfly_chk z (Z.of_nat len) p (Z.of_nat i) = Ok (ntt_butterfly z len p i).
Proof.
  intros Hp Hi. unfold ntt_butterfly_chk, ntt_butterfly. rewrite add64_nat by lia.
  rewrite aget_Ok by lia. cbn [bind]. rewrite aget_Ok by lia. cbn [bind].
  rewrite aset_Ok by lia. cbn [bind]. rewrite aget_Ok by (rewrite upd_length; lia). cbn [bind].
  rewrite aset_Ok by (rewrite upd_length; lia). reflexivity.
Qed.
Lemma intt_bf_chk z len p i : length p = 512%nat -> (i + len < 512)%nat ->
  intt_butterfly_chk z (Z.of_nat len) p (Z.of_nat i) = Ok (intt_butterfly z len p i).
Proof.
  intros Hp Hi. unfold intt_butterfly_chk, intt_butterfly. rewrite add64_nat by lia.
  rewrite !aget_Ok by lia. cbn [bind].
  rewrite aset_Ok by lia. cbn [bind]. rewrite aget_Ok by (rewrite upd_length; lia). cbn [bind].
  rewrite aset_Ok by (rewrite upd_length; lia). cbn [bind].
  rewrite aget_Ok by (rewrite !upd_length; lia). cbn [bind].
  rewrite aset_Ok by (rewrite !upd_length; lia). reflexivity.
Qed.
Lemma foldM_map {S A B} (f : S -> B -> res S) (h : A -> B) l s :
  foldM f (map h l) s = foldM (fun s a => f s (h a)) l s.
Proof. revert s. induction l as [|a l IH]; intros s; [reflexivity|]. cbn [foldM map].
  destruct (f s (h a)); cbn [bind]; [apply IH|reflexivity|reflexivity]. Qed.

Lemma start_range l start : (l <= 8)%nat -> In start (range_step PN (2 ^ l * 2)) ->
  exists b, (b < nblk l)%nat /\ start = (b * (2 * 2 ^ l))%nat /\ (start + 2 * 2 ^ l <= 512)%nat.
Proof.
  intros Hl H. rewrite range_step_layer in H by exact Hl. apply in_map_iff in H.
  destruct H as (b & <- & Hb). apply in_seq in Hb. exists b. repeat split; [lia|].
  rewrite <- (nblk_len l Hl). assert (b + 1 <= nblk l)%nat by lia.
  replace (b * (2 * 2 ^ l) + 2 * 2 ^ l)%nat with ((b + 1) * (2 * 2 ^ l))%nat by lia.
  apply Nat.mul_le_mono_r. lia.
Qed.
Lemma layer_chk (bf_chk : Z -> Z -> poly -> Z -> res poly) bf tab (kf : Z -> Z) (kn : nat -> nat) l p :
  (forall z len p i, length p = 512%nat -> (i + len < 512)%nat -> bf_chk z (Z.of_nat len) p (Z.of_nat i) = Ok (bf z len p i)) ->
  (forall z len p i, length (bf z len p i) = length p) ->
  length tab = 512%nat ->
  (l <= 8)%nat -> length p = 512%nat ->
  (forall b, (b < nblk l)%nat -> kf (Z.of_nat (b * (2 * 2 ^ l))) = Z.of_nat (kn (b * (2 * 2 ^ l))%nat) /\ (kn (b * (2 * 2 ^ l)) < 512)%nat) ->
  foldM (fun p start => z <- aget tab (kf start) ;;
           foldM (bf_chk z (shl64 1 (Z.of_nat l))) (map Z.of_nat (seq (Z.to_nat start) (Z.to_nat (shl64 1 (Z.of_nat l))))) p)
        (map Z.of_nat (range_step PN (Z.to_nat (shl64 (shl64 1 (Z.of_nat l)) 1)))) p
  = Ok (fold_left (fun p start => fold_left (bf (nth (kn start) tab 0) (2 ^ l)%nat) (seq start (2 ^ l)) p) (range_step PN (2 ^ l * 2)) p)
  /\ length (fold_left (fun p start => fold_left (bf (nth (kn start) tab 0) (2 ^ l)%nat) (seq start (2 ^ l)) p) (range_step PN (2 ^ l * 2)) p) = 512%nat.
Proof.
  intros Hbf Hlen Ht Hl Hp Hk. rewrite shl64_nat by lia. rewrite Nat2Z.id.
  replace (shl64 (Z.of_nat (2 ^ l)) 1) with (Z.of_nat (2 ^ l * 2)).
  2:{ unfold shl64, u64. rewrite Z.shiftl_mul_pow2 by lia. change (2 ^ 1) with 2.
      assert (2 ^ l <= 2 ^ 9)%nat by (apply Nat.pow_le_mono_r; lia). change (2 ^ 9)%nat with 512%nat in H.
      unfold two64. set (x := (2 ^ l)%nat) in *. clearbody x. rewrite Z.mod_small by lia. lia. }
  rewrite Nat2Z.id, foldM_map.
  apply (foldM_Ok (fun p => length p = 512%nat)); [exact Hp|].
  intros s start Hs Hls. destruct (start_range l start Hl Hs) as (b & Hb & -> & Hle).
  destruct (Hk b Hb) as [E Hkn]. rewrite E, aget_Ok by lia. cbn [bind]. rewrite Nat2Z.id, foldM_map.
  apply (foldM_Ok (fun p => length p = 512%nat)); [exact Hls|].
  intros s' i Hi Hs'. apply in_seq in Hi. split; [apply Hbf; [exact Hs'|lia]|]. rewrite Hlen. exact Hs'.
Qed.
Lemma blk_k l b : (l <= 8)%nat -> (b < nblk l)%nat ->
  shr64 (Z.of_nat (b * (2 * 2 ^ l))) (Z.of_nat l + 1) = Z.of_nat b.
Proof.
  intros Hl Hb. replace (Z.of_nat l + 1) with (Z.of_nat (l + 1)) by lia.
  rewrite shr64_nat, blk_div. reflexivity.
Qed.
Lemma k_half l : (l <= 8)%nat -> (512 / 2 ^ (l + 1) = nblk l)%nat.
Proof.
  intros Hl. replace (2 ^ (l + 1))%nat with (2 * 2 ^ l)%nat by (rewrite Nat.add_1_r; reflexivity).
  rewrite <- (nblk_len l Hl). apply Nat.div_mul. pose proof (pow2_nat_pos l). lia.
Qed.
Lemma k_full l : (l <= 8)%nat -> (512 / 2 ^ l = 2 * nblk l)%nat.
Proof.
  intros Hl. rewrite <- (nblk_len l Hl). replace (nblk l * (2 * 2 ^ l))%nat with (2 * nblk l * 2 ^ l)%nat by lia.
  apply Nat.div_mul. pose proof (pow2_nat_pos l). lia.
Qed.
Lemma nblk_le l : (1 <= nblk l <= 256)%nat.
Proof.
  unfold nblk. split; [pose proof (pow2_nat_pos (8 - l)); lia|].
  change 256%nat with (2 ^ 8)%nat. apply Nat.pow_le_mono_r; lia.
Qed.
Lemma npz_length : length neg_powers_of_zeta = 512%nat.
Proof. Transparent neg_powers_of_zeta. unfold neg_powers_of_zeta. rewrite map_length. apply pz_length. Opaque neg_powers_of_zeta. Qed.
Lemma ntt_layer_chk_ok l p : (l <= 8)%nat -> length p = 512%nat ->
  ntt_layer_chk l p = Ok (ntt_layer l p) /\ length (ntt_layer l p) = 512%nat.
Proof.
  intros Hl Hp.
  apply (layer_chk ntt_butterfly_chk ntt_butterfly powers_of_zeta
           (fun start => add64 (shr64 512 (Z.of_nat l + 1)) (shr64 start (Z.of_nat l + 1)))
           (fun start => (PN / 2 ^ (l + 1) + start / 2 ^ (l + 1))%nat)).
  - apply ntt_bf_chk.
  - apply ntt_bf_length.
  - apply pz_length.
  - exact Hl.
  - exact Hp.
  - intros b Hb. change PN with 512%nat. rewrite blk_k by assumption.
    rewrite blk_div, k_half by exact Hl. pose proof (nblk_le l).
    replace (shr64 512 (Z.of_nat l + 1)) with (Z.of_nat (nblk l)).
    + rewrite add64_nat by lia. split; [reflexivity|lia].
    + rewrite <- (k_half l Hl). rewrite <- shr64_nat. f_equal. lia.
Qed.
Lemma intt_layer_chk_ok l p : (l <= 8)%nat -> length p = 512%nat ->
  intt_layer_chk l p = Ok (intt_layer l p) /\ length (intt_layer l p) = 512%nat.
Proof.
  intros Hl Hp.
  apply (layer_chk intt_butterfly_chk intt_butterfly neg_powers_of_zeta
           (fun start => sub64 (sub64 (shr64 512 (Z.of_nat l)) 1) (shr64 start (Z.of_nat l + 1)))
           (fun start => (PN / 2 ^ l - 1 - start / 2 ^ (l + 1))%nat)).
  - apply intt_bf_chk.
  - apply intt_bf_length.
  - apply npz_length.
  - exact Hl.
  - exact Hp.
  - intros b Hb. change PN with 512%nat. rewrite blk_k by assumption.
    rewrite blk_div, k_full by exact Hl. pose proof (nblk_le l).
    replace (shr64 512 (Z.of_nat l)) with (Z.of_nat (2 * nblk l)).
    + change 1 with (Z.of_nat 1). rewrite sub64_nat by lia. rewrite sub64_nat by lia. split; [reflexivity|lia].
    + rewrite <- (k_full l Hl). rewrite <- shr64_nat. reflexivity.
Qed.
Lemma ntt_chk_ok p : length p = 512%nat -> ntt_chk p = Ok (ntt p).
Proof.
  intros Hp. unfold ntt_chk, ntt.
  apply (foldM_Ok (fun p => length p = 512%nat)); [exact Hp|].
  intros s l Hl Hs. apply ntt_layer_chk_ok; [|exact Hs]. apply in_rev, in_seq in Hl.
  change LOG2N with 9%nat in Hl. lia.
Qed.
Lemma scale_chk c p : foldM (fun p i => x <- aget p i ;; aset p i (zq_mul x c)) (map Z.of_nat (seq 0 (length p))) p
  = Ok (map (fun x => zq_mul x c) p).
Proof.
  rewrite foldM_map.
  assert (L : forall n, (n <= length p)%nat ->
    foldM (fun p i => x <- aget p (Z.of_nat i) ;; aset p (Z.of_nat i) (zq_mul x c)) (seq 0 n) p
    = Ok (map (fun x => zq_mul x c) (firstn n p) ++ skipn n p)).
  { induction n as [|n IH]; intros Hn; [reflexivity|].
    rewrite seq_S, foldM_app, IH by lia. cbn [bind foldM]. rewrite Nat.add_0_l.
    set (s := map _ (firstn n p)). assert (Ls : length s = n) by (unfold s; rewrite map_length, firstn_length; lia).
    destruct (skipn n p) as [|x t] eqn:E.
    { apply (f_equal (@length Z)) in E. rewrite skipn_length in E. cbn in E. lia. }
    rewrite aget_Ok by (rewrite app_length; cbn [length]; lia). cbn [bind].
    rewrite aset_Ok by (rewrite app_length; cbn [length]; lia). cbn [bind].
    rewrite app_nth2 by lia. rewrite Ls, Nat.sub_diag. cbn [nth].
    assert (N : nth n p 0 = x).
    { rewrite <- (firstn_skipn n p). rewrite app_nth2 by (rewrite firstn_length; lia).
      rewrite firstn_length, Nat.min_l by lia. rewrite Nat.sub_diag, E. reflexivity. }
    rewrite (firstn_S_nth 0) by lia. rewrite map_app, N. cbn [map].
    fold s. f_equal. rewrite <- app_assoc. cbn [app].
    replace (skipn (S n) p) with t.
    2:{ replace (S n) with (n + 1)%nat by lia. rewrite <- skipn_skipn', E. reflexivity. }
    clearbody s. clear -Ls. subst n. induction s as [|y s IHs]; [reflexivity|]. cbn [length app upd]. f_equal. exact IHs. }
  rewrite L by lia. rewrite firstn_all, skipn_all, app_nil_r. reflexivity.
Qed.
Lemma intt_chk_ok p : length p = 512%nat -> intt_chk p = Ok (intt p).
Proof.
  intros Hp. unfold intt_chk, intt.
  destruct (foldM_Ok (fun p : poly => length p = 512%nat) (fun (p : poly) (l : nat) => intt_layer_chk l p) (fun (p : poly) l => intt_layer l p) (seq 0 LOG2N) p Hp) as [E L].
  { intros s l Hl Hs. apply intt_layer_chk_ok; [|exact Hs]. apply in_seq in Hl. change LOG2N with 9%nat in Hl. lia. }
  rewrite E. cbn [bind]. set (s := fold_left _ _ _) in *. clearbody s.
  change PN with 512%nat. rewrite <- L. apply scale_chk.
Qed.
