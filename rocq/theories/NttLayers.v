(* Closed form of one layer of ntt / intt. *)
From Coq Require Import ZArith Lia Bool List Arith.
From Coq Require Import ZifyBool ZifyNat.
From Verif Require Import ModelBase ModelU128 ModelField ModelUtils ModelPoly.
From Verif Require Import Words FieldProofs BytesProofs PolyProofs.
Import ListNotations.
Open Scope Z_scope.
Ltac Zify.zify_post_hook ::= idtac.

Lemma upd_length {A} i (v : A) l : length (upd i v l) = length l.
Proof. revert i. induction l as [|x l IH]; intros [|i]; cbn [upd length]; try reflexivity. now rewrite IH. Qed.
Lemma upd_nth_eq {A} i (v : A) l d : (i < length l)%nat -> nth i (upd i v l) d = v.
Proof. revert i. induction l as [|x l IH]; intros [|i] H; cbn [upd length nth] in *; try lia; [reflexivity|]. apply IH. lia. Qed.
Lemma upd_nth_neq {A} i j (v : A) l d : i <> j -> nth j (upd i v l) d = nth j l d.
Proof.
  revert i j. induction l as [|x l IH]; intros [|i] [|j] H; cbn [upd nth]; try reflexivity; try lia.
  apply IH. lia.
Qed.
Lemma upd_nth {A} i j (v : A) l d : (i < length l)%nat ->
  nth j (upd i v l) d = if (j =? i)%nat then v else nth j l d.
Proof.
  intros H. destruct (j =? i)%nat eqn:E.
  - apply Nat.eqb_eq in E. subst. apply upd_nth_eq. exact H.
  - apply Nat.eqb_neq in E. apply upd_nth_neq. lia.
Qed.

Section Pass.
  Variable bf : Z -> nat -> list Z -> nat -> list Z.
  Variables F G : Z -> Z -> Z -> Z.
  Hypothesis bf_length : forall z len p i, length (bf z len p i) = length p.
  Hypothesis bf_nth : forall z len p i j, (0 < len)%nat -> (i + len < length p)%nat ->
    nth j (bf z len p i) 0 =
      if (j =? i)%nat then F z (nth i p 0) (nth (i + len) p 0)
      else if (j =? i + len)%nat then G z (nth i p 0) (nth (i + len) p 0)
      else nth j p 0.

  Lemma inner_length z len n start p : length (fold_left (bf z len) (seq start n) p) = length p.
  Proof.
    induction n as [|n IH]; [reflexivity|]. rewrite seq_S, fold_left_app. cbn [fold_left].
    rewrite bf_length. exact IH.
  Qed.
  Lemma inner_nth z len start p : (0 < len)%nat -> (start + 2 * len <= length p)%nat ->
    forall n j, (n <= len)%nat ->
    nth j (fold_left (bf z len) (seq start n) p) 0 =
      if (start <=? j)%nat && (j <? start + n)%nat then F z (nth j p 0) (nth (j + len) p 0)
      else if (start + len <=? j)%nat && (j <? start + len + n)%nat
           then G z (nth (j - len) p 0) (nth j p 0)
      else nth j p 0.
  Proof.
    intros Hl Hs. induction n as [|n IH]; intros j Hn.
    - cbn [seq fold_left].
      replace ((start <=? j)%nat && (j <? start + 0)%nat) with false by lia.
      replace ((start + len <=? j)%nat && (j <? start + len + 0)%nat) with false by lia. reflexivity.
    - rewrite seq_S, fold_left_app. cbn [fold_left].
      rewrite bf_nth by (rewrite ?inner_length; lia).
      rewrite !IH by lia.
      replace ((start <=? start + n)%nat && (start + n <? start + n)%nat) with false by lia.
      replace ((start + len <=? start + n)%nat && (start + n <? start + len + n)%nat) with false by lia.
      replace ((start <=? start + n + len)%nat && (start + n + len <? start + n)%nat) with false by lia.
      replace ((start + len <=? start + n + len)%nat && (start + n + len <? start + len + n)%nat) with false by lia.
      destruct (j =? start + n)%nat eqn:E1.
      { apply Nat.eqb_eq in E1. subst j.
        replace ((start <=? start + n)%nat && (start + n <? start + S n)%nat) with true by lia. reflexivity. }
      destruct (j =? start + n + len)%nat eqn:E2.
      { apply Nat.eqb_eq in E2. subst j.
        replace ((start <=? start + n + len)%nat && (start + n + len <? start + S n)%nat) with false by lia.
        replace ((start + len <=? start + n + len)%nat && (start + n + len <? start + len + S n)%nat) with true by lia.
        replace (start + n + len - len)%nat with (start + n)%nat by lia. reflexivity. }
      replace ((start <=? j)%nat && (j <? start + S n)%nat) with ((start <=? j)%nat && (j <? start + n)%nat) by lia.
      replace ((start + len <=? j)%nat && (j <? start + len + S n)%nat)
        with ((start + len <=? j)%nat && (j <? start + len + n)%nat) by lia.
      reflexivity.
  Qed.

  (* z depends on the start index of the block *)
  Variable zf : nat -> Z.
  Definition pass_coef (len : nat) (p : list Z) (j : nat) : Z :=
    let start := (j / (2 * len) * (2 * len))%nat in
    if (j mod (2 * len) <? len)%nat
    then F (zf start) (nth j p 0) (nth (j + len) p 0)
    else G (zf start) (nth (j - len) p 0) (nth j p 0).

  Lemma outer_length len nb p :
    length (fold_left (fun p start => fold_left (bf (zf start) len) (seq start len) p)
                      (map (fun b => (b * (2 * len))%nat) (seq 0 nb)) p) = length p.
  Proof.
    induction nb as [|nb IH]; [reflexivity|]. rewrite seq_S, map_app, fold_left_app.
    cbn [map fold_left]. rewrite inner_length. exact IH.
  Qed.
  Lemma outer_nth len p : (0 < len)%nat ->
    forall nb j, (nb * (2 * len) <= length p)%nat ->
    nth j (fold_left (fun p start => fold_left (bf (zf start) len) (seq start len) p)
                     (map (fun b => (b * (2 * len))%nat) (seq 0 nb)) p) 0 =
    if (j <? nb * (2 * len))%nat then pass_coef len p j else nth j p 0.
  Proof.
    intros Hl. induction nb as [|nb IH]; intros j Hn.
    - cbn [seq map fold_left]. replace (j <? 0 * (2 * len))%nat with false by lia. reflexivity.
    - rewrite seq_S, map_app, fold_left_app. cbn [map fold_left].
      rewrite inner_nth by (rewrite ?outer_length; lia).
      rewrite !IH by lia. rewrite !Nat.add_0_l.
      assert (DM : (j < S nb * (2 * len))%nat -> (nb * (2 * len) <= j)%nat ->
                   (j / (2 * len) = nb /\ j mod (2 * len) = j - nb * (2 * len))%nat).
      { intros H1 H2.
        assert (E : (j / (2 * len) = nb)%nat) by (symmetry; apply Nat.div_unique with (j - nb * (2 * len))%nat; lia).
        split; [exact E|]. pose proof (Nat.div_mod j (2 * len) ltac:(lia)) as D. rewrite E in D. lia. }
      destruct (j <? nb * (2 * len))%nat eqn:E1.
      { replace (_ && _) with false by lia.
        replace ((nb * (2 * len) + len <=? j)%nat && (j <? nb * (2 * len) + len + len)%nat) with false by lia.
        replace (j <? S nb * (2 * len))%nat with true by lia. reflexivity. }
      destruct (j <? S nb * (2 * len))%nat eqn:E2.
      + destruct DM as [D1 D2]; [lia|lia|]. unfold pass_coef. rewrite D1, D2.
        replace (j + len <? nb * (2 * len))%nat with false by lia.
        destruct (j <? nb * (2 * len) + len)%nat eqn:E3.
        * replace (_ && _) with true by lia.
          replace (j - nb * (2 * len) <? len)%nat with true by lia. reflexivity.
        * replace ((nb * (2 * len) <=? j)%nat && false) with false by lia.
          replace ((nb * (2 * len) + len <=? j)%nat && (j <? nb * (2 * len) + len + len)%nat) with true by lia.
          replace (j - nb * (2 * len) <? len)%nat with false by lia.
          replace (j - len <? nb * (2 * len))%nat with false by lia. reflexivity.
      + replace ((nb * (2 * len) <=? j)%nat && (j <? nb * (2 * len) + len)%nat) with false by lia.
        replace ((nb * (2 * len) + len <=? j)%nat && (j <? nb * (2 * len) + len + len)%nat) with false by lia.
        reflexivity.
  Qed.
  Lemma pass_closed len nb p : (0 < len)%nat -> length p = 512%nat -> (nb * (2 * len) = 512)%nat ->
    fold_left (fun p start => fold_left (bf (zf start) len) (seq start len) p)
              (map (fun b => (b * (2 * len))%nat) (seq 0 nb)) p
    = map (pass_coef len p) (seq 0 512).
  Proof.
    intros Hl Hp Hn. apply (nth_ext _ _ 0 0).
    - rewrite outer_length, map_length, seq_length. exact Hp.
    - intros j Hj. rewrite outer_length in Hj. rewrite nth_map_seq by lia.
      rewrite outer_nth by lia. replace (j <? nb * (2 * len))%nat with true by lia. reflexivity.
  Qed.
End Pass.

Definition ntt_F (z x y : Z) : Z := zq_add x (zq_mul z y).
Definition ntt_G (z x y : Z) : Z := zq_sub x (zq_mul z y).
Definition intt_F (_ x y : Z) : Z := zq_add x y.
Definition intt_G (z x y : Z) : Z := zq_mul (zq_sub x y) z.

Lemma ntt_bf_length z len p i : length (ntt_butterfly z len p i) = length p.
Proof. unfold ntt_butterfly. rewrite !upd_length. reflexivity. Qed.
Lemma ntt_bf_nth z len p i j : (0 < len)%nat -> (i + len < length p)%nat ->
    nth j (ntt_butterfly z len p i) 0 =
      if (j =? i)%nat then ntt_F z (nth i p 0) (nth (i + len) p 0)
      else if (j =? i + len)%nat then ntt_G z (nth i p 0) (nth (i + len) p 0)
      else nth j p 0.
Proof.
  intros Hl Hi. unfold ntt_butterfly. rewrite upd_nth by (rewrite upd_length; lia).
  rewrite !upd_nth by lia. replace (i =? i + len)%nat with false by lia. reflexivity.
Qed.
Lemma intt_bf_length z len p i : length (intt_butterfly z len p i) = length p.
Proof. unfold intt_butterfly. rewrite !upd_length. reflexivity. Qed.
Lemma intt_bf_nth z len p i j : (0 < len)%nat -> (i + len < length p)%nat ->
    nth j (intt_butterfly z len p i) 0 =
      if (j =? i)%nat then intt_F z (nth i p 0) (nth (i + len) p 0)
      else if (j =? i + len)%nat then intt_G z (nth i p 0) (nth (i + len) p 0)
      else nth j p 0.
Proof.
  intros Hl Hi. unfold intt_butterfly. cbv zeta.
  rewrite upd_nth by (rewrite !upd_length; lia).
  rewrite (upd_nth (i + len) j) by (rewrite !upd_length; lia).
  rewrite (upd_nth (i + len) (i + len)) by (rewrite !upd_length; lia).
  rewrite (upd_nth i j) by lia. rewrite (upd_nth i (i + len)) by lia. rewrite Nat.eqb_refl.
  replace (i + len =? i)%nat with false by lia.
  destruct (j =? i + len)%nat eqn:E1.
  - replace (j =? i)%nat with false by lia. unfold intt_G. reflexivity.
  - destruct (j =? i)%nat; reflexivity.
Qed.

(* blocks: number of blocks of layer l *)
Definition nblk (l : nat) : nat := (2 ^ (8 - l))%nat.
Lemma nblk_len l : (l <= 8)%nat -> (nblk l * (2 * 2 ^ l) = 512)%nat.
Proof.
  intros H. unfold nblk. replace (2 * 2 ^ l)%nat with (2 ^ (S l))%nat by reflexivity.
  rewrite <- Nat.pow_add_r. replace (8 - l + S l)%nat with 9%nat by lia. reflexivity.
Qed.
Lemma range_step_layer l : (l <= 8)%nat ->
  range_step PN (2 ^ l * 2) = map (fun b => (b * (2 * 2 ^ l))%nat) (seq 0 (nblk l)).
Proof.
  intros H. unfold range_step. rewrite (Nat.mul_comm (2 ^ l) 2).
  replace ((PN + 2 * 2 ^ l - 1) / (2 * 2 ^ l))%nat with (nblk l); [reflexivity|].
  pose proof (nblk_len l H) as E. change PN with 512%nat. rewrite <- E.
  assert (0 < 2 ^ l)%nat by (apply Nat.neq_0_lt_0, Nat.pow_nonzero; lia).
  apply Nat.div_unique with (2 * 2 ^ l - 1)%nat; lia.
Qed.
Lemma pow2_nat_pos l : (0 < 2 ^ l)%nat.
Proof. apply Nat.neq_0_lt_0, Nat.pow_nonzero; lia. Qed.

(* table entry of the block starting at [start] *)
Definition ntt_z (l start : nat) : Z := nth (PN / 2 ^ (l + 1) + start / 2 ^ (l + 1)) powers_of_zeta 0.
Definition intt_z (l start : nat) : Z := nth (PN / 2 ^ l - 1 - start / 2 ^ (l + 1)) neg_powers_of_zeta 0.
Lemma ntt_layer_closed l p : (l <= 8)%nat -> length p = 512%nat ->
  ntt_layer l p = map (pass_coef ntt_F ntt_G (ntt_z l) (2 ^ l) p) (seq 0 512).
Proof.
  intros Hl Hp. unfold ntt_layer. cbv zeta. rewrite range_step_layer by lia.
  apply (pass_closed ntt_butterfly ntt_F ntt_G ntt_bf_length ntt_bf_nth (ntt_z l)).
  - apply pow2_nat_pos.
  - exact Hp.
  - apply nblk_len. exact Hl.
Qed.
Lemma intt_layer_closed l p : (l <= 8)%nat -> length p = 512%nat ->
  intt_layer l p = map (pass_coef intt_F intt_G (intt_z l) (2 ^ l) p) (seq 0 512).
Proof.
  intros Hl Hp. unfold intt_layer. cbv zeta. rewrite range_step_layer by lia.
  apply (pass_closed intt_butterfly intt_F intt_G intt_bf_length intt_bf_nth (intt_z l)).
  - apply pow2_nat_pos.
  - exact Hp.
  - apply nblk_len. exact Hl.
Qed.
(* the table indices in terms of the block number *)
Lemma blk_div l b : (b * (2 * 2 ^ l) / 2 ^ (l + 1) = b)%nat.
Proof.
  replace (2 ^ (l + 1))%nat with (2 * 2 ^ l)%nat by (rewrite Nat.add_1_r; reflexivity).
  apply Nat.div_mul. pose proof (pow2_nat_pos l). lia.
Qed.
Lemma ntt_z_blk l b : (l <= 8)%nat ->
  ntt_z l (b * (2 * 2 ^ l)) = nth (nblk l + b) powers_of_zeta 0.
Proof.
  intros Hl. unfold ntt_z. rewrite blk_div. f_equal. f_equal.
  replace (2 ^ (l + 1))%nat with (2 * 2 ^ l)%nat by (rewrite Nat.add_1_r; reflexivity).
  change PN with 512%nat. rewrite <- (nblk_len l Hl). apply Nat.div_mul.
  pose proof (pow2_nat_pos l). lia.
Qed.
Lemma intt_z_blk l b : (l <= 8)%nat ->
  intt_z l (b * (2 * 2 ^ l)) = nth (2 * nblk l - 1 - b) neg_powers_of_zeta 0.
Proof.
  intros Hl. unfold intt_z. rewrite blk_div. f_equal. f_equal. f_equal.
  change PN with 512%nat. rewrite <- (nblk_len l Hl).
  replace (nblk l * (2 * 2 ^ l))%nat with (2 * nblk l * 2 ^ l)%nat by lia.
  apply Nat.div_mul. pose proof (pow2_nat_pos l). lia.
Qed.
