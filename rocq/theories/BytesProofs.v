(* Bytes, bit strings, little-endian conversion, span helpers. *)
From Coq Require Import ZArith Lia Bool List Arith.
From Coq Require Import ZifyBool ZifyNat.
From Verif Require Import ModelBase ModelU128 ModelField ModelUtils Words.
From Verif Require Import Spec.
Import ListNotations.
Open Scope Z_scope.
Ltac Zify.zify_post_hook ::= idtac.

Lemma pow_pos2 n : 0 < 2 ^ Z.of_nat n.
Proof. apply Z.pow_pos_nonneg; lia. Qed.
Lemma pow2_S n : 2 ^ Z.of_nat (S n) = 2 * 2 ^ Z.of_nat n.
Proof. rewrite Nat2Z.inj_succ, Z.pow_succ_r by lia. reflexivity. Qed.
Lemma pow256_S n : 256 ^ Z.of_nat (S n) = 256 * 256 ^ Z.of_nat n.
Proof. rewrite Nat2Z.inj_succ, Z.pow_succ_r by lia. reflexivity. Qed.
Lemma pow256_pos n : 0 < 256 ^ Z.of_nat n.
Proof. apply Z.pow_pos_nonneg; lia. Qed.
Lemma pow256_2 n : 0 <= n -> 256 ^ n = 2 ^ (8 * n).
Proof. intros H. rewrite Z.pow_mul_r by lia. reflexivity. Qed.

(* ---------- little-endian values ---------- *)
Lemma le_value_app a b : le_value (a ++ b) = le_value a + 256 ^ zlen a * le_value b.
Proof.
  unfold zlen. induction a as [|x a IH].
  - cbn [app le_value length]. change (256 ^ Z.of_nat 0) with 1. lia.
  - cbn [app le_value length]. rewrite IH, pow256_S. ring.
Qed.
Lemma le_value_range l : Forall is_byte l -> 0 <= le_value l < 256 ^ zlen l.
Proof.
  unfold zlen. induction 1 as [|x l Hx Hl IH]; cbn [le_value length].
  - change (256 ^ Z.of_nat 0) with 1. lia.
  - rewrite pow256_S. unfold is_byte in Hx. lia.
Qed.
Lemma Forall_firstn {A} (P : A -> Prop) n l : Forall P l -> Forall P (firstn n l).
Proof. intros H. rewrite Forall_forall in *. intros x Hx. apply H. rewrite <- (firstn_skipn n l). apply in_or_app. left. exact Hx. Qed.
Lemma Forall_skipn {A} (P : A -> Prop) n l : Forall P l -> Forall P (skipn n l).
Proof. intros H. rewrite Forall_forall in *. intros x Hx. apply H. rewrite <- (firstn_skipn n l). apply in_or_app. right. exact Hx. Qed.
Lemma Forall_nth_d {A} (P : A -> Prop) l d i : Forall P l -> P d -> P (nth i l d).
Proof.
  intros H Hd. destruct (lt_dec i (length l)) as [L|L].
  - rewrite Forall_forall in H. apply H. apply nth_In. exact L.
  - rewrite nth_overflow by lia. exact Hd.
Qed.
Lemma firstn_S_nth {A} (d : A) n l : (n < length l)%nat -> firstn (S n) l = firstn n l ++ [nth n l d].
Proof.
  revert n. induction l as [|x l IH]; intros n H; cbn [length] in H; [lia|].
  destruct n as [|n]; [reflexivity|]. rewrite firstn_cons, (IH n) by lia. reflexivity.
Qed.

Lemma from_le_fold l : Forall is_byte l -> forall n, (n <= length l)%nat ->
  fold_left (fun r i => Z.lor r (Z.shiftl (nth i l 0) (8 * Z.of_nat i))) (seq 0 n) 0
  = le_value (firstn n l).
Proof.
  intros H. induction n as [|n IH]; intros Hn; [reflexivity|].
  rewrite seq_S, fold_left_app, IH by lia. cbn [fold_left Nat.add].
  rewrite (firstn_S_nth 0) by lia. rewrite le_value_app. cbn [le_value].
  rewrite Z.shiftl_mul_pow2 by lia.
  pose proof (le_value_range (firstn n l) (Forall_firstn _ n l H)) as R.
  unfold zlen in *. rewrite firstn_length_le in * by lia. rewrite pow256_2 in * by lia.
  rewrite lor_disjoint by lia. ring.
Qed.
Lemma from_le_bytes_spec sz l : Forall is_byte l -> from_le_bytes sz l = le_value (firstn sz l).
Proof.
  intros H. unfold from_le_bytes. rewrite from_le_fold by (try assumption; lia).
  destruct (le_dec sz (length l)) as [L|L].
  - rewrite Nat.min_l by lia. reflexivity.
  - rewrite Nat.min_r by lia. rewrite !firstn_all2 by lia. reflexivity.
Qed.

(* the n low-order bytes of v *)
Definition le_bytes (n : nat) (v : Z) : list Z :=
  map (fun i => (v / 256 ^ Z.of_nat i) mod 256) (seq 0 n).
Lemma le_bytes_length n v : length (le_bytes n v) = n.
Proof. unfold le_bytes. rewrite map_length, seq_length. reflexivity. Qed.
Lemma le_bytes_byte n v : Forall is_byte (le_bytes n v).
Proof.
  unfold le_bytes. rewrite Forall_forall. intros x Hx. apply in_map_iff in Hx.
  destruct Hx as (i & <- & _). apply Z.mod_pos_bound. lia.
Qed.
Lemma le_bytes_value n v : le_value (le_bytes n v) = v mod 256 ^ Z.of_nat n.
Proof.
  unfold le_bytes. induction n as [|n IH].
  - cbn. rewrite Z.mod_1_r. reflexivity.
  - rewrite seq_S, map_app, le_value_app, IH. cbn [map le_value Nat.add].
    unfold zlen. rewrite map_length, seq_length. rewrite pow256_S.
    rewrite (Z.mul_comm 256 (256 ^ Z.of_nat n)). pose proof (pow256_pos n).
    rewrite Z.rem_mul_r by lia. ring.
Qed.
Lemma to_le_bytes_spec v bytes : to_le_bytes v bytes
  = le_bytes (Nat.min 8 (length bytes)) v ++ skipn (Nat.min 8 (length bytes)) bytes.
Proof.
  unfold to_le_bytes, le_bytes. f_equal. apply map_ext. intros i.
  rewrite shr64_spec by lia. rewrite pow256_2 by lia. reflexivity.
Qed.

Lemma le_value_inj a b : Forall is_byte a -> Forall is_byte b -> length a = length b ->
  le_value a = le_value b -> a = b.
Proof.
  intros Ha. revert b. induction Ha as [|x a Hx Ha IH]; intros [|y b] Hb L E;
    cbn [length le_value] in *; try lia; [reflexivity|].
  inversion Hb as [|? ? Hy Hb']; subst. unfold is_byte in *.
  pose proof (le_value_range a Ha). pose proof (le_value_range b Hb').
  assert (x = y /\ le_value a = le_value b) as [-> E'] by lia.
  f_equal. apply IH; [assumption|lia|assumption].
Qed.
Lemma le_bytes_le_value l : Forall is_byte l -> le_bytes (length l) (le_value l) = l.
Proof.
  intros H. apply le_value_inj; [apply le_bytes_byte|assumption|apply le_bytes_length|].
  rewrite le_bytes_value. apply Z.mod_small. apply (le_value_range l H).
Qed.

(* ---------- byte array comparison ---------- *)
Lemma ct_eq_fold a b : forall n, (n <= length a)%nat -> (n <= length b)%nat ->
  fold_left (fun r i => Z.land r (ct_eq32 (nth i a 0) (nth i b 0))) (seq 0 n) 4294967295
  = if list_eq_dec Z.eq_dec (firstn n a) (firstn n b) then 4294967295 else 0.
Proof.
  induction n as [|n IH]; intros Ha Hb; [reflexivity|].
  rewrite seq_S, fold_left_app, IH by lia. cbn [fold_left Nat.add].
  rewrite !(firstn_S_nth 0) by lia. unfold ct_eq32.
  destruct (list_eq_dec Z.eq_dec (firstn n a) (firstn n b)) as [E|E].
  - destruct (nth n a 0 =? nth n b 0) eqn:E2.
    + destruct (list_eq_dec _ _ _) as [_|N]; [reflexivity|].
      exfalso. apply N. rewrite E. f_equal. f_equal. lia.
    + destruct (list_eq_dec _ _ _) as [N|_]; [|reflexivity].
      apply app_inj_tail in N. lia.
  - destruct (list_eq_dec _ _ _) as [N|_]; [apply app_inj_tail in N; tauto|].
    destruct (nth n a 0 =? nth n b 0); reflexivity.
Qed.
Lemma ct_eq_byte_array_spec a b : length a = length b ->
  ct_eq_byte_array a b = if list_eq_dec Z.eq_dec a b then 4294967295 else 0.
Proof.
  intros L. unfold ct_eq_byte_array. rewrite ct_eq_fold by lia.
  rewrite !firstn_all2 by lia. reflexivity.
Qed.

(* ---------- bit strings ---------- *)
Lemma bits_of_length n x : length (bits_of n x) = n.
Proof. revert x. induction n; intros; cbn [bits_of length]; [reflexivity|]. now rewrite IHn. Qed.
Lemma bits_of_app n m x : bits_of (n + m) x = bits_of n x ++ bits_of m (x / 2 ^ Z.of_nat n).
Proof.
  revert x. induction n as [|n IH]; intros x.
  - cbn [Nat.add bits_of app]. change (2 ^ Z.of_nat 0) with 1. rewrite Z.div_1_r. reflexivity.
  - cbn [Nat.add bits_of app]. rewrite IH. f_equal. f_equal. f_equal.
    rewrite pow2_S. rewrite Z.div_div by (pose proof (pow_pos2 n); lia). reflexivity.
Qed.
Lemma odd_b2z x : Z.b2z (Z.odd x) = x mod 2.
Proof. rewrite Zmod_odd. destruct (Z.odd x); reflexivity. Qed.
Lemma bits_value_bits_of n x : bits_value (bits_of n x) = x mod 2 ^ Z.of_nat n.
Proof.
  revert x. induction n as [|n IH]; intros x.
  - cbn. rewrite Z.mod_1_r. reflexivity.
  - cbn [bits_of bits_value]. rewrite IH, odd_b2z, pow2_S.
    rewrite Z.rem_mul_r by (pose proof (pow_pos2 n); lia). reflexivity.
Qed.
Lemma bits_value_range l : 0 <= bits_value l < 2 ^ zlen l.
Proof.
  unfold zlen. induction l as [|b l IH]; cbn [bits_value length].
  - change (2 ^ Z.of_nat 0) with 1. lia.
  - rewrite pow2_S. destruct b; cbn [Z.b2z]; lia.
Qed.
Lemma bits_value_app a b : bits_value (a ++ b) = bits_value a + 2 ^ zlen a * bits_value b.
Proof.
  unfold zlen. induction a as [|x a IH].
  - cbn [app bits_value length]. change (2 ^ Z.of_nat 0) with 1. lia.
  - cbn [app bits_value length]. rewrite IH, pow2_S. ring.
Qed.
Lemma bits_of_bits_value l : bits_of (length l) (bits_value l) = l.
Proof.
  induction l as [|b l IH]; cbn [length bits_of bits_value]; [reflexivity|].
  f_equal.
  - rewrite Z.odd_add_mul_2. destruct b; reflexivity.
  - replace ((Z.b2z b + 2 * bits_value l) / 2) with (bits_value l); [exact IH|].
    apply Z.div_unique with (Z.b2z b); [destruct b; cbn; lia|lia].
Qed.
Lemma bits_value_inj a b : length a = length b -> bits_value a = bits_value b -> a = b.
Proof. intros L E. rewrite <- (bits_of_bits_value a), <- (bits_of_bits_value b), L, E. reflexivity. Qed.
Lemma bits_of_mod n x : bits_of n (x mod 2 ^ Z.of_nat n) = bits_of n x.
Proof. rewrite <- bits_value_bits_of. rewrite <- (bits_of_length n x) at 1. apply bits_of_bits_value. Qed.
Lemma bits_of_mod_ge n m x : Z.of_nat n <= m -> bits_of n (x mod 2 ^ m) = bits_of n x.
Proof.
  intros H. rewrite <- (bits_of_mod n (x mod 2 ^ m)), <- (bits_of_mod n x). f_equal.
  replace m with (Z.of_nat n + (m - Z.of_nat n)) by lia. rewrite Z.pow_add_r by lia.
  assert (0 < 2 ^ (m - Z.of_nat n)) by (apply Z.pow_pos_nonneg; lia).
  pose proof (pow_pos2 n). rewrite Z.rem_mul_r by lia.
  rewrite Z.mul_comm, Z_mod_plus_full, Zmod_mod. reflexivity.
Qed.

Lemma bits_of_bytes_length l : length (bits_of_bytes l) = (8 * length l)%nat.
Proof.
  unfold bits_of_bytes. induction l as [|b l IH]; [reflexivity|].
  cbn [map concat]. rewrite app_length, IH, bits_of_length. cbn [length]. lia.
Qed.
Lemma bits_of_bytes_app a b : bits_of_bytes (a ++ b) = bits_of_bytes a ++ bits_of_bytes b.
Proof. unfold bits_of_bytes. rewrite map_app, concat_app. reflexivity. Qed.
Lemma bits_value_bytes l : Forall is_byte l -> bits_value (bits_of_bytes l) = le_value l.
Proof.
  unfold bits_of_bytes. induction 1 as [|b l Hb Hl IH]; [reflexivity|].
  cbn [map concat le_value]. rewrite bits_value_app, IH, bits_value_bits_of.
  unfold zlen. rewrite bits_of_length. change (2 ^ Z.of_nat 8) with 256.
  unfold is_byte in Hb. rewrite Z.mod_small by lia. reflexivity.
Qed.
Lemma bits_of_bytes_le l n : Forall is_byte l -> n = (8 * length l)%nat -> bits_of n (le_value l) = bits_of_bytes l.
Proof.
  intros H ->. rewrite <- bits_value_bytes by assumption. rewrite <- bits_of_bytes_length.
  apply bits_of_bits_value.
Qed.
Lemma bits_of_bytes_inj a b : Forall is_byte a -> Forall is_byte b ->
  bits_of_bytes a = bits_of_bytes b -> a = b.
Proof.
  intros Ha Hb E. apply le_value_inj; try assumption.
  - apply (f_equal (@length bool)) in E. rewrite !bits_of_bytes_length in E. lia.
  - rewrite <- !bits_value_bytes by assumption. rewrite E. reflexivity.
Qed.
Lemma bits_of_le_bytes n v : bits_of_bytes (le_bytes n v) = bits_of (8 * n) v.
Proof.
  rewrite <- (bits_of_bytes_le (le_bytes n v) (8 * n)).
  - rewrite le_bytes_value. rewrite pow256_2 by lia.
    replace (8 * Z.of_nat n) with (Z.of_nat (8 * n)) by lia. apply bits_of_mod.
  - apply le_bytes_byte.
  - rewrite le_bytes_length. reflexivity.
Qed.
Lemma bits_of_bytes_zero n : bits_of_bytes (repeat 0 n) = repeat false (8 * n).
Proof.
  induction n as [|n IH]; [reflexivity|]. replace (8 * S n)%nat with (8 + 8 * n)%nat by lia.
  rewrite repeat_app, <- IH. reflexivity.
Qed.
Lemma bits_value_zeros n : bits_value (repeat false n) = 0.
Proof. induction n as [|n IH]; [reflexivity|]. cbn [repeat bits_value Z.b2z]. rewrite IH. reflexivity. Qed.
Lemma bits_of_0 n : bits_of n 0 = repeat false n.
Proof. induction n as [|n IH]; [reflexivity|]. cbn [bits_of repeat]. change (0 / 2) with 0. rewrite IH. reflexivity. Qed.

(* ---------- spans ---------- *)
Lemma zlen_nonneg {A} (l : list A) : 0 <= zlen l.
Proof. unfold zlen. lia. Qed.
Lemma zlen_app {A} (a b : list A) : zlen (a ++ b) = zlen a + zlen b.
Proof. unfold zlen. rewrite app_length. lia. Qed.
Lemma zlen_cons {A} x (a : list A) : zlen (x :: a) = 1 + zlen a.
Proof. unfold zlen. cbn [length]. lia. Qed.
Lemma zlen_nil {A} : zlen (@nil A) = 0.
Proof. reflexivity. Qed.
Lemma subspan_Ok {A} (l : list A) off n : 0 <= off -> 0 <= n -> off + n <= zlen l ->
  subspan l off n = Ok (firstn (Z.to_nat n) (skipn (Z.to_nat off) l)).
Proof. intros. unfold subspan. replace (_ && _ && _) with true by lia. reflexivity. Qed.
Lemma subspan_app {A} (a b c : list A) off n : off = zlen a -> n = zlen b ->
  subspan (a ++ b ++ c) off n = Ok b.
Proof.
  intros -> ->. rewrite subspan_Ok by (rewrite ?zlen_app; unfold zlen; lia).
  unfold zlen. rewrite !Nat2Z.id. rewrite skipn_app, skipn_all, Nat.sub_diag. cbn [app skipn].
  rewrite firstn_app, Nat.sub_diag, firstn_O, app_nil_r, firstn_all. reflexivity.
Qed.
Lemma subspan_inv {A} (l r : list A) off n : subspan l off n = Ok r ->
  0 <= off /\ 0 <= n /\ off + n <= zlen l /\ zlen r = n /\
  exists a c, l = a ++ r ++ c /\ zlen a = off.
Proof.
  unfold subspan. destruct (_ && _ && _) eqn:E; [|discriminate]. intros H.
  injection H as <-. assert (H1 : 0 <= off) by lia. assert (H2 : 0 <= n) by lia.
  assert (H3 : off + n <= zlen l) by lia. clear E. unfold zlen in *.
  repeat split; try assumption.
  - rewrite firstn_length, skipn_length. lia.
  - exists (firstn (Z.to_nat off) l), (skipn (Z.to_nat n) (skipn (Z.to_nat off) l)).
    rewrite (firstn_skipn (Z.to_nat n)), firstn_skipn. split; [reflexivity|].
    rewrite firstn_length. lia.
Qed.
Lemma write_at_app {A} (a b c v : list A) off : off = zlen a -> zlen v = zlen b ->
  write_at (a ++ b ++ c) off v = Ok (a ++ v ++ c).
Proof.
  intros -> E. unfold write_at.
  replace (_ && _) with true by (rewrite ?zlen_app; unfold zlen in *; lia).
  unfold zlen in *. rewrite Nat2Z.id. f_equal.
  rewrite firstn_app, firstn_all, Nat.sub_diag, firstn_O, app_nil_r. f_equal. f_equal.
  rewrite skipn_app. rewrite skipn_all2 by lia. cbn [app].
  replace (length a + length v - length a)%nat with (length b) by lia.
  rewrite skipn_app, skipn_all, Nat.sub_diag. reflexivity.
Qed.
Lemma skipn_skipn' {A} (l : list A) n m : skipn n (skipn m l) = skipn (m + n) l.
Proof.
  revert l. induction m as [|m IH]; intros l; [reflexivity|].
  destruct l as [|x l]; [rewrite !skipn_nil; reflexivity|]. apply IH.
Qed.
Lemma write_at_inv {A} (l r v : list A) off : write_at l off v = Ok r ->
  exists a b c, l = a ++ b ++ c /\ zlen a = off /\ zlen b = zlen v /\ r = a ++ v ++ c.
Proof.
  unfold write_at. destruct (_ && _) eqn:E; [|discriminate]. intros H. injection H as <-.
  assert (H1 : 0 <= off) by lia. assert (H3 : off + zlen v <= zlen l) by lia. clear E.
  exists (firstn (Z.to_nat off) l), (firstn (length v) (skipn (Z.to_nat off) l)),
         (skipn (length v) (skipn (Z.to_nat off) l)).
  unfold zlen in *. repeat split.
  - rewrite !firstn_skipn. reflexivity.
  - rewrite firstn_length. lia.
  - rewrite firstn_length, skipn_length. lia.
  - f_equal. f_equal. rewrite skipn_skipn'. f_equal.
Qed.
Lemma split3 {A} (l : list A) (i n : nat) : (i + n <= length l)%nat ->
  exists a b c, l = a ++ b ++ c /\ length a = i /\ length b = n.
Proof.
  intros H. exists (firstn i l), (firstn n (skipn i l)), (skipn n (skipn i l)).
  rewrite !firstn_skipn. rewrite !firstn_length, skipn_length. repeat split; lia.
Qed.
