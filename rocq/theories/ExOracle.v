(* A concrete instance of the external code, used only by the non-vacuity examples. *)
From Coq Require Import ZArith Lia Bool List Arith.
From Coq Require Import ZifyBool ZifyNat.
From Coq Require Strings.Byte.
From Verif Require Import ModelBase ModelU128 ModelField ModelUtils ModelPoly ModelVec.
From Verif Require Import Spec.
From Verif Require Import ArithLemmas FieldProofs Words SampleProofs.
Import ListNotations.
Open Scope Z_scope.
Ltac Zify.zify_post_hook ::= idtac.

Definition ex_byte (x : Z) : byte :=
  match Byte.of_N (Z.to_N (x mod 256)) with Some b => b | None => x00 end.
Lemma ex_byte_val x : byteZ (ex_byte x) = x mod 256.
Proof.
  unfold ex_byte, byteZ. pose proof (Z.mod_pos_bound x 256 eq_refl) as B.
  destruct (Byte.of_N (Z.to_N (x mod 256))) as [b|] eqn:E.
  - apply Byte.to_of_N in E. rewrite E. rewrite Z2N.id by lia. reflexivity.
  - apply Byte.of_N_None_iff in E. lia.
Qed.

(* "SHAKE256": byte i of the output for message m is (|m| + i) mod 128; "Ascon": the first word
   counts up. *)
Definition ex_O : oracles := {|
  shake256 := fun m i => ex_byte ((Z.of_nat (length m) + Z.of_nat i) mod 128);
  ascon_permute := fun _ st => Ascon (a0 st + 1) (a1 st) (a2 st) (a3 st) (a4 st);
  ascon80pq_iv := 0
|}.
Definition ex_tape (i : nat) : byte := ex_byte (Z.of_nat i * 77 + 5).

Lemma ex_hash_val m i : hash_of ex_O m i = (Z.of_nat (length m) + Z.of_nat i) mod 128.
Proof.
  unfold hash_of, ex_O, shake256. rewrite ex_byte_val.
  pose proof (Z.mod_pos_bound (Z.of_nat (length m) + Z.of_nat i) 128 eq_refl). apply Z.mod_small. lia.
Qed.
Lemma small_bytes_candidate (S : nat -> Z) t : (forall i, 0 <= S i < 128) -> candidate49 S t < q.
Proof.
  intros H. unfold candidate49, stream_bytes. cbn [seq map le_value].
  pose proof (H (7 * t)%nat). pose proof (H (Datatypes.S (7 * t))). pose proof (H (Datatypes.S (Datatypes.S (7 * t)))).
  pose proof (H (Datatypes.S (Datatypes.S (Datatypes.S (7 * t))))).
  pose proof (H (Datatypes.S (Datatypes.S (Datatypes.S (Datatypes.S (7 * t)))))).
  pose proof (H (Datatypes.S (Datatypes.S (Datatypes.S (Datatypes.S (Datatypes.S (7 * t))))))).
  set (b0 := S (7 * t)%nat) in *. set (b1 := S (Datatypes.S (7 * t))) in *.
  set (b2 := S (Datatypes.S (Datatypes.S (7 * t)))) in *.
  set (b3 := S (Datatypes.S (Datatypes.S (Datatypes.S (7 * t))))) in *.
  set (b4 := S (Datatypes.S (Datatypes.S (Datatypes.S (Datatypes.S (7 * t)))))) in *.
  set (b5 := S (Datatypes.S (Datatypes.S (Datatypes.S (Datatypes.S (Datatypes.S (7 * t))))))) in *.
  set (b6 := S (Datatypes.S (Datatypes.S (Datatypes.S (Datatypes.S (Datatypes.S (Datatypes.S (7 * t)))))))) in *.
  clearbody b0 b1 b2 b3 b4 b5 b6.
  set (lo := b0 + 256 * (b1 + 256 * (b2 + 256 * (b3 + 256 * (b4 + 256 * b5))))).
  assert (L : 0 <= lo < 140737488355328) by (unfold lo; lia).
  replace (b0 + 256 * (b1 + 256 * (b2 + 256 * (b3 + 256 * (b4 + 256 * (b5 + 256 * (b6 + 256 * 0)))))))
    with (lo + 2 ^ 48 * b6) by (unfold lo; change (2 ^ 48) with 281474976710656; ring).
  clearbody lo. change (2 ^ 49) with (2 ^ 48 * 2). rewrite Z.rem_mul_r by (try discriminate; reflexivity).
  rewrite (Z.mul_comm (2 ^ 48) b6), Z.mod_add, Z.div_add by discriminate.
  rewrite (Z.mod_small lo), (Z.div_small lo) by (change (2 ^ 48) with 281474976710656; lia).
  pose proof (Z.mod_pos_bound (0 + b6) 2 eq_refl). change (2 ^ 48) with 281474976710656.
  rewrite q_Q, Q_val. lia.
Qed.
Lemma filter_all {A} (f : A -> bool) l : (forall x, In x l -> f x = true) -> filter f l = l.
Proof.
  induction l as [|x l IH]; intros H; [reflexivity|]. cbn [filter]. rewrite H by (left; reflexivity). f_equal. apply IH.
  intros y Hy. apply H. right. exact Hy.
Qed.
Lemma ex_accepted m n : accepted49 (hash_of ex_O m) n = map (candidate49 (hash_of ex_O m)) (seq 0 n).
Proof.
  unfold accepted49. apply filter_all. intros x Hx. apply in_map_iff in Hx. destruct Hx as (t & <- & _).
  apply Z.ltb_lt, small_bytes_candidate. intros i. rewrite ex_hash_val. apply Z.mod_pos_bound. reflexivity.
Qed.
Lemma ex_sampleQ fuel hdr sigma : (512 <= fuel)%nat ->
  sampleQ ex_O fuel hdr sigma = Ok (map (candidate49 (hash_of ex_O (hdr ++ sigma))) (seq 0 512)).
Proof.
  intros H. rewrite sampleQ_eq, ex_accepted. unfold take512. rewrite map_length, seq_length.
  replace (512 <=? fuel)%nat with true by lia. f_equal. rewrite firstn_map. f_equal.
  replace fuel with (512 + (fuel - 512))%nat by lia. rewrite seq_app, firstn_app, seq_length, Nat.sub_diag, firstn_O, app_nil_r.
  apply firstn_all2. rewrite seq_length. lia.
Qed.
