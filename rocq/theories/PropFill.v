(* Property theorem about fill_with of a masked polynomial. *)
From Coq Require Import ZArith List Bool Lia.
From Verif Require Import ModelBase ModelU128 ModelField ModelUtils ModelPoly ModelVec ModelMore.
From Verif Require Import Spec.
From Verif Require Import FieldProofs ArithLemmas PolyProofs PolyLemmas MaskedProofs.
Import ListNotations.
Open Scope Z_scope.

Lemma fold_same v n : fold_right Z.add 0 (repeat v n) = Z.of_nat n * v.
Proof. induction n as [|n IH]; [reflexivity|]. cbn [repeat fold_right]. rewrite IH. lia. Qed.
Lemma map_seq_const {A} (x : A) n : forall i, map (fun _ => x) (seq i n) = repeat x n.
Proof. induction n as [|n IH]; intros i; [reflexivity|]. cbn [seq map repeat]. rewrite IH. reflexivity. Qed.
Lemma unmask_fill v n : unmask (repeat (repeat v 512) n) = repeat ((Z.of_nat n * v) mod q) 512.
Proof.
  unfold unmask. transitivity (map (fun _ : nat => (Z.of_nat n * v) mod q) (seq 0 512)); [|apply map_seq_const].
  apply map_ext_in. intros k Hk. apply in_seq in Hk. rewrite <- fold_same. f_equal. f_equal.
  assert (E : coef (repeat v 512) k = v) by (apply (repeat_spec 512 v), nth_In; rewrite repeat_length; lia).
  revert E. generalize (repeat v 512). intros r E. clear Hk. induction n as [|n IH]; [reflexivity|]. cbn [repeat map]. rewrite IH, E. reflexivity.
Qed.

(* C74: fill_with(v) writes v into every coefficient of each of the d shares.  The polynomial that the shares then represent has every
   coefficient d v mod q: decode() returns that, and it is v only if (d - 1) v is a multiple of q -- for d shares, 2 <= d < q, only if v = 0. *)
Theorem C74_masked_fill : forall d v a, length a = d -> 0 <= v < q ->
  mp_fill_with v a = repeat (repeat v 512) d /\
  unmask (mp_fill_with v a) = repeat ((Z.of_nat d * v) mod q) 512 /\
  mp_decode (mp_fill_with v a) = repeat ((Z.of_nat d * v) mod q) 512 /\
  (mp_decode (mp_fill_with v a) = repeat v 512 <-> ((Z.of_nat d - 1) * v) mod q = 0).
Proof.
  intros d v a <- Hv. assert (E : mp_fill_with v a = repeat (repeat v 512) (length a)).
  { unfold mp_fill_with. change (poly_fill v) with (repeat v 512). generalize (repeat v 512). intros r. clear. induction a as [|x a IH]; [reflexivity|]. cbn [map length repeat]. rewrite IH. reflexivity. }
  assert (D : mp_decode (mp_fill_with v a) = repeat ((Z.of_nat (length a) * v) mod q) 512).
  { rewrite E, <- unmask_fill. apply (mp_decode_unmask (length a)). split; [apply repeat_length|]. apply Forall_forall. intros p Hp. apply repeat_spec in Hp. subst p.
    split; [apply repeat_length|]. apply Forall_forall. intros x Hx. apply repeat_spec in Hx. subst x. exact Hv. }
  split; [exact E|]. split; [rewrite E; apply unmask_fill|]. split; [exact D|]. rewrite D. generalize (Z.of_nat (length a)). clear - Hv. intros n.
  assert (X : repeat ((n * v) mod q) 512 = repeat v 512 <-> (n * v) mod q = v).
  { split; [intros H; exact (f_equal (fun l => nth 0 l 0) H)|intros ->; reflexivity]. }
  rewrite X. clear X. replace (n * v) with ((n - 1) * v + v) by ring. generalize ((n - 1) * v). clear n. intros w. split; intros H.
  - apply (f_equal (fun x => (x - v) mod q)) in H. rewrite Zminus_mod_idemp_l, Z.sub_diag, Zmod_0_l in H. replace (w + v - v) with w in H by ring. exact H.
  - rewrite <- Zplus_mod_idemp_l, H, Z.add_0_l. apply Z.mod_small. exact Hv.
Qed.
Print Assumptions C74_masked_fill.
(* two shares filled with 1 represent 2; filled with 0 they represent 0 *)
Example C74_nonvacuous :
  coef (mp_decode (mp_fill_with 1 [poly_zero; poly_zero])) 7 = 2 /\ coef (mp_decode (mp_fill_with 1 [poly_zero])) 7 = 1.
Proof.
  assert (H : 0 <= 1 < q) by (rewrite q_Q, Q_val; split; [discriminate|reflexivity]).
  split.
  - destruct (C74_masked_fill 2 1 [poly_zero; poly_zero] eq_refl H) as (_ & _ & -> & _). rewrite q_Q, Q_val. reflexivity.
  - destruct (C74_masked_fill 1 1 [poly_zero] eq_refl H) as (_ & _ & -> & _). rewrite q_Q, Q_val. reflexivity.
Qed.
