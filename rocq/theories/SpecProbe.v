(* Specification of what an observer of single values (probes) inside the refreshing of shares sees.
   Nothing here refers to the model of the code. *)
From Coq Require Import ZArith List Bool.
From Verif Require Import Spec SpecMask.
Import ListNotations.
Open Scope Z_scope.

(* share k of the zero sharing after the first n masks *)
Definition accumulator (e : nat) (rs : list (list Z)) (n k : nat) : list Z :=
  map (fun c => mask_coef k c (firstn n (combine (mask_pairs e) rs)) mod q) (seq 0 512).
(* the values inside refreshing: input shares, masks, shares of the zero sharing at any time *)
Inductive wire := wire_input (k : nat) | wire_mask (n : nat) | wire_acc (n k : nat).
Definition wire_ok (e : nat) (w : wire) : Prop :=
  match w with
  | wire_input k => (k < 2 ^ e)%nat
  | wire_mask n => (n < length (mask_pairs e))%nat
  | wire_acc n k => (n <= length (mask_pairs e) /\ k < 2 ^ e)%nat
  end.
Definition wire_value (e : nat) (x rs : list (list Z)) (w : wire) : list Z :=
  match w with
  | wire_input k => nth k x []
  | wire_mask n => nth n rs []
  | wire_acc n k => accumulator e rs n k
  end.
