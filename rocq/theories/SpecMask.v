(* Specification for the refreshing of shares with 2^e shares: which pairs of shares receive opposite
   masks, and what the shares are afterwards.  Nothing here refers to the model of the code. *)
From Coq Require Import ZArith List Bool.
From Verif Require Import Spec.
Import ListNotations.
Open Scope Z_scope.

(* round m: shares at distance 2^m, block after block of 2^(m+1) shares *)
Definition round_pairs (e m : nat) : list (nat * nat) :=
  concat (map (fun b => map (fun j => (b * (2 * 2 ^ m) + j, b * (2 * 2 ^ m) + j + 2 ^ m)%nat) (seq 0 (2 ^ m)))
              (seq 0 (2 ^ (e - 1 - m)))).
Definition mask_pairs (e : nat) : list (nat * nat) := concat (map (round_pairs e) (seq 0 e)).

(* one reduced mask polynomial per pair *)
Definition mask_tuple (e : nat) (rs : list (list Z)) : Prop :=
  length rs = length (mask_pairs e) /\ Forall is_poly rs.

(* what share k receives in coefficient c: plus the mask of every pair that starts with k, minus the
   mask of every pair that ends with k *)
Fixpoint mask_coef (k c : nat) (ms : list ((nat * nat) * list Z)) : Z :=
  match ms with
  | [] => 0
  | ((i, j), r) :: ms =>
      (if Nat.eqb k i then coef r c else 0) - (if Nat.eqb k j then coef r c else 0) + mask_coef k c ms
  end.
(* the shares after all masks were added *)
Definition add_masks (e : nat) (a rs : list (list Z)) : list (list Z) :=
  map (fun k => map (fun c => (coef (nth k a []) c + mask_coef k c (combine (mask_pairs e) rs)) mod q) (seq 0 512))
      (seq 0 (2 ^ e)).

(* tuples of masks added componentwise *)
Definition tuple_add (rs ss : list (list Z)) : list (list Z) := map (fun '(r, s) => ring_add r s) (combine rs ss).
(* two sharings with the same shares at all positions but p *)
Definition agree_except (p d : nat) (a v : list (list Z)) : Prop :=
  forall k, (k < d)%nat -> k <> p -> nth k a [] = nth k v [].
