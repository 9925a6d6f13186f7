(* Specification of rare events. Nothing here refers to the model of the code. *)
From Coq Require Import ZArith List.
From Verif Require Import Spec.
Import ListNotations.
Open Scope Z_scope.

(* ws are different byte strings of length n, and at most the fraction num / den of all 256^n such strings: if the n bytes
   of a stream are uniform and independent, the probability that they are in ws is at most num / den *)
Definition rare (ws : list (list Z)) (n : nat) (num den : Z) : Prop :=
  NoDup ws /\ Forall (fun w => Forall is_byte w /\ length w = n) ws /\
  0 < den /\ Z.of_nat (length ws) * den <= num * 256 ^ Z.of_nat n.
