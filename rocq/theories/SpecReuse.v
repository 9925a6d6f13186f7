(* Specification of the attempt that signing returns. Nothing here refers to the model of the code. *)
From Coq Require Import ZArith List.
From Verif Require Import Spec SpecScheme SpecSig SpecVerify.
Import ListNotations.
Open Scope Z_scope.

(* attempt n (counted from 0) is the first acceptable one, with challenge hash c, challenge polynomial cp and
   signature (c, h, z) *)
Definition first_accepted (H : list Z -> nat -> Z) (T : nat -> Z) (p : param_row) (A : list (list (list Z)))
           (t s : list (list Z)) (mu : list Z) (n : nat) (c cp h z : list Z) : Prop :=
  sign_attempt H T p A t s mu n c cp h z /\ acceptable p c h z /\
  forall i, (i < n)%nat -> exists c cp h z, sign_attempt H T p A t s mu i c cp h z /\ ~ acceptable p c h z.
(* row by row difference of two responses, in the ring *)
Definition response_difference (l : nat) (z z' : list Z) : list (list Z) :=
  zipw ring_sub (map to_ring (rows_of_flat l z)) (map to_ring (rows_of_flat l z')).
