(* Specification: what a sequence of single-byte stores leaves in a buffer, and which byte strings are
   beginnings of the encoding of a signature candidate (bits_of_bytes, sig_code: SpecScheme.v). *)
From Coq Require Import ZArith List.
From Verif Require Import Spec SpecScheme.
Import ListNotations.
Open Scope Z_scope.

Fixpoint set_nth (l : list Z) (i : nat) (v : Z) : list Z :=
  match l, i with
  | [], _ => []
  | _ :: l, O => v :: l
  | x :: l, S i => x :: set_nth l i v
  end.
(* the buffer after the stores (index, byte), in order *)
Definition replay (lg : list (Z * Z)) (buf : list Z) : list Z :=
  fold_left (fun b e => set_nth b (Z.to_nat (fst e)) (snd e)) lg buf.
(* the stores go to the indices 0, 1, 2, ..., each once *)
Definition in_order (lg : list (Z * Z)) : Prop := map fst lg = map Z.of_nat (seq 0 (length lg)).
(* bytes are the first bytes of: the challenge hash, the bit codes of h and z, zero padding *)
Definition begins_encoding (c h z bytes : list Z) : Prop :=
  exists rest n, bits_of_bytes bytes ++ rest = bits_of_bytes c ++ sig_code h z ++ repeat false n.
