(* Specification for "the sampler is unbiased": a bijection of byte streams that permutes the prefixes
   of every length (in chunks of m bytes) preserves the uniform distribution on streams. *)
From Coq Require Import ZArith List Bool.
From Verif Require Import Spec.
Import ListNotations.
Open Scope Z_scope.

Definition byte_stream (S : nat -> Z) : Prop := forall i, is_byte (S i).
(* the first t chunks of the output depend on the first t chunks of the input only *)
Definition causal (m : nat) (F : (nat -> Z) -> nat -> Z) : Prop :=
  forall t S S', (forall i, (i < m * t)%nat -> S i = S' i) -> forall i, (i < m * t)%nat -> F S i = F S' i.
(* F is a bijection of byte streams with inverse G, and so are its restrictions to prefixes of t
   chunks of m bytes, for every t *)
Definition stream_bijection (m : nat) (F G : (nat -> Z) -> nat -> Z) : Prop :=
  causal m F /\ causal m G /\
  forall S, byte_stream S -> byte_stream (F S) /\ byte_stream (G S) /\
    (forall i, G (F S) i = S i) /\ (forall i, F (G S) i = S i).
(* a polynomial with omega coefficients 1 or q - 1, all others 0 *)
Definition ternary (omega : nat) (c : list Z) : Prop :=
  length c = 512%nat /\ Forall (fun x => x = 0 \/ x = 1 \/ x = q - 1) c /\
  length (filter (fun x => negb (x =? 0)) c) = omega.
