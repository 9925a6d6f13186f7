(* Specification of the values inside add_rep_noise: in every repetition one noise polynomial is added to each
   share, then the shares are refreshed.  Nothing here refers to the model of the code. *)
From Coq Require Import ZArith List Bool.
From Verif Require Import Spec SpecMask SpecProbe.
Import ListNotations.
Open Scope Z_scope.

(* shares before repetition i; us i: the noise of repetition i, one polynomial per share; rss i: its masks *)
Fixpoint noise_state (e : nat) (x : list (list Z)) (us rss : nat -> list (list Z)) (i : nat) : list (list Z) :=
  match i with
  | 0%nat => x
  | S i => add_masks e (tuple_add (noise_state e x us rss i) (us i)) (rss i)
  end.
(* what can be observed: shares before a repetition, noise polynomials, everything inside the refreshing of the
   shares with the noise added *)
Inductive nwire := nw_share (i k : nat) | nw_noise (i k : nat) | nw_refresh (i : nat) (w : wire).
Definition nwire_ok (e rep : nat) (w : nwire) : Prop :=
  match w with
  | nw_share i k | nw_noise i k => (i < rep /\ k < 2 ^ e)%nat
  | nw_refresh i w => (i < rep)%nat /\ wire_ok e w
  end.
Definition nwire_value (e : nat) (x : list (list Z)) (us rss : nat -> list (list Z)) (w : nwire) : list Z :=
  match w with
  | nw_share i k => nth k (noise_state e x us rss i) []
  | nw_noise i k => nth k (us i) []
  | nw_refresh i w => wire_value e (tuple_add (noise_state e x us rss i) (us i)) (rss i) w
  end.
(* families of tuples added componentwise *)
Definition family_add (f g : nat -> list (list Z)) (i : nat) : list (list Z) := tuple_add (f i) (g i).
(* the noise of repetition i: share j receives the samples of its own stream *)
Definition noise_family (H : list Z -> nat -> Z) (T : nat -> Z) (u : Z) (kb d row pos i : nat) : list (list Z) :=
  map (fun j => map (fun c => noise_sample (noise_stream H T kb d row pos i j) u c mod q) (seq 0 512)) (seq 0 d).
(* the sum of all noise polynomials of n repetitions *)
Fixpoint noise_total (v : nat -> list (list Z)) (n : nat) : list Z :=
  match n with
  | 0%nat => ring_zero
  | S n => ring_add (noise_total v n) (unmask (v n))
  end.
