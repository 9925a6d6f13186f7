(* Specification of the values inside a masked LWE sample (secret, A * secret + error), as computed by key
   generation and by the commitment step of signing, and of the values inside a signing attempt.  Nothing here
   refers to the model of the code.  All values are ring elements; the code holds some of them transformed,
   which is a bijection. *)
From Coq Require Import ZArith List Bool.
From Verif Require Import Spec SpecMask SpecProbe SpecNoiseProbe.
Import ListNotations.
Open Scope Z_scope.

(* noise polynomials: row, repetition -> one per share; for the secret and for the error *)
Record lwe_noise := LNoise { n_s : nat -> nat -> list (list Z); n_e : nat -> nat -> list (list Z) }.
(* masks: of the zero sharing the secret starts from, of the refreshings *)
Record lwe_masks := LMasks { m_zero : nat -> list (list Z); m_s : nat -> nat -> list (list Z); m_e : nat -> nat -> list (list Z) }.
Definition noise_ok (e rep l k : nat) (N : lwe_noise) : Prop :=
  (forall j i, (j < l)%nat -> (i < rep)%nat -> masked (2 ^ e) (n_s N j i)) /\ (forall j i, (j < k)%nat -> (i < rep)%nat -> masked (2 ^ e) (n_e N j i)).
Definition masks_ok (e rep l k : nat) (M : lwe_masks) : Prop :=
  (forall j, (j < l)%nat -> mask_tuple e (m_zero M j)) /\ (forall j i, (j < l)%nat -> (i < rep)%nat -> mask_tuple e (m_s M j i)) /\
  (forall j i, (j < k)%nat -> (i < rep)%nat -> mask_tuple e (m_e M j i)).
Definition noise_plus (N N' : lwe_noise) : lwe_noise :=
  LNoise (fun j => family_add (n_s N j) (n_s N' j)) (fun j => family_add (n_e N j) (n_e N' j)).
Definition masks_plus (M M' : lwe_masks) : lwe_masks :=
  LMasks (fun j => tuple_add (m_zero M j) (m_zero M' j)) (fun j => family_add (m_s M j) (m_s M' j)) (fun j => family_add (m_e M j) (m_e M' j)).

(* row j of the secret: a sharing of zero, then noise *)
Definition start_row (e : nat) (M : lwe_masks) (j : nat) : list (list Z) := add_masks e (repeat ring_zero (2 ^ e)) (m_zero M j).
Definition secret_row (e rep : nat) (N : lwe_noise) (M : lwe_masks) (j : nat) : list (list Z) :=
  noise_state e (start_row e M j) (n_s N j) (m_s M j) rep.
(* share kk of all l rows *)
Definition share_vec (l : nat) (s : nat -> list (list Z)) (kk : nat) : list (list Z) := map (fun j => nth kk (s j) []) (seq 0 l).
(* row i of the matrix times the secret, share by share *)
Definition product_row (e l : nat) (A : list (list (list Z))) (s : nat -> list (list Z)) (i : nat) : list (list Z) :=
  map (fun kk => ring_dot (nth i A []) (share_vec l s kk)) (seq 0 (2 ^ e)).
(* row i of the sample: noise added *)
Definition sample_row (e l rep : nat) (A : list (list (list Z))) (N : lwe_noise) (M : lwe_masks) (i : nat) : list (list Z) :=
  noise_state e (product_row e l A (secret_row e rep N M) i) (n_e N i) (m_e M i) rep.

(* what can be observed: values inside the zero sharings, inside the noise additions of the secret, one share of
   the whole secret vector with everything computed from this share alone, values inside the noise additions of
   the product *)
Inductive lwire := lw_zero (j : nat) (w : wire) | lw_secret (j : nat) (w : nwire) | lw_share (kk : nat) | lw_error (i : nat) (w : nwire).
Definition lwire_ok (e rep l k : nat) (w : lwire) : Prop :=
  match w with
  | lw_zero j w => (j < l)%nat /\ wire_ok e w
  | lw_secret j w => (j < l)%nat /\ nwire_ok e rep w
  | lw_share kk => (kk < 2 ^ e)%nat
  | lw_error i w => (i < k)%nat /\ nwire_ok e rep w
  end.
Definition lwire_value (e l rep : nat) (A : list (list (list Z))) (N : lwe_noise) (M : lwe_masks) (w : lwire) : list (list Z) :=
  match w with
  | lw_zero j w => [wire_value e (repeat ring_zero (2 ^ e)) (m_zero M j) w]
  | lw_secret j w => [nwire_value e (start_row e M j) (n_s N j) (m_s M j) w]
  | lw_share kk => share_vec l (secret_row e rep N M) kk
  | lw_error i w => [nwire_value e (product_row e l A (secret_row e rep N M) i) (n_e N i) (m_e M i) w]
  end.
(* the value the noise contributes to row i of the sample *)
Definition sample_total (l rep : nat) (A : list (list (list Z))) (N : lwe_noise) (i : nat) : list Z :=
  ring_add (ring_dot (nth i A []) (map (fun j => noise_total (n_s N j) rep) (seq 0 l))) (noise_total (n_e N i) rep).
(* matrix with k rows of l ring elements *)
Definition matrix_ok (k l : nat) (A : list (list (list Z))) : Prop :=
  length A = k /\ Forall (fun row => length row = l /\ Forall is_poly row) A.
(* noise terms (row, repetition, share) are zero *)
Definition zero_terms (f : nat -> nat -> list (list Z)) (U : list (nat * nat * nat)) : Prop :=
  forall j i kk, In (j, i, kk) U -> nth kk (f j i) [] = ring_zero.

(* the noise that key generation or a signing attempt reads from the tape from position pos on: per row, per
   repetition and share kb bytes; first for the l rows of the secret, then for the rows of the product *)
Definition stream_noise (H : list Z -> nat -> Z) (T : nat -> Z) (u : Z) (kb rep d l pos : nat) : lwe_noise :=
  let rb := (rep * d * kb)%nat in
  LNoise (fun j => noise_family H T u kb d j (pos + j * rb)) (fun i => noise_family H T u kb d i (pos + l * rb + i * rb)).
(* all masks in the order in which they are drawn *)
Definition noise_masks (rep n : nat) (R : nat -> nat -> list (list Z)) : list (list (list Z)) := concat (map (fun r => map (R r) (seq 0 rep)) (seq 0 n)).
Definition sample_masks (rep l k : nat) (M : lwe_masks) : list (list (list Z)) :=
  map (m_zero M) (seq 0 l) ++ noise_masks rep l (m_s M) ++ noise_masks rep k (m_e M).
