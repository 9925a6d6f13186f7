(* Specification of the values inside the signing loop: each attempt computes a masked LWE sample with a fresh
   nonce (SpecSchemeProbe.v), derives a challenge from the unmasked rounded sample, refreshes key and nonce,
   computes response = challenge * key + nonce share by share and refreshes it before it is unmasked.  The
   refreshed key is the key of the next attempt.  Nothing here refers to the model of the code.  All values are
   ring elements; the code holds key, nonce and response transformed, which is a linear bijection. *)
From Coq Require Import ZArith List Bool.
From Verif Require Import Spec SpecMask SpecProbe SpecNoiseProbe SpecSchemeProbe.
Import ListNotations.
Open Scope Z_scope.

(* masks of one attempt: of the LWE sample, of the refreshings of key, nonce, response (one tuple per row) *)
Record att_masks := AMasks { a_lwe : lwe_masks; a_key : nat -> list (list Z); a_nonce : nat -> list (list Z); a_resp : nat -> list (list Z) }.
Definition att_masks_ok (e rep l k : nat) (M : att_masks) : Prop :=
  masks_ok e rep l k (a_lwe M) /\ forall j, (j < l)%nat -> mask_tuple e (a_key M j) /\ mask_tuple e (a_nonce M j) /\ mask_tuple e (a_resp M j).
Definition att_plus (M M' : att_masks) : att_masks :=
  AMasks (masks_plus (a_lwe M) (a_lwe M')) (fun j => tuple_add (a_key M j) (a_key M' j)) (fun j => tuple_add (a_nonce M j) (a_nonce M' j)) (fun j => tuple_add (a_resp M j) (a_resp M' j)).
(* row j of the refreshed key, the refreshed nonce, the response, the refreshed response *)
Definition key_next (e : nat) (key : nat -> list (list Z)) (M : att_masks) (j : nat) : list (list Z) := add_masks e (key j) (a_key M j).
Definition nonce_next (e rep : nat) (N : lwe_noise) (M : att_masks) (j : nat) : list (list Z) := add_masks e (secret_row e rep N (a_lwe M) j) (a_nonce M j).
Definition resp_in (e rep : nat) (c : list Z) (key : nat -> list (list Z)) (N : lwe_noise) (M : att_masks) (j : nat) : list (list Z) :=
  tuple_add (map (fun y => ring_mul y c) (key_next e key M j)) (nonce_next e rep N M j).
Definition resp_row (e rep : nat) (c : list Z) (key : nat -> list (list Z)) (N : lwe_noise) (M : att_masks) (j : nat) : list (list Z) :=
  add_masks e (resp_in e rep c key N M j) (a_resp M j).
(* what can be observed in an attempt: values inside the LWE sample, inside the refreshings of key, nonce and
   response (with their inputs), one share of the whole refreshed key and nonce vectors with everything computed
   from these shares alone *)
Inductive awire := aw_lwe (w : lwire) | aw_key (j : nat) (w : wire) | aw_nonce (j : nat) (w : wire) | aw_share (kk : nat) | aw_resp (j : nat) (w : wire).
Definition awire_ok (e rep l k : nat) (w : awire) : Prop :=
  match w with
  | aw_lwe w => lwire_ok e rep l k w
  | aw_key j w | aw_nonce j w | aw_resp j w => (j < l)%nat /\ wire_ok e w
  | aw_share kk => (kk < 2 ^ e)%nat
  end.
Definition awire_value (e l rep : nat) (A : list (list (list Z))) (c : list Z) (key : nat -> list (list Z)) (N : lwe_noise) (M : att_masks) (w : awire) : list (list Z) :=
  match w with
  | aw_lwe w => lwire_value e l rep A N (a_lwe M) w
  | aw_key j w => [wire_value e (key j) (a_key M j) w]
  | aw_nonce j w => [wire_value e (secret_row e rep N (a_lwe M) j) (a_nonce M j) w]
  | aw_share kk => share_vec l (key_next e key M) kk ++ share_vec l (nonce_next e rep N M) kk
  | aw_resp j w => [wire_value e (resp_in e rep c key N M j) (a_resp M j) w]
  end.
(* the key before attempt n *)
Fixpoint key_at (e : nat) (key : nat -> list (list Z)) (M : nat -> att_masks) (n : nat) : nat -> list (list Z) :=
  match n with
  | 0%nat => key
  | S n => key_next e (key_at e key M n) (M n)
  end.
(* the value that key and nonce noise contribute to row j of the response *)
Definition resp_total (rep : nat) (c : list Z) (key : nat -> list (list Z)) (N : lwe_noise) (j : nat) : list Z :=
  ring_add (ring_mul (unmask (key j)) c) (noise_total (n_s N j) rep).
(* key shares (row, share) are zero *)
Definition zero_shares (key : nat -> list (list Z)) (K : list (nat * nat)) : Prop := forall j kk, In (j, kk) K -> nth kk (key j) [] = ring_zero.
(* noise terms (attempt, (row, repetition, share)) are zero *)
Definition zero_at (f : nat -> nat -> nat -> list (list Z)) (U : list (nat * (nat * nat * nat))) : Prop :=
  forall n t, In (n, t) U -> zero_terms (f n) [t].
