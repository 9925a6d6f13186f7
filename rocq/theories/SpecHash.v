(* The inputs on which the scheme evaluates its hash function SHAKE256. *)
From Coq Require Import ZArith List.
From Verif Require Import Spec SpecScheme.
Import ListNotations.
Open Scope Z_scope.

Inductive hash_query : Type :=
| hq_matrix (row col : nat) (seed : list Z)          (* entry of the public matrix: 'A' *)
| hq_noise (rep row share : nat) (seed : list Z)     (* noise polynomial: 'u' *)
| hq_challenge (omega : nat) (c : list Z)            (* challenge polynomial: 'c' *)
| hq_commitment (k : nat) (data : list Z)            (* commitment and digest: 'h' *)
| hq_share (share row : nat) (seed : list Z).        (* shares of a serialized secret key: 'K' *)
Definition query_input (x : hash_query) : list Z :=
  match x with
  | hq_matrix r c seed => [65; Z.of_nat r; Z.of_nat c; 0; 0; 0; 0; 0] ++ seed
  | hq_noise i r j seed => [117; Z.of_nat i; Z.of_nat r; Z.of_nat j; 0; 0; 0; 0] ++ seed
  | hq_challenge w c => [99; Z.of_nat w; 0; 0; 0; 0; 0; 0] ++ c
  | hq_commitment k data => [104; Z.of_nat k; 0; 0; 0; 0; 0; 0] ++ data
  | hq_share s r seed => [75; Z.of_nat s; Z.of_nat r; 0; 0; 0; 0; 0] ++ seed
  end.

(* the inputs that generating a key from a seed needs: the entries of its matrix and noise *)
Definition generate_input (p : param_row) (seed m : list Z) : Prop :=
  (exists r c, (r < Z.to_nat (r_k p))%nat /\ (c < Z.to_nat (r_l p))%nat /\ m = query_input (hq_matrix r c seed)) \/
  (exists i r j s, (i < Z.to_nat (r_rep p))%nat /\ (j < Z.to_nat (r_d p))%nat /\ (r < Nat.max (Z.to_nat (r_k p)) (Z.to_nat (r_l p)))%nat /\
     length s = Z.to_nat (r_kappa p / 8) /\ m = query_input (hq_noise i r j s)).
(* the inputs that verifying needs: the public key, its digest followed by the message, the entries of
   the matrix of its seed, the challenge polynomial of the first bytes of the signature, and commitments *)
Definition verify_input (H : list Z -> nat -> Z) (p : param_row) (seed pk_bytes msg sig m : list Z) : Prop :=
  let n := Z.to_nat (2 * r_kappa p / 8) in
  m = pk_bytes \/ m = digest H n pk_bytes ++ msg \/
  (exists r c, (r < Z.to_nat (r_k p))%nat /\ (c < Z.to_nat (r_l p))%nat /\ m = query_input (hq_matrix r c seed)) \/
  m = query_input (hq_challenge (Z.to_nat (r_omega p)) (firstn n sig)) \/
  (exists data, m = query_input (hq_commitment (Z.to_nat (r_k p)) data)).
(* the inputs that signing needs *)
Definition sign_input (H : list Z -> nat -> Z) (p : param_row) (seed pk_bytes msg m : list Z) : Prop :=
  let n := Z.to_nat (2 * r_kappa p / 8) in
  m = pk_bytes \/ m = digest H n pk_bytes ++ msg \/ generate_input p seed m \/
  (exists c, length c = n /\ m = query_input (hq_challenge (Z.to_nat (r_omega p)) c)) \/
  (exists data, m = query_input (hq_commitment (Z.to_nat (r_k p)) data)).

(* position in the random stream of the seed of the noise added to share j in repetition i of row r of
   the first (secret or randomness, l rows) or second (error, k rows) vector of attempt n; generating a
   key makes attempt 0 only *)
Definition seed_at (p : param_row) (n : nat) (second : bool) (r i j : nat) : nat :=
  let k := Z.to_nat (r_k p) in let l := Z.to_nat (r_l p) in
  ((n * (l + k) + (if second then l + r else r)) * (Z.to_nat (r_rep p) * Z.to_nat (r_d p)) + (i * Z.to_nat (r_d p) + j))
  * Z.to_nat (r_kappa p / 8).
