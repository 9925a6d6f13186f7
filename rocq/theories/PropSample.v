(* Property theorems about the samplers: poly.hpp:394-497, poly_mat.hpp:45-58,
   masked_poly.hpp:17-57, 264-294, poly_vec.hpp:181-187.  [hash_of O] is the SHAKE256 stream and
   [tape_of tp] the random tape, as numbers. *)
From Coq Require Import ZArith List Bool.
From Verif Require Import ModelBase ModelField ModelUtils ModelPoly ModelVec PolyLemmas SampleLemmas ExOracle PropPoly.
From Verif Require Import Spec.
Import ListNotations.
Open Scope Z_scope.

(* C24: the challenge polynomial has exactly omega non-zero coefficients, all 1 or q - 1, at the
   first omega distinct positions of the hash stream, with the sign of the first occurrence
   (challenge_poly); the expansion fails to finish within [fuel] candidates only if the first
   [fuel] candidates contain fewer than omega distinct positions. *)
Theorem C24_challenge_polynomial : forall O fuel omega c_hash, (omega < 256)%nat ->
  let S := challenge_stream (hash_of O) omega c_hash in
  (forall c, chal_poly O fuel omega c_hash = Ok c ->
     challenge_poly S omega c /\ length c = 512%nat /\
     length (filter (fun x => negb (x =? 0)) c) = omega /\
     Forall (fun x => x = 0 \/ x = 1 \/ x = q - 1) c) /\
  chal_poly O fuel omega c_hash <> UB /\
  (chal_poly O fuel omega c_hash = OutOfFuel <->
     (length (distinct (map (chal_pos S) (seq 0 fuel))) < omega)%nat) /\
  (forall c c', challenge_poly S omega c -> challenge_poly S omega c' -> c = c').
Proof. exact challenge_facts. Qed.
Print Assumptions C24_challenge_polynomial.
Example C24_nonvacuous : exists c, chal_poly ex_O 19 19 (repeat 7 32) = Ok c /\
  map (chal_pos (challenge_stream (hash_of ex_O) 19 (repeat 7 32))) [0; 1]%nat = [148; 405]%nat /\
  nth 148 c 0 = 1 /\ nth 149 c 0 = 0.
Proof.
  assert (X : match chal_poly ex_O 19 19 (repeat 7 32) with
              | Ok c => (nth 148 c 0 =? 1) && (nth 149 c 0 =? 0) | _ => false end = true) by (vm_compute; reflexivity).
  destruct (chal_poly ex_O 19 19 (repeat 7 32)) as [c| |]; try discriminate. exists c.
  apply andb_true_iff in X. split; [reflexivity|]. split; [vm_compute; reflexivity|].
  split; apply Z.eqb_eq; apply X.
Qed.

(* C25: uniform sampling returns exactly the first 512 seven-byte chunks (truncated to 49 bits) of
   the hash stream that are below q -- as a function of the stream, independent of the 136-byte
   buffer -- and gives up after [fuel] chunks only if these contain fewer than 512 such chunks; the
   matrix entry (r, c) is sampled from the stream of 'A' r c 0 0 0 0 0 seed and is reduced. *)
Theorem C25_uniform_sampling : forall O fuel,
  (forall hdr seed, let S := hash_of O (hdr ++ seed) in
     sampleQ O fuel hdr seed
     = if (512 <=? length (accepted49 S fuel))%nat then Ok (firstn 512 (accepted49 S fuel)) else OutOfFuel) /\
  (forall k l seed, (k <= 256)%nat -> (l <= 256)%nat ->
     expandA O fuel k l seed <> UB /\
     forall A, expandA O fuel k l seed = Ok A ->
       length A = (k * l)%nat /\
       forall r c, (r < k)%nat -> (c < l)%nat ->
         uniform_poly (matrix_stream (hash_of O) seed r c) (nth (r * l + c) A []) /\
         is_poly (nth (r * l + c) A [])) /\
  (forall S p p', uniform_poly S p -> uniform_poly S p' -> p = p').
Proof. exact uniform_facts. Qed.
Print Assumptions C25_uniform_sampling.
(* chunk 19 (stream bytes 133 to 139) crosses the end of the first 136-byte buffer *)
Example C25_nonvacuous :
  sampleQ ex_O 512 [65; 0; 0; 0; 0; 0; 0; 0] [1; 2] = Ok (map (candidate49 (hash_of ex_O [65; 0; 0; 0; 0; 0; 0; 0; 1; 2])) (seq 0 512)) /\
  candidate49 (hash_of ex_O [65; 0; 0; 0; 0; 0; 0; 0; 1; 2]) 19
  = le_value [15; 16; 17; 18; 19; 20; 21] mod 2 ^ 49.
Proof. split; [apply (ex_sampleQ 512 [65; 0; 0; 0; 0; 0; 0; 0] [1; 2]); apply le_n|vm_compute; reflexivity]. Qed.

(* C26: every noise sample is in [-2^(u-1), 2^(u-1)); adding noise to a masked vector is free of
   undefined behaviour, keeps the shares reduced, reads exactly rows*rep*d seeds from the tape and
   changes the unmasked value by exactly the sum of the rep*d samples of each row (noise_vec), which
   is at most rep*d*2^(u-1) in absolute value. *)
Theorem C26_noise : forall O fuel u rep kappa e rows v tp pos m,
  1 <= u <= 48 -> (rep <= 256)%nat -> (2 ^ e <= 256)%nat -> (rows <= 256)%nat ->
  masked_vec rows (2 ^ e) v ->
  let kb := Z.to_nat (kappa / 8) in
  (forall S i, - 2 ^ (u - 1) <= noise_sample S u i < 2 ^ (u - 1)) /\
  pv_add_rep_noise O fuel u rep kappa (2 ^ e) v (Prng tp pos) m <> UB /\
  (forall v' p' m', pv_add_rep_noise O fuel u rep kappa (2 ^ e) v (Prng tp pos) m = Ok (v', p', m') ->
     masked_vec rows (2 ^ e) v' /\
     p' = Prng tp (pos + rows * (rep * 2 ^ e * kb)) /\
     map unmask v' = map2 ring_add (map unmask v)
                          (noise_vec (hash_of O) (tape_of tp) u kb rep (2 ^ e) rows pos)) /\
  (forall row k, Z.abs (noise_coef (hash_of O) (tape_of tp) u kb rep (2 ^ e) row pos k)
                 <= Z.of_nat rep * Z.of_nat (2 ^ e) * 2 ^ (u - 1)).
Proof. exact noise_facts. Qed.
Print Assumptions C26_noise.
(* one row, one share, one repetition of 6-bit noise; sample 13 is negative *)
Example C26_nonvacuous : masked_vec 1 (2 ^ 0) [[ex_poly]] /\
  (exists v' p' m', pv_add_rep_noise ex_O 0 6 1 128 1 [[ex_poly]] (Prng ex_tape 0) [] = Ok (v', p', m') /\
     nth 13 (nth 0 (nth 0 v' []) []) 0 = 113 - 27) /\
  noise_sample (noise_stream (hash_of ex_O) (tape_of ex_tape) 16 1 0 0 0 0) 6 13 = -27.
Proof.
  split; [|split].
  - split; [reflexivity|]. constructor; [|constructor]. split; [reflexivity|]. constructor; [exact ex_poly_is_poly|constructor].
  - assert (X : match pv_add_rep_noise ex_O 0 6 1 128 1 [[ex_poly]] (Prng ex_tape 0) [] with
                | Ok (v', p', m') => nth 13 (nth 0 (nth 0 v' []) []) 0 =? 113 - 27 | _ => false end = true) by (vm_compute; reflexivity).
    destruct (pv_add_rep_noise ex_O 0 6 1 128 1 [[ex_poly]] (Prng ex_tape 0) []) as [[[v' p'] m']| |]; try discriminate.
    exists v', p', m'. split; [reflexivity|]. apply Z.eqb_eq, X.
  - vm_compute. reflexivity.
Qed.
