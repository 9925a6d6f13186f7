(* Specification of valid signatures, generated keys and signing.  Nothing here refers to the model of
   the code. *)
From Coq Require Import ZArith List Bool.
From Verif Require Import Spec SpecScheme SpecSig.
Import ListNotations.
Open Scope Z_scope.

(* a primitive 1024-th root of unity modulo q, and the list of evaluations of a ring element at its
   odd powers, in bit-reversed order (the domain in which the public matrix is sampled) *)
Definition root1024 : Z := 358453792785495.
Definition transform (a : list Z) : list Z :=
  map (fun i => eval a (root1024 ^ (2 * Z.of_nat (bit_reverse 9 i) + 1)) mod q) (seq 0 512).
(* A (k rows of l ring elements) is the public matrix that belongs to a seed *)
Definition public_matrix (H : list Z -> nat -> Z) (seed : list Z) (k l : nat) (A : list (list (list Z))) : Prop :=
  length A = k /\ Forall (fun row => length row = l /\ Forall is_poly row) A /\
  forall r c, (r < k)%nat -> (c < l)%nat ->
    uniform_poly (matrix_stream H seed r c) (transform (nth c (nth r A []) [])).
(* the ring element with the given integer coefficients *)
Definition to_ring (xs : list Z) : list Z := map (fun x => x mod q) xs.
(* round(A z - 2^nut t c), drop nuw bits *)
Definition noisy_product (nut nuw : Z) (A : list (list (list Z))) (t : list (list Z)) (c : list Z)
           (z : list (list Z)) : list (list Z) :=
  map (round_poly nuw)
      (zipw ring_sub (ring_matvec A z) (map (fun p => ring_mul (ring_scale (2 ^ nut) p) c) t)).
(* the commitment that a signature (h, z) with challenge polynomial c claims *)
Definition commitment (nut nuw : Z) (A : list (list (list Z))) (t : list (list Z)) (c : list Z)
           (z h : list (list Z)) : list (list Z) :=
  zipw (add_mod_poly (q / 2 ^ nuw)) (noisy_product nut nuw A t c z) h.
(* the rows of a public vector *)
Definition rows1 (t : list (list (list Z))) : list (list Z) := map (fun row => nth 0 row []) t.

(* [sig] is a valid signature of [msg] under the public key (seed, t): it is the canonical encoding of
   a triple (c, h, z) that fits the decoder window and satisfies the norm bounds, and c is the
   challenge hash of the commitment recomputed from (c, h, z) and of the message bound to the key *)
Definition valid_signature (H : list Z -> nat -> Z) (r : param_row) (seed : list Z)
           (t : list (list (list Z))) (msg sig : list Z) : Prop :=
  let k := Z.to_nat (r_k r) in let l := Z.to_nat (r_l r) in let n := Z.to_nat (2 * r_kappa r / 8) in
  let omega := Z.to_nat (r_omega r) in
  exists c h z A cp pkb,
    length c = n /\ length h = (k * 512)%nat /\ length z = (l * 512)%nat /\
    signature_code c h z sig /\ windows_fit h z /\
    norms_ok (r_nuw r) (r_Binf r) (r_B22 r) h z /\
    public_matrix H seed k l A /\
    challenge_poly (challenge_stream H omega c) omega cp /\
    public_key_code seed t pkb /\
    c = challenge_value H n
          (commitment (r_nut r) (r_nuw r) A (rows1 t) cp (map to_ring (rows_of_flat l z)) (rows_of_flat k h))
          (bound_message H n pkb msg).

(* w is the commitment that the verifier recomputes from the public key (seed, t) and the signature *)
Definition claimed_commitment (H : list Z -> nat -> Z) (r : param_row) (seed : list Z)
           (t : list (list (list Z))) (sig : list Z) (w : list (list Z)) : Prop :=
  let k := Z.to_nat (r_k r) in let l := Z.to_nat (r_l r) in let omega := Z.to_nat (r_omega r) in
  exists c h z A cp,
    length c = Z.to_nat (2 * r_kappa r / 8) /\ Forall is_byte c /\
    length h = (k * 512)%nat /\ length z = (l * 512)%nat /\
    signature_code c h z sig /\
    public_matrix H seed k l A /\ challenge_poly (challenge_stream H omega c) omega cp /\
    w = commitment (r_nut r) (r_nuw r) A (rows1 t) cp (map to_ring (rows_of_flat l z)) (rows_of_flat k h).

(* ---- key generation and signing ---- *)
(* number of random tape bytes that noise for one row of a vector consumes *)
Definition row_bytes (r : param_row) : nat :=
  (Z.to_nat (r_rep r) * Z.to_nat (r_d r) * Z.to_nat (r_kappa r / 8))%nat.
(* noise vector of n rows of width u, read from the tape at position pos *)
Definition noise (H : list Z -> nat -> Z) (T : nat -> Z) (r : param_row) (u : Z) (n pos : nat) : list (list Z) :=
  noise_vec H T u (Z.to_nat (r_kappa r / 8)) (Z.to_nat (r_rep r)) (Z.to_nat (r_d r)) n pos.
(* p has integer coefficients of absolute value at most B *)
Definition bounded_by (B : Z) (p : list Z) : Prop :=
  exists xs, length xs = 512%nat /\ p = to_ring xs /\ Forall (fun x => Z.abs x <= B) xs.

(* attempt number n of signing the digest mu with secret vector s, public matrix A, public vector t and
   random tape T gives challenge hash c, challenge polynomial cp and the signature (c, h, z):
   r and e are fresh noise, w = round(A r + e), c = hash of w and mu, z = s cp + r (centred),
   h = w - round(A z - 2^nut t cp) (centred) *)
Definition sign_attempt (H : list Z -> nat -> Z) (T : nat -> Z) (p : param_row) (A : list (list (list Z)))
           (t s : list (list Z)) (mu : list Z) (n : nat) (c cp h z : list Z) : Prop :=
  let k := Z.to_nat (r_k p) in let l := Z.to_nat (r_l p) in let omega := Z.to_nat (r_omega p) in
  let m := q / 2 ^ r_nuw p in
  let pos := (n * ((l + k) * row_bytes p))%nat in
  let r := noise H T p (r_uw p) l pos in
  let e := noise H T p (r_uw p) k (pos + l * row_bytes p) in
  let w := map (round_poly (r_nuw p)) (zipw ring_add (ring_matvec A r) e) in
  let zr := zipw ring_add (map (fun si => ring_mul si cp) s) r in
  c = challenge_value H (Z.to_nat (2 * r_kappa p / 8)) w mu /\
  challenge_poly (challenge_stream H omega c) omega cp /\
  z = concat (map (map (centered q)) zr) /\
  h = concat (map (map (centered m)) (zipw (sub_mod_poly m) w (noisy_product (r_nut p) (r_nuw p) A t cp zr))).
(* the attempt is good: its code words fit the bit buffer and the signature, and the norms are small *)
Definition acceptable (p : param_row) (c h z : list Z) : Prop :=
  buffer_fits h z /\
  8 * Z.of_nat (length c) + Z.of_nat (length (sig_code h z)) <= 8 * r_siglen p /\
  norms_ok (r_nuw p) (r_Binf p) (r_B22 p) h z.
