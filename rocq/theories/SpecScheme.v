(* Independent specification of key and signature formats and of the signature scheme.  Nothing here
   refers to the model of the code. *)
From Coq Require Import ZArith List Bool.
From Verif Require Import Spec.
Import ListNotations.
Open Scope Z_scope.

(* ---- keys ---- *)
(* a public vector: k rows of one polynomial with 7-bit coefficients *)
Definition public_vec (k : nat) (t : list (list (list Z))) : Prop :=
  length t = k /\
  Forall (fun row => exists p, row = [p] /\ length p = 512%nat /\ Forall (fun x => 0 <= x < 128) p) t.
Definition valid_public (kb k : nat) (seed : list Z) (t : list (list (list Z))) : Prop :=
  length seed = kb /\ Forall is_byte seed /\ public_vec k t.
(* all coefficients of a vector with one share per row, row after row *)
Definition flat1 (t : list (list (list Z))) : list Z := concat (map (fun row => nth 0 row []) t).
(* bytes are the encoding of (seed, t): the seed, then 7 bits per coefficient *)
Definition public_key_code (seed : list Z) (t : list (list (list Z))) (bytes : list Z) : Prop :=
  exists packed, bytes = seed ++ packed /\ Forall is_byte packed /\
    bits_of_bytes packed = concat (map (bits_of 7) (flat1 t)).
(* masked secret vector: l rows of d shares; share 0 has 49-bit coefficients, the others are reduced *)
Definition key_shares (d : nat) (row : list (list Z)) : Prop :=
  length row = d /\ is_poly49 (nth 0 row []) /\ Forall is_poly (skipn 1 row).
Definition secret_vec (l d : nat) (s : list (list (list Z))) : Prop :=
  length s = l /\ Forall (key_shares d) s.
(* 49 bits per coefficient *)
Definition packed49 (xs : list (list Z)) (packed : list Z) : Prop :=
  Forall is_byte packed /\ bits_of_bytes packed = concat (map (bits_of 49) (concat xs)).

(* ---- signatures ---- *)
(* bytes are the canonical encoding of (c, h, z): c, the code words, zero padding *)
Definition signature_code (c h z bytes : list Z) : Prop :=
  exists n, bits_of_bytes bytes = bits_of_bytes c ++ sig_code h z ++ repeat false n.
(* a code word of [len] bits that starts at bit position [pos] of the code fits into the eight bytes
   that start at its first byte *)
Definition in_window (lim pos len : Z) : Prop := pos mod 8 + len <= lim.
(* all code words of a list of values fit *)
Fixpoint all_in_window (code : Z -> list bool) (lim : Z) (pos : Z) (xs : list Z) : Prop :=
  match xs with
  | [] => True
  | x :: xs' => let len := Z.of_nat (length (code x)) in
                in_window lim pos len /\ all_in_window code lim (pos + len) xs'
  end.

(* norm bounds: B_inf on both parts (scaled for the hint) and the scaled Euclidean norm *)
Definition norms_ok (nuw Binf B22 : Z) (h z : list Z) : Prop :=
  Forall (fun x => Z.abs x <= Binf / 2 ^ nuw) h /\
  Forall (fun x => Z.abs x <= Binf) z /\
  2 ^ (2 * nuw - 64) * fold_right Z.add 0 (map (fun x => x * x) h)
    + fold_right Z.add 0 (map (fun x => (Z.abs x / 2 ^ 32) ^ 2) z) <= B22.

(* ---- scheme ---- *)
(* row i of a flat coefficient array *)
Definition row_of_flat (xs : list Z) (i : nat) : list Z := firstn 512 (skipn (i * 512) xs).
Definition rows_of_flat (k : nat) (xs : list Z) : list (list Z) := map (row_of_flat xs) (seq 0 k).
(* n bytes of the hash of m *)
Definition digest (H : list Z -> nat -> Z) (n : nat) (m : list Z) : list Z := stream_bytes (H m) 0 n.
(* mu: message bound to the public key bytes *)
Definition bound_message (H : list Z -> nat -> Z) (n : nat) (pk_bytes msg : list Z) : list Z :=
  digest H n (digest H n pk_bytes ++ msg).
(* hash input and value of the challenge for commitment w (k rows) and mu *)
Definition challenge_input (w : list (list Z)) (mu : list Z) : list Z :=
  [104; Z.of_nat (length w); 0; 0; 0; 0; 0; 0] ++ concat w ++ mu.
Definition challenge_value (H : list Z -> nat -> Z) (n : nat) (w : list (list Z)) (mu : list Z) : list Z :=
  digest H n (challenge_input w mu).
(* the public matrix of a seed: k rows of l polynomials, entry (r, c) sampled uniformly from its
   stream and read in the transform domain; A is its inverse transform *)
Definition matrix_hat (H : list Z -> nat -> Z) (seed : list Z) (k l : nat) (Ahat : list (list (list Z))) : Prop :=
  length Ahat = k /\
  forall r, (r < k)%nat -> length (nth r Ahat []) = l /\
    forall c, (c < l)%nat -> uniform_poly (matrix_stream H seed r c) (nth c (nth r Ahat []) []).
(* round each coefficient: drop nu bits *)
Definition round_poly (nu : Z) (p : list Z) : list Z := map (round_shift nu) p.
(* componentwise addition / subtraction of vectors of coefficient lists modulo m *)
Definition add_mod_poly (m : Z) (a b : list Z) : list Z :=
  map (fun i => (coef a i + coef b i) mod m) (seq 0 512).
Definition sub_mod_poly (m : Z) (a b : list Z) : list Z :=
  map (fun i => (coef a i - coef b i) mod m) (seq 0 512).
Definition zipw {A B C} (f : A -> B -> C) (a : list A) (b : list B) : list C :=
  map (fun '(x, y) => f x y) (combine a b).

(* ---- streams that contain enough acceptable values ---- *)
(* every window of [n] consecutive candidates contains at least 512 values below q *)
Definition window_accepts (c : nat -> Z) (n : nat) : Prop :=
  forall t : nat, (512 <= length (filter (fun x => (x <? q)%Z) (map c (seq t n))))%nat.

(* the 64-bit bit buffer of an encoder that flushes whole bytes before each code word can hold every
   code word of the signature: at most 7 pending bits plus the code word make at most 63 bits, and at
   most 56 bits for the last code word *)
Definition buffer_fits (h z : list Z) : Prop :=
  all_in_window code_h 63 0 h /\
  all_in_window code_z 63 (Z.of_nat (length (concat (map code_h h)))) z /\
  exists zs x, z = zs ++ [x] /\
    in_window 56 (Z.of_nat (length (sig_code h zs))) (Z.of_nat (length (code_z x))).
