(* Independent mathematical specification.  Nothing here refers to the model of the code. *)
From Coq Require Import ZArith List Bool.
Import ListNotations.
Open Scope Z_scope.

(* ---- the modulus and the ring Z_q[X]/(X^512+1) ---- *)
Definition q : Z := (2 ^ 24 - 2 ^ 18 + 1) * (2 ^ 25 - 2 ^ 18 + 1).

(* canonical representative of a residue modulo q *)
Definition reduced (x : Z) : Prop := 0 <= x < q.

(* f(0) + f(1) + ... + f(n-1) *)
Fixpoint Zsum (n : nat) (f : nat -> Z) : Z :=
  match n with
  | O => 0
  | S m => Zsum m f + f m
  end.

(* a polynomial with n = 512 reduced coefficients, index i = coefficient of X^i *)
Definition is_poly (p : list Z) : Prop := length p = 512%nat /\ Forall reduced p.
Definition coef (p : list Z) (i : nat) : Z := nth i p 0.

(* coefficient k of the product of a and b modulo X^512 + 1, over the integers *)
Definition negacyclic_coef (a b : list Z) (k : nat) : Z :=
  Zsum 512 (fun i => if (i <=? k)%nat then coef a i * coef b (k - i)
                     else - (coef a i * coef b (512 + k - i))).
(* ring operations of Z_q[X]/(X^512+1) *)
Definition ring_mul (a b : list Z) : list Z :=
  map (fun k => negacyclic_coef a b k mod q) (seq 0 512).
Definition ring_add (a b : list Z) : list Z :=
  map (fun k => (coef a k + coef b k) mod q) (seq 0 512).
Definition ring_sub (a b : list Z) : list Z :=
  map (fun k => (coef a k - coef b k) mod q) (seq 0 512).
Definition ring_scale (c : Z) (a : list Z) : list Z :=
  map (fun k => (c * coef a k) mod q) (seq 0 512).
Definition ring_zero : list Z := repeat 0 512.
(* evaluation of the polynomial at x, over the integers *)
Definition eval (p : list Z) (x : Z) : Z := Zsum 512 (fun i => coef p i * x ^ Z.of_nat i).

(* matrix (list of rows) times vector in the ring *)
Definition ring_dot (row v : list (list Z)) : list Z :=
  fold_right ring_add ring_zero (map (fun '(a, b) => ring_mul a b) (combine row v)).
Definition ring_matvec (A : list (list (list Z))) (v : list (list Z)) : list (list Z) :=
  map (fun row => ring_dot row v) A.

(* sum of the shares of a masked polynomial *)
Definition unmask (shares : list (list Z)) : list Z :=
  map (fun k => fold_right Z.add 0 (map (fun s => coef s k) shares) mod q) (seq 0 512).

(* d shares with reduced coefficients; a vector of k such rows *)
Definition masked (d : nat) (s : list (list Z)) : Prop := length s = d /\ Forall is_poly s.
Definition masked_vec (k d : nat) (v : list (list (list Z))) : Prop :=
  length v = k /\ Forall (masked d) v.
(* the same with 49-bit coefficients, which is all that the key format guarantees *)
Definition is_poly49 (p : list Z) : Prop :=
  length p = 512%nat /\ Forall (fun x => 0 <= x < 2 ^ 49) p.
Definition masked49 (d : nat) (s : list (list Z)) : Prop := length s = d /\ Forall is_poly49 s.
Definition masked_vec49 (k d : nat) (v : list (list (list Z))) : Prop :=
  length v = k /\ Forall (masked49 d) v.

(* ---- centred representatives, rounding ---- *)
(* the representative of x modulo m in the symmetric range -(m/2) .. (m-1)/2 *)
Definition centered (m x : Z) : Z :=
  let r := x mod m in if r <=? (m - 1) / 2 then r else r - m.
(* floor((x + 2^(nu-1)) / 2^nu) modulo floor(q / 2^nu) *)
Definition round_shift (nu x : Z) : Z := ((x + 2 ^ (nu - 1)) / 2 ^ nu) mod (q / 2 ^ nu).

(* ---- bytes and bit strings ---- *)
Definition is_byte (b : Z) : Prop := 0 <= b < 256.
(* little-endian value of a byte string *)
Fixpoint le_value (l : list Z) : Z :=
  match l with
  | [] => 0
  | b :: l' => b + 256 * le_value l'
  end.
(* the n low-order bits of x, least significant first *)
Fixpoint bits_of (n : nat) (x : Z) : list bool :=
  match n with
  | O => []
  | S m => Z.odd x :: bits_of m (x / 2)
  end.
(* value of a bit string, least significant bit first *)
Fixpoint bits_value (l : list bool) : Z :=
  match l with
  | [] => 0
  | b :: l' => Z.b2z b + 2 * bits_value l'
  end.
(* byte string -> bit string *)
Definition bits_of_bytes (l : list Z) : list bool := concat (map (bits_of 8) l).

(* the canonical signature code: hint coefficient x: |x| ones, a zero, and for x <> 0 a sign bit
   (1 = negative) *)
Definition code_h (x : Z) : list bool :=
  repeat true (Z.to_nat (Z.abs x)) ++ [false] ++ (if x =? 0 then [] else [x <? 0]).
(* response coefficient: 40 low bits of |x|, |x| / 2^40 ones, a zero, and for x <> 0 a sign *)
Definition code_z (x : Z) : list bool :=
  bits_of 40 (Z.abs x) ++ repeat true (Z.to_nat (Z.abs x / 2 ^ 40)) ++ [false]
  ++ (if x =? 0 then [] else [x <? 0]).
(* bit string of a signature: byte string c, code words, zero padding *)
Definition sig_code (h z : list Z) : list bool := concat (map code_h h) ++ concat (map code_z z).

(* the n-bit number obtained by writing the bits of x in reverse order *)
Fixpoint bit_reverse (n : nat) (x : nat) : nat :=
  match n with
  | O => 0
  | S m => ((x mod 2) * 2 ^ m + bit_reverse m (x / 2))%nat
  end.

(* ---- hash and random streams ---- *)
(* bytes pos, pos+1, ..., pos+n-1 of a stream *)
Definition stream_bytes (S : nat -> Z) (pos n : nat) : list Z := map S (seq pos n).

(* Uniform sampling modulo q by rejection: candidate number t is the t-th 7-byte little-endian
   chunk of the stream truncated to 49 bits; candidates below q are accepted. *)
Definition candidate49 (S : nat -> Z) (t : nat) : Z := le_value (stream_bytes S (7 * t) 7) mod 2 ^ 49.
Definition accepted49 (S : nat -> Z) (n : nat) : list Z :=
  filter (fun x => x <? q) (map (candidate49 S) (seq 0 n)).
(* p consists of the first 512 accepted candidates of the stream *)
Definition uniform_poly (S : nat -> Z) (p : list Z) : Prop :=
  exists n, (512 <= length (accepted49 S n))%nat /\ p = firstn 512 (accepted49 S n).
(* the public matrix belonging to a seed: entry (r, c) is sampled from the stream of the hash
   input 'A' r c 0 0 0 0 0 seed *)
Definition matrix_stream (H : list Z -> nat -> Z) (seed : list Z) (r c : nat) : nat -> Z :=
  H ([65; Z.of_nat r; Z.of_nat c; 0; 0; 0; 0; 0] ++ seed).

(* Challenge polynomial: candidate t is the t-th two-byte little-endian word of the stream; bit 0
   is the sign, the next nine bits are the position. *)
Definition chal_word (S : nat -> Z) (t : nat) : Z := le_value (stream_bytes S (2 * t) 2).
Definition chal_pos (S : nat -> Z) (t : nat) : nat := Z.to_nat ((chal_word S t / 2) mod 512).
Definition chal_sign (S : nat -> Z) (t : nat) : Z := if Z.odd (chal_word S t) then q - 1 else 1.
(* distinct elements in the order of their first occurrence *)
Definition distinct (l : list nat) : list nat :=
  fold_left (fun s p => if existsb (Nat.eqb p) s then s else s ++ [p]) l [].
(* coefficient i after n candidates: sign of the first candidate with position i, or 0 *)
Definition chal_coef (S : nat -> Z) (n i : nat) : Z :=
  match find (fun t => (chal_pos S t =? i)%nat) (seq 0 n) with
  | Some t => chal_sign S t
  | None => 0
  end.
(* c is the challenge polynomial of weight omega of the stream *)
Definition challenge_poly (S : nat -> Z) (omega : nat) (c : list Z) : Prop :=
  exists n, length (distinct (map (chal_pos S) (seq 0 n))) = omega /\
            c = map (chal_coef S n) (seq 0 512).
Definition challenge_stream (H : list Z -> nat -> Z) (omega : nat) (c_hash : list Z) : nat -> Z :=
  H ([99; Z.of_nat omega; 0; 0; 0; 0; 0; 0] ++ c_hash).

(* Noise: the signed u-bit number (two's complement) held in the ceil(u/8) bytes of coefficient i *)
Definition signed_bits (u x : Z) : Z :=
  let r := x mod 2 ^ u in if r <? 2 ^ (u - 1) then r else r - 2 ^ u.
Definition noise_sample (S : nat -> Z) (u : Z) (i : nat) : Z :=
  let per := Z.to_nat ((u + 7) / 8) in signed_bits u (le_value (stream_bytes S (i * per) per)).
(* the noise added to row [row] of a vector: rep * d samples, each from its own seed of kb bytes of
   the random tape T, read consecutively from position pos *)
Definition noise_stream (H : list Z -> nat -> Z) (T : nat -> Z) (kb d row pos i j : nat) : nat -> Z :=
  H ([117; Z.of_nat i; Z.of_nat row; Z.of_nat j; 0; 0; 0; 0] ++ stream_bytes T (pos + (i * d + j) * kb) kb).
Definition noise_coef (H : list Z -> nat -> Z) (T : nat -> Z) (u : Z) (kb rep d row pos k : nat) : Z :=
  Zsum rep (fun i => Zsum d (fun j => noise_sample (noise_stream H T kb d row pos i j) u k)).
(* ... as ring elements, for a vector of k rows starting at tape position pos *)
Definition noise_poly H T u kb rep d row pos : list Z :=
  map (fun k => noise_coef H T u kb rep d row pos k mod q) (seq 0 512).
Definition noise_vec H T u kb rep d rows pos : list (list Z) :=
  map (fun row => noise_poly H T u kb rep d row (pos + row * (rep * d * kb))) (seq 0 rows).

(* ---- parameter sets (tables 2, 3 and 4 of the Raccoon specification) ---- *)
Record param_row : Type := Row {
  r_kappa : Z; r_k : Z; r_l : Z; r_d : Z; r_ut : Z; r_nut : Z; r_uw : Z; r_nuw : Z;
  r_rep : Z; r_omega : Z; r_siglen : Z; r_Binf : Z; r_B22 : Z }.
Definition param_table : list param_row := [
  Row 128 5 4  1 6 42 41 44 8 19 11524 41954689765971 14656575897;
  Row 128 5 4  2 6 42 41 44 4 19 11524 41954689765971 14656575897;
  Row 128 5 4  4 6 42 41 44 2 19 11524 41954689765971 14656575897;
  Row 128 5 4  8 5 42 40 44 4 19 11524 41954689765971 14656575897;
  Row 128 5 4 16 5 42 40 44 2 19 11524 41954689765971 14656575897;
  Row 128 5 4 32 4 42 39 44 4 19 11524 41954689765971 14656575897;
  Row 192 7 5  1 7 42 41 44 8 31 14544 47419426657048 24964497408;
  Row 192 7 5  2 7 42 41 44 4 31 14544 47419426657048 24964497408;
  Row 192 7 5  4 7 42 41 44 2 31 14544 47419426657048 24964497408;
  Row 192 7 5  8 6 42 40 44 4 31 14544 47419426657048 24964497408;
  Row 192 7 5 16 6 42 40 44 2 31 14544 47419426657048 24964497408;
  Row 192 7 5 32 5 42 39 44 4 31 14544 47419426657048 24964497408;
  Row 256 9 7  1 6 42 41 44 8 44 20330 50958538642039 38439957299;
  Row 256 9 7  2 6 42 41 44 4 44 20330 50958538642039 38439957299;
  Row 256 9 7  4 6 42 41 44 2 44 20330 50958538642039 38439957299;
  Row 256 9 7  8 5 42 40 44 4 44 20330 50958538642039 38439957299;
  Row 256 9 7 16 5 42 40 44 2 44 20330 50958538642039 38439957299;
  Row 256 9 7 32 4 42 39 44 4 44 20330 50958538642039 38439957299 ].
