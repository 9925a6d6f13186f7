(* Model of the remaining public members of poly_t and masked_poly_t, which the scheme itself does not
   call. *)
From Verif Require Import ModelBase ModelU128 ModelField ModelUtils ModelPoly ModelVec.
Open Scope Z_scope.

(* poly.hpp:499-508: n = num_coeffs() = PN field elements, each from eight bytes of the generator *)
Fixpoint poly_random (n : nat) (p : prng) : list Z * prng :=
  match n with
  | O => ([], p)
  | S n => let '(x, p) := zq_random p in let '(xs, p) := poly_random n p in (x :: xs, p)
  end.

(* masked_poly.hpp:71-76 *)
Definition mp_fill_with (v : Z) (a : mpoly) : mpoly := map (fun _ => poly_fill v) a.
(* masked_poly.hpp:135-144: product share by share *)
Definition mp_mul (a b : mpoly) : mpoly := map2 poly_mul a b.
(* masked_poly.hpp:198-203: only for d = 1.  poly_t::sampleQ (poly.hpp:394-434) is a static member
   that returns the polynomial: called as share.sampleQ(..) its result is discarded *)
Definition mp_sampleQ (O : oracles) (fuel : nat) (hdr sigma : list Z) (a : mpoly) : res mpoly :=
  _ <- sampleQ O fuel hdr sigma ;; Ok a.

(* prng.hpp:35-47, the default constructor: `while (off < sizeof(seed)) { v = rd(); memcpy(..); off += 4; }`.
   rd i is the value of call number i of std::random_device (a uint32_t); memcpy stores its bytes in
   memory order, which the model takes to be little-endian.  The result is the 32-byte seed and the
   number of device calls.  [fuel] bounds the number of iterations. *)
Fixpoint device_seed_loop (fuel : nat) (rd : nat -> Z) (calls : nat) (off : Z) (seed : list Z) : res (list Z * nat) :=
  match fuel with
  | O => OutOfFuel
  | S fuel =>
      if off <? zlen seed then
        let v := rd calls in
        seed <- write_at seed off (map (fun i => (v / 2 ^ (8 * Z.of_nat i)) mod 256) (seq 0 4)) ;;
        device_seed_loop fuel rd (S calls) (off + 4) seed
      else Ok (seed, calls)
  end.
Definition device_seed (fuel : nat) (rd : nat -> Z) : res (list Z * nat) := device_seed_loop fuel rd 0 0 (repeat 0 32).
(* prng.hpp:49-50: absorb the seed, finalize; shake128 is the extendable output function of the sha3
   library (seed bytes -> output stream) *)
Definition prng_of_device (shake128 : list Z -> nat -> Byte.byte) (fuel : nat) (rd : nat -> Z) : res prng :=
  '(seed, _) <- device_seed fuel rd ;; Ok (prng_new (shake128 seed)).
(* prng.hpp:53-57: the explicit constructor *)
Definition prng_of_seed (shake128 : list Z -> nat -> Byte.byte) (seed : list Z) : prng := prng_new (shake128 seed).
(* a sequence of calls of read with spans of the given sizes, prng.hpp:59 *)
Fixpoint prng_reads (p : prng) (sizes : list nat) : list (list Z) * prng :=
  match sizes with
  | [] => ([], p)
  | n :: sizes => let '(b, p) := prng_read p n in let '(bs, p) := prng_reads p sizes in (b :: bs, p)
  end.
