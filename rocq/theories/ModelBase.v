(* Machine model: outcomes, 64-bit words, arrays as lists.
   Nothing in this file models a particular C++ function of /repo; it fixes the meaning of the
   C++ primitives (fixed width integers, std::array, std::span, <bit>) used by the other
   Model*.v files. *)
From Coq Require Export ZArith List Bool.
From Coq Require Export Init.Byte.
From Coq Require Strings.Byte.
Export ListNotations.
Open Scope Z_scope.

(* Outcome of running a piece of C++ code.  [UB] = the execution performs an operation with
   undefined behaviour (out-of-range shift distance, out-of-bounds std::array/std::span access,
   signed overflow, std::abs(INT64_MIN)).  [OutOfFuel] = a `while` loop was not finished within
   the number of iterations the caller of the model was prepared to wait. *)
Inductive res (A : Type) : Type :=
| Ok (a : A)
| UB
| OutOfFuel.
Arguments Ok {A} a.
Arguments UB {A}.
Arguments OutOfFuel {A}.

Definition bind {A B} (m : res A) (f : A -> res B) : res B :=
  match m with
  | Ok a => f a
  | UB => UB
  | OutOfFuel => OutOfFuel
  end.

Notation "x <- m ;; k" := (bind m (fun x => k))
  (at level 61, m at next level, right associativity).
Notation "' p <- m ;; k" := (bind m (fun x => match x with p => k end))
  (at level 61, p pattern, m at next level, right associativity).

(* ---- 64-bit unsigned words: Z in [0, 2^64), wrap-around made explicit ---- *)
Definition two64 : Z := 18446744073709551616.
Definition two63 : Z := 9223372036854775808.
Definition u64 (x : Z) : Z := x mod two64.
Definition add64 (a b : Z) : Z := u64 (a + b).
Definition sub64 (a b : Z) : Z := u64 (a - b).
Definition mul64 (a b : Z) : Z := u64 (a * b).
Definition neg64 (a : Z) : Z := u64 (- a).
Definition not64 (a : Z) : Z := two64 - 1 - a.
(* shifts whose distance is a literal below 64 in the C++ source *)
Definition shl64 (a n : Z) : Z := u64 (Z.shiftl a n).
Definition shr64 (a n : Z) : Z := Z.shiftr a n.
(* shifts by a run-time distance: undefined when the distance is >= 64 *)
Definition shl_chk (a n : Z) : res Z :=
  if (0 <=? n) && (n <? 64) then Ok (shl64 a n) else UB.
Definition shr_chk (a n : Z) : res Z :=
  if (0 <=? n) && (n <? 64) then Ok (shr64 a n) else UB.
Definition b2z (b : bool) : Z := if b then 1 else 0.

(* two's complement reinterpretation static_cast<int64_t>(uint64_t) and back *)
Definition s64_of_u64 (x : Z) : Z := if x <? two63 then x else x - two64.
Definition u64_of_s64 (x : Z) : Z := u64 x.
(* result of a signed 64-bit operation: undefined on overflow *)
Definition s64_chk (x : Z) : res Z :=
  if (- two63 <=? x) && (x <? two63) then Ok x else UB.
(* std::abs on int64_t *)
Definition abs_chk (x : Z) : res Z := if x =? - two63 then UB else Ok (Z.abs x).

(* x & (-8ul) *)
Definition align8 (x : Z) : Z := Z.land x (two64 - 8).

(* std::countl_zero on uint64_t *)
Definition clz64 (x : Z) : Z := if x =? 0 then 64 else 63 - Z.log2 x.
(* std::countr_zero on uint64_t: number of zero bits below the lowest one bit *)
Fixpoint ctz_pos (p : positive) : Z := match p with xO p => 1 + ctz_pos p | _ => 0 end.
Definition ctz64 (x : Z) : Z := match x with Zpos p => ctz_pos p | _ => 64 end.
(* std::bit_width *)
Definition bit_width (x : Z) : Z := if x =? 0 then 0 else Z.log2 x + 1.

Definition byteZ (b : byte) : Z := Z.of_N (Byte.to_N b).

(* ---- arrays ---- *)
Fixpoint upd {A} (i : nat) (v : A) (l : list A) : list A :=
  match l, i with
  | [], _ => []
  | _ :: t, O => v :: t
  | h :: t, S j => h :: upd j v t
  end.

Fixpoint map2 {A B C} (f : A -> B -> C) (l : list A) (m : list B) : list C :=
  match l, m with
  | a :: l', b :: m' => f a b :: map2 f l' m'
  | _, _ => []
  end.

Definition zlen {A} (l : list A) : Z := Z.of_nat (length l).

(* span.subspan(off, n) as an rvalue: undefined unless off + n <= size *)
Definition subspan {A} (l : list A) (off n : Z) : res (list A) :=
  if (0 <=? off) && (0 <=? n) && (off + n <=? zlen l)
  then Ok (firstn (Z.to_nat n) (skipn (Z.to_nat off) l))
  else UB.

(* overwrite l[off .. off+|v|) by v: undefined unless it is in bounds *)
Definition write_at {A} (l : list A) (off : Z) (v : list A) : res (list A) :=
  if (0 <=? off) && (off + zlen v <=? zlen l)
  then Ok (firstn (Z.to_nat off) l ++ v ++ skipn (Z.to_nat off + length v) l)
  else UB.

(* the values taken by a loop  for (i = 0; i < n; i += step)  *)
Definition range_step (n step : nat) : list nat :=
  map (fun j => (j * step)%nat) (seq 0 ((n + step - 1) / step)).
