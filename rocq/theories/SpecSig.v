(* Specification vocabulary for the signature decoder: which bit strings cut a code word. *)
From Coq Require Import ZArith List Bool.
From Verif Require Import Spec SpecScheme.
Import ListNotations.
Open Scope Z_scope.

(* A decoder that looks at the bits through a window of eight bytes that starts at the byte holding
   the current bit.  [B] are the bits from position [pos] to the end of the signature.
   The window cuts the hint code word at [pos]: the run of ones and its stop bit are inside the
   window, but the sign bit that must follow is beyond the window or beyond the end of the
   signature, or the code word does not fit into a shift by less than 64 *)
Definition cut_hint (pos : Z) (B : list bool) : Prop :=
  exists m rest, B = repeat true m ++ false :: rest /\ (1 <= m)%nat /\
    pos mod 8 + Z.of_nat m + 1 <= 64 /\
    (62 <= Z.of_nat m \/ pos mod 8 + Z.of_nat m + 1 = 64 \/ rest = []).
(* the same for a response code word: 40 bits of a, m ones, stop bit; the value is not zero *)
Definition cut_response (pos : Z) (B : list bool) : Prop :=
  exists a m rest, B = bits_of 40 a ++ repeat true m ++ false :: rest /\ 0 <= a < 2 ^ 40 /\
    0 < Z.of_nat m * 2 ^ 40 + a /\
    pos mod 8 + 40 + Z.of_nat m + 1 <= 64 /\
    (pos mod 8 + 40 + Z.of_nat m + 1 = 64 \/ rest = []).
(* somewhere in the bits [B] of a signature (behind the challenge hash), after hints and responses
   that parse, a code word is cut *)
Definition cut_signature (nh nz : nat) (B : list bool) : Prop :=
  (exists hs rest, (length hs < nh)%nat /\ B = concat (map code_h hs) ++ rest /\
     cut_hint (Z.of_nat (length (concat (map code_h hs)))) rest) \/
  (exists hs zs rest, length hs = nh /\ (length zs < nz)%nat /\ B = sig_code hs zs ++ rest /\
     cut_response (Z.of_nat (length (sig_code hs zs))) rest).
(* all code words of a signature lie within the eight-byte windows of a decoder, hints below 62 *)
Definition windows_fit (h z : list Z) : Prop :=
  all_in_window code_h 64 0 h /\ Forall (fun x => Z.abs x <= 61) h /\
  all_in_window code_z 64 (Z.of_nat (length (concat (map code_h h)))) z.

(* The exact condition.  [zero_before] says that the previous hint exists and is zero.
   A hint with a run of [m] ones at bit position [pos]: its stop bit is inside the window; either the
   word needs a shift by 64 or more (62 ones or more), or the window ends with the stop bit although the
   signature goes on.  When the signature ends with the stop bit of a run of 62 ones that follows a zero
   hint, the decoder notices the end of the signature first. *)
Definition overrun_hint (zero_before : bool) (pos : Z) (B : list bool) : Prop :=
  exists m rest, B = repeat true m ++ false :: rest /\ (1 <= m)%nat /\
    pos mod 8 + Z.of_nat m + 1 <= 64 /\
    ((62 <= Z.of_nat m /\ ~ (Z.of_nat m = 62 /\ rest = [] /\ zero_before = true)) \/
     (pos mod 8 + Z.of_nat m + 1 = 64 /\ rest <> [])).
(* a nonzero response whose stop bit is the last bit of the window although the signature goes on; or
   the last response, when its sign bit is beyond the window or beyond the end of the signature *)
Definition overrun_response (last_one : Prop) (pos : Z) (B : list bool) : Prop :=
  exists a m rest, B = bits_of 40 a ++ repeat true m ++ false :: rest /\ 0 <= a < 2 ^ 40 /\
    0 < Z.of_nat m * 2 ^ 40 + a /\
    pos mod 8 + 40 + Z.of_nat m + 1 <= 64 /\
    ((pos mod 8 + 40 + Z.of_nat m + 1 = 64 /\ rest <> []) \/
     (last_one /\ (pos mod 8 + 40 + Z.of_nat m + 1 = 64 \/ rest = []))).
Definition hints_fit (h : list Z) : Prop := all_in_window code_h 64 0 h /\ Forall (fun x => Z.abs x <= 61) h.
Definition overrun_signature (nh nz : nat) (B : list bool) : Prop :=
  (exists hs rest, (length hs < nh)%nat /\ B = concat (map code_h hs) ++ rest /\ hints_fit hs /\
     overrun_hint (last hs 1 =? 0) (Z.of_nat (length (concat (map code_h hs)))) rest) \/
  (exists hs zs rest, length hs = nh /\ (length zs < nz)%nat /\ B = sig_code hs zs ++ rest /\ windows_fit hs zs /\
     overrun_response (S (length zs) = nz) (Z.of_nat (length (sig_code hs zs))) rest).
