(* Specification vocabulary for the signature encoder: when it runs into undefined behaviour.
   Independent of the model. *)
From Coq Require Import ZArith List Bool.
From Verif Require Import Spec SpecScheme SpecVerify.
Import ListNotations.
Open Scope Z_scope.

(* the code words of a signature in the order they are written: hints (marked true), then responses *)
Definition word : Type := (bool * Z)%type.
Definition words (h z : list Z) : list word := map (pair true) h ++ map (pair false) z.
Definition code_word (w : word) : list bool := if fst w then code_h (snd w) else code_z (snd w).
(* the value does not fit the shift by which its run of ones is formed *)
Definition too_long (w : word) : Prop := if fst w then 64 <= Z.abs (snd w) else 2 ^ 46 <= Z.abs (snd w).
(* number of bits from the start of a signature with [clen] bytes of challenge hash to the end of [ws] *)
Definition end_after (clen : Z) (ws : list word) : Z := 8 * clen + Z.of_nat (length (concat (map code_word ws))).
(* number of bits waiting for output when [w] has been appended after [ws]: full bytes are written before
   each word *)
Definition waiting (clen : Z) (ws : list word) (w : word) : Z := end_after clen ws mod 8 + Z.of_nat (length (code_word w)).

(* all words before [w] leave at most 63 bits waiting and their full bytes fit the [len] bytes of the
   signature; then [w] leaves 64 or more bits waiting and either is too long itself or the full bytes of
   the next output still fit; or [w] is the last word, leaves more than 56 bits waiting and the bytes of
   the final output still fit *)
Definition overrun_encoding (len clen : Z) (h z : list Z) : Prop :=
  exists ws w ws', words h z = ws ++ w :: ws' /\
    (forall a x b, ws = a ++ x :: b -> waiting clen a x <= 63) /\
    end_after clen ws / 8 <= len /\
    ((64 <= waiting clen ws w /\ too_long w) \/
     (64 <= waiting clen ws w /\ ws' <> [] /\ end_after clen (ws ++ [w]) / 8 <= len) \/
     (57 <= waiting clen ws w /\ ws' = [] /\ (end_after clen (ws ++ [w]) + 7) / 8 <= len)).
(* an attempt of signing under the parameters [p] makes the encoder overrun *)
Definition attempt_overruns (p : param_row) (c h z : list Z) : Prop :=
  overrun_encoding (r_siglen p) (Z.of_nat (length c)) h z.
