(* Property theorems about the masked generator over histories of calls. *)
From Coq Require Import ZArith List Bool Lia.
From Verif Require Import ModelBase ModelU128 ModelField ModelUtils ModelPoly ModelVec.
From Verif Require Import Spec SpecMask.
From Verif Require Import MaskStream ExGood FinProofs.
Import ListNotations.
Open Scope Z_scope.

(* C12, what is left of it (see C12_mask_randomness_refuted): every share index has its own position in the one
   stream of words stream_word O 0, stream_word O 1, ... that starts in the all-zero state; whatever the order of
   the calls, the word returned is the next one of the index called, calls with other indices do not matter,
   and no word of an index is used twice.  A mask drawn after any history is the list of acceptable words
   among the next n ones, and the generator afterwards is the one after n more calls.  Missing: words that
   differ between the shares and that an observer cannot predict. *)
Theorem C12_mask_randomness_partial :
  (forall O d is, length (fst (get_calls O d is (mrng_new O d))) = length is /\
     forall n, (n < length is)%nat -> nth n (fst (get_calls O d is (mrng_new O d))) 0
       = let i := nth n is 0%nat in if (i <? d - 1)%nat then stream_word O (uses i (firstn n is)) else 0) /\
  (forall O fuel d is i p m', (i < d - 1)%nat ->
     sample_polynomial O fuel d i (snd (get_calls O d is (mrng_new O d))) = Ok (p, m') ->
     exists n, (0 < n)%nat /\ p = filter (fun x => x <? q) (map (fun t => stream_word O t mod 2 ^ 49) (seq (uses i is) n)) /\
       length p = 512%nat /\ stream_word O (uses i is + n - 1) mod 2 ^ 49 < q /\
       m' = snd (get_calls O d (is ++ repeat i n) (mrng_new O d))).
Proof. exact mask_streams. Qed.
Print Assumptions C12_mask_randomness_partial.

(* a permutation that counts; indices 0 and 1 of three generators called in turn, index 3 is out of range *)
Definition ex_count : oracles := {| shake256 := shake256 ex_G; ascon_permute := fun _ s => Ascon (a0 s + 1) 0 0 0 0; ascon80pq_iv := ascon80pq_iv ex_G |}.
Example C12_partial_nonvacuous :
  fst (get_calls ex_count 4 [0; 1; 0; 3; 1; 0; 2]%nat (mrng_new ex_count 4)) = [0; 0; 1; 0; 1; 2; 0] /\
  (uses 0 [0; 1; 0; 3; 1; 0; 2] = 3)%nat /\
  exists p m', sample_polynomial ex_count 512 4 0 (snd (get_calls ex_count 4 [0; 1; 0; 3; 1; 0; 2]%nat (mrng_new ex_count 4))) = Ok (p, m') /\ firstn 3 p = [3; 4; 5].
Proof.
  split; [reflexivity|]. split; [reflexivity|].
  assert (X : match sample_polynomial ex_count 512 4 0 (snd (get_calls ex_count 4 [0; 1; 0; 3; 1; 0; 2]%nat (mrng_new ex_count 4))) with Ok (p, _) => firstn 3 p = [3; 4; 5] | _ => False end) by (vm_compute; reflexivity).
  destruct (sample_polynomial _ _ _ _ _) as [[p m']| |]; [exists p, m'; split; [reflexivity|exact X]|destruct X|destruct X].
Qed.
