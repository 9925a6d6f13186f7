(* Property theorems about what an observer of values inside refresh learns. *)
From Coq Require Import ZArith List Bool Lia.
From Verif Require Import ModelBase ModelU128 ModelField ModelUtils ModelPoly ModelVec.
From Verif Require Import Spec SpecMask SpecProbe.
From Verif Require Import Words FieldProofs ArithLemmas Cong PolyProofs MaskedProofs MaskUniform MaskProg ProbeProofs ProbeProg ExGood FinProofs.
Import ListNotations.
Open Scope Z_scope.

(* C63, the program: refreshing a sharing with 2^e shares goes through the values of SpecProbe.v only: after
   any number n of steps of zero_encoding its shares are the accumulators, the result is the input plus the
   last ones. *)
Theorem C63_refresh_values : forall O fuel e a g a1 g', masked (2 ^ e) a -> mp_refresh O fuel (2 ^ e) a g = Ok (a1, g') ->
  exists rs, mask_tuple e rs /\ drawn O fuel (2 ^ e) (mask_pairs e) g rs g' /\ a1 = add_masks e a rs /\
  forall n, (n <= length (mask_pairs e))%nat -> exists gn,
    foldM (fun st ij => zenc_step O fuel (2 ^ e) (snd ij - fst ij) st (fst ij)) (firstn n (mask_pairs e)) (repeat (poly_fill 0) (2 ^ e), g)
    = Ok (map (accumulator e rs n) (seq 0 (2 ^ e)), gn).
Proof. exact refresh_states. Qed.
Print Assumptions C63_refresh_values.

(* C63, strong non-interference: an observer of the values W inside refresh and of the output shares Oq, fewer
   than 2^e together, learns at most as many input shares as there are values in W: there is a set K of input
   shares, not larger than W, such that every change v of the other input shares is compensated by a change
   delta of the masks, the same for all inputs and masks, that leaves all observed values as they are. *)
Theorem C63_refresh_probing : forall e (W : list wire) (Oq : list nat),
  Forall (wire_ok e) W -> Forall (fun k => (k < 2 ^ e)%nat) Oq -> (length W + length Oq < 2 ^ e)%nat ->
  exists K, (length K <= length W)%nat /\ Forall (fun k => (k < 2 ^ e)%nat) K /\
  forall v, masked (2 ^ e) v -> (forall k, In k K -> nth k v [] = ring_zero) ->
  exists delta, mask_tuple e delta /\ forall x rs, masked (2 ^ e) x -> mask_tuple e rs ->
    (forall w, In w W -> wire_value e x rs w = wire_value e (tuple_add x v) (tuple_add rs delta) w) /\
    (forall k, In k Oq -> nth k (add_masks e x rs) [] = nth k (add_masks e (tuple_add x v) (tuple_add rs delta)) []).
Proof. exact probe_shift. Qed.
Print Assumptions C63_refresh_probing.

(* C63, consequence: fewer than 2^e observed values say nothing about the secret.  For every s there are
   translations of the sharings and of the mask tuples, both permutations, that turn sharings of a secret into
   sharings of the secret plus s and leave all observed values as they are: every view has as many (sharing,
   masks) pairs for one secret as for any other. *)
Theorem C63_secret_independent : forall e (W : list wire) (Oq : list nat),
  Forall (wire_ok e) W -> Forall (fun k => (k < 2 ^ e)%nat) Oq -> (length W + length Oq < 2 ^ e)%nat ->
  forall s, is_poly s -> exists v delta, masked (2 ^ e) v /\ mask_tuple e delta /\
  (forall x, masked (2 ^ e) x -> masked (2 ^ e) (tuple_add x v) /\ unmask (tuple_add x v) = ring_add (unmask x) s) /\
  (forall y, masked (2 ^ e) y -> exists! x, masked (2 ^ e) x /\ tuple_add x v = y) /\
  (forall ss, mask_tuple e ss -> exists! rs, mask_tuple e rs /\ tuple_add rs delta = ss) /\
  forall x rs, masked (2 ^ e) x -> mask_tuple e rs ->
    (forall w, In w W -> wire_value e x rs w = wire_value e (tuple_add x v) (tuple_add rs delta) w) /\
    (forall k, In k Oq -> nth k (add_masks e x rs) [] = nth k (add_masks e (tuple_add x v) (tuple_add rs delta)) []).
Proof.
  intros e W Oq FW FO L s Hs. destruct (probe_secret e W Oq FW FO L s Hs) as (v & delta & Mv & Md & H1 & H2).
  exists v, delta. split; [exact Mv|]. split; [exact Md|]. split; [exact H1|]. split; [exact (translation_perm (2 ^ e) v Mv)|]. split; [exact (tuple_add_perm e delta Md)|exact H2].
Qed.
Print Assumptions C63_secret_independent.

(* eight shares, seven observed values of all kinds *)
Example C63_nonvacuous :
  let W := [wire_input 3; wire_mask 5; wire_acc 7 2; wire_acc 12 4] in
  Forall (wire_ok 3) W /\ Forall (fun k => (k < 2 ^ 3)%nat) [0; 1; 6]%nat /\ (length W + length [0; 1; 6]%nat < 2 ^ 3)%nat /\
  mask_pairs 3 = [(0, 1); (2, 3); (4, 5); (6, 7); (0, 2); (1, 3); (4, 6); (5, 7); (0, 4); (1, 5); (2, 6); (3, 7)]%nat /\
  (* share 2 after seven masks: plus mask 1, minus mask 4; share 4 after all: masks 2 and 6, minus mask 8 *)
  let rs := map (fun i => repeat (Z.of_nat i) 512) (seq 100 12) in
  mask_tuple 3 rs /\ coef (accumulator 3 rs 7 2) 9 = (101 - 104) mod q /\ coef (accumulator 3 rs 12 4) 9 = (102 + 106 - 108) mod q.
Proof.
  split; [repeat constructor|]. split; [repeat constructor|]. split; [repeat constructor|]. split; [reflexivity|]. intros rs. split; [|split; vm_compute; reflexivity].
  split; [reflexivity|]. apply Forall_forall. intros p Hp. apply in_map_iff in Hp. destruct Hp as (i & <- & Hi). apply in_seq in Hi.
  split; [apply repeat_length|]. apply Forall_forall. intros x Hx. apply repeat_spec in Hx. subst x. unfold reduced. rewrite q_Q, Q_val. lia.
Qed.
(* refresh returns for every sharing *)
Example C63_values_nonvacuous : forall a, masked (2 ^ 3) a -> exists a1 g', mp_refresh ex_G 512 (2 ^ 3) a (mrng_new ex_G (2 ^ 3)) = Ok (a1, g').
Proof.
  intros a Ha. assert (P2 : pow2 (2 ^ 3)) by (exists 3%nat; reflexivity).
  pose proof (mp_refresh_ok ex_G 512 (2 ^ 3) a (mrng_new ex_G (2 ^ 3)) P2 Ha) as W.
  assert (NF : mp_refresh ex_G 512 (2 ^ 3) a (mrng_new ex_G (2 ^ 3)) <> OutOfFuel) by (eapply fn_ok, mp_refresh_fin; [apply exG_good_mask, le_n|exact P2|apply orbit_new]).
  destruct (mp_refresh ex_G 512 (2 ^ 3) a (mrng_new ex_G (2 ^ 3))) as [[a1 g']| |]; [exists a1, g'; reflexivity|destruct W|congruence].
Qed.
