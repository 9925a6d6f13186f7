(* Property theorems about the effect of refreshing on what single shares reveal. *)
From Coq Require Import ZArith List Bool Lia.
From Verif Require Import ModelBase ModelU128 ModelField ModelUtils ModelPoly ModelVec ModelSerial ModelScheme.
From Verif Require Import Spec SpecMask.
From Verif Require Import MaskedProofs ExOracle SigEnc MaskUniform MaskProg.
Import ListNotations.
Open Scope Z_scope.

(* C46, the program: refresh() of a key with 2^e shares draws one mask polynomial per pair of
   mask_pairs and row, all of them from one of the d - 1 generators (never from the constant zero that
   the generator object returns for other indices), and adds them as add_masks says. *)
Theorem C46_refresh_program : forall O fuel P e sk sk', p_d P = (2 ^ e)%nat ->
  masked_vec (p_l P) (2 ^ e) (sk_s sk) -> sk_refresh O fuel P sk = Ok sk' ->
  exists rss g', length rss = p_l P /\ Forall (mask_tuple e) rss /\
    drawn_rows O fuel e (mrng_new O (2 ^ e)) rss g' /\
    sk_s sk' = map (fun '(row, rs) => add_masks e row rs) (combine (sk_s sk) rss) /\
    forall i j, In (i, j) (mask_pairs e) -> (i < 2 ^ e - 1)%nat /\ (i < j < 2 ^ e)%nat.
Proof.
  intros O fuel P e sk sk' Hd [L F] E. unfold sk_refresh in E. rewrite Hd in E. apply bind_ok_inv in E. destruct E as ([s g'] & E1 & E). injection E as <-.
  unfold pv_refresh in E1. destruct (pv_refresh_masks O fuel e (sk_s sk) [] _ s g' F E1) as (rss & Lr & Fr & D & ->).
  exists rss, g'. split; [transitivity (length (sk_s sk)); [exact Lr|exact L]|]. split; [exact Fr|]. split; [exact D|]. split; [reflexivity|].
  intros i j H. apply pairs_range in H. lia.
Qed.
Print Assumptions C46_refresh_program.

(* C46, the effect: with masks chosen uniformly from all tuples, any 2^e - 1 of the 2^e shares are
   uniformly distributed, independent of the shares and of the secret before.  For any two sharings
   a, a' (of the same or of different secrets), any left-out position p and any two views v, v' of
   the other positions, adding a fixed tuple delta is a permutation of the mask tuples that maps
   those turning a into the view v exactly onto those turning a' into v': both views have the same
   number of mask tuples.  Every view has at least one. *)
Theorem C46_refresh_hides_secret : forall e p a a' v v', (p < 2 ^ e)%nat ->
  masked (2 ^ e) a -> masked (2 ^ e) a' -> masked (2 ^ e) v -> masked (2 ^ e) v' ->
  (exists delta, mask_tuple e delta /\
     (forall rs, mask_tuple e rs -> mask_tuple e (tuple_add rs delta)) /\
     (forall rs', mask_tuple e rs' -> exists! rs, mask_tuple e rs /\ tuple_add rs delta = rs') /\
     (forall rs, mask_tuple e rs ->
        (agree_except p (2 ^ e) (add_masks e a rs) v <-> agree_except p (2 ^ e) (add_masks e a' (tuple_add rs delta)) v'))) /\
  (exists rs, mask_tuple e rs /\ agree_except p (2 ^ e) (add_masks e a rs) v).
Proof.
  intros e p a a' v v' Hp Ha Ha' Hv Hv'. split; [|apply view_reached; assumption].
  destruct (shift_masks e p a a' v v' Hp Hv Hv') as (delta & Hd & H). exists delta. split; [exact Hd|].
  split; [intros rs Hr; apply tuple_add_ok; assumption|]. split; [apply tuple_add_perm; exact Hd|exact H].
Qed.
Print Assumptions C46_refresh_hides_secret.

(* four shares: four masks; the first three shares of a sharing of zero become arbitrary *)
Definition unit_poly (c : Z) : list Z := repeat c 512.
Lemma unit_poly_ok c : 0 <= c < q -> is_poly (unit_poly c).
Proof. intros H. split; [apply repeat_length|]. apply Forall_forall. intros x Hx. apply repeat_spec in Hx. subst x. exact H. Qed.
Ltac units := repeat first [apply Forall_nil | apply Forall_cons; [apply unit_poly_ok; vm_compute; split; [discriminate|reflexivity]|]].
Example C46_nonvacuous :
  mask_pairs 2 = [(0, 1); (2, 3); (0, 2); (1, 3)]%nat /\
  masked (2 ^ 2) [unit_poly 0; unit_poly 0; unit_poly 0; unit_poly 0] /\
  masked (2 ^ 2) [unit_poly 1; unit_poly 2; unit_poly 3; unit_poly (q - 6)] /\
  mask_tuple 2 [unit_poly 5; unit_poly 7; unit_poly (q - 4); unit_poly 7] /\
  map (fun s => coef s 100) (add_masks 2 [unit_poly 0; unit_poly 0; unit_poly 0; unit_poly 0] [unit_poly 5; unit_poly 7; unit_poly (q - 4); unit_poly 7])
  = [1; 2; 11; q - 14].
Proof.
  split; [reflexivity|]. split; [split; [reflexivity|units]|].
  split; [split; [reflexivity|units]|].
  split; [split; [reflexivity|units]|].
  vm_compute. reflexivity.
Qed.
(* refresh() of a two-share key returns *)
Example C46_program_nonvacuous : exists sk', sk_refresh ex_O 512 (Params 128 5 1 2 6 42 41 44 4 19 11524 41954689765971 14656575897)
  (Skey (Pkey [] []) [[unit_poly 3; unit_poly 4]]) = Ok sk'.
Proof.
  assert (X : match sk_refresh ex_O 512 (Params 128 5 1 2 6 42 41 44 4 19 11524 41954689765971 14656575897)
      (Skey (Pkey [] []) [[unit_poly 3; unit_poly 4]]) with Ok _ => true | _ => false end = true) by (vm_compute; reflexivity).
  destruct (sk_refresh _ _ _ _) as [sk'| |]; [exists sk'; reflexivity|discriminate|discriminate].
Qed.
