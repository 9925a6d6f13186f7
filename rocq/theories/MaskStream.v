(* The words of the masked generator over any history of calls. *)
From Coq Require Import ZArith List Bool Lia.
From Verif Require Import ModelBase ModelU128 ModelField ModelUtils ModelPoly ModelVec.
From Verif Require Import Spec SpecMask.
From Verif Require Import Words FieldProofs ArithLemmas PolyProofs NttLayers MaskedProofs SampleProofs MaskedLemmas FinProofs.
Import ListNotations.
Open Scope Z_scope.

(* word k of the stream that starts in the all-zero Ascon state *)
Definition stream_word (O : oracles) (k : nat) : Z := a0 (Nat.iter k (ascon_permute O 6) ascon_zero).
(* calls of get with the indices is, in order: the words returned, the generator afterwards *)
Fixpoint get_calls (O : oracles) (d : nat) (is : list nat) (m : mrng) : list Z * mrng :=
  match is with
  | [] => ([], m)
  | i :: is => let r := mrng_get O d i m in let rs := get_calls O d is (snd r) in (fst r :: fst rs, snd rs)
  end.
(* how often i is called *)
Definition uses (i : nat) (is : list nat) : nat := count_occ Nat.eq_dec is i.

(* state i has been stepped c i times *)
Definition stepped (O : oracles) (d : nat) (c : nat -> nat) (m : mrng) : Prop :=
  length m = (d - 1)%nat /\ forall i, (i < d - 1)%nat -> nth i m ascon_zero = Nat.iter (c i) (ascon_permute O 6) ascon_zero.
Lemma stepped_new O d : stepped O d (fun _ => 0%nat) (mrng_new O d).
Proof. rewrite mrng_new_eq. split; [apply repeat_length|]. intros i Hi. rewrite nth_repeat. reflexivity. Qed.
Lemma stepped_get O d c m i : stepped O d c m ->
  fst (mrng_get O d i m) = (if (i <? d - 1)%nat then stream_word O (c i) else 0) /\
  stepped O d (fun j => (c j + if Nat.eq_dec i j then 1 else 0)%nat) (snd (mrng_get O d i m)).
Proof.
  intros [L H]. unfold mrng_get. destruct (i <? d - 1)%nat eqn:E.
  - apply Nat.ltb_lt in E. replace (d - 1 <=? i)%nat with false by (symmetry; apply Nat.leb_gt; exact E). cbn [fst snd].
    split; [unfold stream_word; rewrite <- (H i E); reflexivity|]. split; [rewrite upd_length; exact L|].
    intros j Hj. destruct (Nat.eq_dec i j) as [<-|N].
    + rewrite upd_nth_eq by (unfold mrng in *; lia). rewrite (H i E), Nat.add_1_r. reflexivity.
    + rewrite upd_nth_neq by lia. rewrite Nat.add_0_r. apply H. exact Hj.
  - apply Nat.ltb_ge in E. replace (d - 1 <=? i)%nat with true by (symmetry; apply Nat.leb_le; exact E). cbn [fst snd].
    split; [reflexivity|]. split; [exact L|]. intros j Hj. destruct (Nat.eq_dec i j); [lia|]. rewrite Nat.add_0_r. apply H. exact Hj.
Qed.
Lemma stepped_ext O d c c' m : (forall i, (i < d - 1)%nat -> c i = c' i) -> stepped O d c m -> stepped O d c' m.
Proof. intros E [L H]. split; [exact L|]. intros i Hi. rewrite <- (E i Hi). apply H, Hi. Qed.
Lemma stepped_fun O d c m m' : stepped O d c m -> stepped O d c m' -> m = m'.
Proof.
  intros [L H] [L' H']. apply (nth_ext _ _ ascon_zero ascon_zero); [unfold mrng in *; congruence|].
  intros i Hi. unfold mrng in *. rewrite L in Hi. rewrite (H i Hi), (H' i Hi). reflexivity.
Qed.
Lemma uses_cons i j is : uses j (i :: is) = ((if Nat.eq_dec i j then 1 else 0) + uses j is)%nat.
Proof. unfold uses. cbn [count_occ]. destruct (Nat.eq_dec i j); reflexivity. Qed.
Lemma get_calls_gen O d is : forall c m, stepped O d c m ->
  length (fst (get_calls O d is m)) = length is /\
  (forall n, (n < length is)%nat -> nth n (fst (get_calls O d is m)) 0
     = let i := nth n is 0%nat in if (i <? d - 1)%nat then stream_word O (c i + uses i (firstn n is)) else 0) /\
  stepped O d (fun j => (c j + uses j is)%nat) (snd (get_calls O d is m)).
Proof.
  induction is as [|i is IH]; intros c m Hm; cbn [get_calls].
  - split; [reflexivity|]. split; [intros n Hn; cbn in Hn; lia|]. cbn [snd]. eapply stepped_ext; [|exact Hm]. intros j _. cbn. lia.
  - destruct (stepped_get O d c m i Hm) as [V S1]. destruct (IH _ _ S1) as (L & N & S2). cbn [fst snd]. split; [cbn [length]; lia|]. split.
    + intros [|n] Hn; cbn [nth firstn].
      * rewrite V. cbn zeta. cbn. rewrite Nat.add_0_r. reflexivity.
      * cbn [length] in Hn. rewrite N by lia. cbn zeta. rewrite uses_cons. rewrite <- Nat.add_assoc. reflexivity.
    + eapply stepped_ext; [|exact S2]. intros j _. rewrite uses_cons. lia.
Qed.

Lemma sample_loop_words O fuel d i : (i < d - 1)%nat -> forall c m acc p m', stepped O d c m -> (length acc < 512)%nat ->
  sample_polynomial_loop O fuel d i m acc = Ok (p, m') ->
  exists n, (0 < n)%nat /\ p = acc ++ filter (fun x => x <? q) (map (fun t => stream_word O t mod 2 ^ 49) (seq (c i) n)) /\
    length p = 512%nat /\ stream_word O (c i + n - 1) mod 2 ^ 49 < q /\ m' = snd (get_calls O d (repeat i n) m).
Proof.
  intros Hi. induction fuel as [|f IH]; intros c m acc p m' Hm La E; cbn [sample_polynomial_loop] in E.
  - replace (PN <=? length acc)%nat with false in E by (symmetry; apply Nat.leb_gt; exact La). discriminate E.
  - replace (PN <=? length acc)%nat with false in E by (symmetry; apply Nat.leb_gt; exact La).
    destruct (stepped_get O d c m i Hm) as [V S1]. destruct (mrng_get O d i m) as [v m1] eqn:EG. cbn [fst snd] in V, S1. rewrite (proj2 (Nat.ltb_lt _ _) Hi) in V.
    assert (EL : Z.land v MASK49 = stream_word O (c i) mod 2 ^ 49).
    { rewrite V. apply MASK49_spec. }
    cbn zeta in E. rewrite EL in E. rewrite <- q_Q in E. destruct (stream_word O (c i) mod 2 ^ 49 <? q) eqn:EQ.
    + destruct (Nat.eq_dec (length acc) 511) as [E511|N511].
      * assert (LP : length (acc ++ [stream_word O (c i) mod 2 ^ 49]) = 512%nat) by (rewrite app_length; cbn [length]; lia).
        assert (E2 : Ok (acc ++ [stream_word O (c i) mod 2 ^ 49], m1) = Ok (p, m')).
        { rewrite <- E. destruct f; cbn [sample_polynomial_loop]; rewrite LP; reflexivity. }
        injection E2 as <- <-. exists 1%nat. split; [lia|]. cbn [seq map filter repeat get_calls snd fst]. rewrite EQ, EG. split; [reflexivity|]. split; [exact LP|].
        split; [rewrite Nat.add_sub; apply Z.ltb_lt, EQ|reflexivity].
      * assert (La' : (length (acc ++ [(stream_word O (c i) mod 2 ^ 49)%Z]) < 512)%nat) by (rewrite app_length; cbn [length]; lia).
        destruct (IH _ _ _ _ _ S1 La' E) as (n & Hn & Ep & Lp & Hl & Em). cbn beta in Ep, Hl. destruct (Nat.eq_dec i i) as [_|X]; [|congruence].
        exists (S n). split; [lia|]. cbn [seq map filter repeat get_calls snd fst]. rewrite EQ, EG. split; [rewrite Ep, <- app_assoc, Nat.add_1_r; reflexivity|]. split; [exact Lp|].
        split; [replace (c i + S n - 1)%nat with (c i + 1 + n - 1)%nat by lia; exact Hl|exact Em].
    + destruct (IH _ _ _ _ _ S1 La E) as (n & Hn & Ep & Lp & Hl & Em). cbn beta in Ep, Hl. destruct (Nat.eq_dec i i) as [_|X]; [|congruence].
      exists (S n). split; [lia|]. cbn [seq map filter repeat get_calls snd fst]. rewrite EQ, EG. split; [rewrite Ep, Nat.add_1_r; reflexivity|]. split; [exact Lp|].
      split; [replace (c i + S n - 1)%nat with (c i + 1 + n - 1)%nat by lia; exact Hl|exact Em].
Qed.
Lemma get_calls_app O d is js : forall m, snd (get_calls O d (is ++ js) m) = snd (get_calls O d js (snd (get_calls O d is m))).
Proof. induction is as [|i is IH]; intros m; cbn [app get_calls snd]; [reflexivity|apply IH]. Qed.
Lemma mask_streams :
  (forall O d is, length (fst (get_calls O d is (mrng_new O d))) = length is /\
     forall n, (n < length is)%nat -> nth n (fst (get_calls O d is (mrng_new O d))) 0
       = let i := nth n is 0%nat in if (i <? d - 1)%nat then stream_word O (uses i (firstn n is)) else 0) /\
  (forall O fuel d is i p m', (i < d - 1)%nat ->
     sample_polynomial O fuel d i (snd (get_calls O d is (mrng_new O d))) = Ok (p, m') ->
     exists n, (0 < n)%nat /\ p = filter (fun x => x <? q) (map (fun t => stream_word O t mod 2 ^ 49) (seq (uses i is) n)) /\
       length p = 512%nat /\ stream_word O (uses i is + n - 1) mod 2 ^ 49 < q /\
       m' = snd (get_calls O d (is ++ repeat i n) (mrng_new O d))).
Proof.
  split.
  - intros O d is. destruct (get_calls_gen O d is _ _ (stepped_new O d)) as (L & N & _). split; [exact L|exact N].
  - intros O fuel d is i p m' Hi E. destruct (get_calls_gen O d is _ _ (stepped_new O d)) as (_ & _ & S1).
    unfold sample_polynomial in E. replace (d - 1 <=? i)%nat with false in E by (symmetry; apply Nat.leb_gt; exact Hi).
    destruct (sample_loop_words O fuel d i Hi _ _ [] p m' S1 ltac:(apply Nat.ltb_lt; reflexivity) E) as (n & Hn & Ep & Lp & Hl & Em).
    exists n. split; [exact Hn|]. split; [exact Ep|]. split; [exact Lp|]. split; [exact Hl|]. rewrite get_calls_app. exact Em.
Qed.
