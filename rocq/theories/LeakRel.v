(* Two executions of a routine of ModelLeak.v that agree on the public data have the same trace. *)
From Coq Require Import ZArith Lia Bool List Arith.
From Verif Require Import ModelBase ModelU128 ModelField ModelUtils ModelPoly ModelVec ModelSerial ModelLeak.
Import ListNotations.
Open Scope Z_scope.

(* same trace, same way of ending, results related by R *)
Definition rel {A} (R : A -> A -> Prop) (m m' : lk A) : Prop :=
  snd m = snd m' /\
  match fst m, fst m' with
  | Ok a, Ok b => R a b
  | UB, UB => True
  | OutOfFuel, OutOfFuel => True
  | _, _ => False
  end.
Definition any {A} (_ _ : A) : Prop := True.
Lemma rel_ret {A} (R : A -> A -> Prop) a b : R a b -> rel R (lret a) (lret b).
Proof. intros H. split; [reflexivity|exact H]. Qed.
Lemma rel_bind {A B} (R : A -> A -> Prop) (S : B -> B -> Prop) m m' k k' :
  rel R m m' -> (forall a b, R a b -> rel S (k a) (k' b)) -> rel S (lbind m k) (lbind m' k').
Proof.
  intros [E H] K. unfold rel, lbind. destruct m as [[a| |] t], m' as [[b| |] t']; cbn [fst snd] in *; try contradiction; subst t'.
  - destruct (K a b H) as [E2 H2]. rewrite E2. split; [reflexivity|exact H2].
  - split; [reflexivity|exact Logic.I].
  - split; [reflexivity|exact Logic.I].
Qed.
Lemma rel_for {I S} (R : S -> S -> Prop) (b b' : I -> S -> lk S) : (forall i s s', R s s' -> rel R (b i s) (b' i s')) ->
  forall l s s', R s s' -> rel R (for_ l b s) (for_ l b' s').
Proof.
  intros H l. induction l as [|i l IH]; intros s s' Hs; [apply rel_ret; exact Hs|]. cbn [for_]. eapply rel_bind; [apply H; exact Hs|]. intros x y Hxy. apply IH. exact Hxy.
Qed.
Lemma rel_snd {A} (R : A -> A -> Prop) m m' : rel R m m' -> snd m = snd m'.
Proof. intros H. exact (proj1 H). Qed.
Lemma rel_same {A} (m : lk A) : rel eq m m.
Proof. split; [reflexivity|]. destruct (fst m); [reflexivity|exact Logic.I|exact Logic.I]. Qed.
Lemma rel_any {A} (R : A -> A -> Prop) m m' : rel R m m' -> rel any m m'.
Proof. intros [E H]. split; [exact E|]. destruct (fst m), (fst m'); try exact H; exact Logic.I. Qed.
Lemma rel_ok {A} (a b : A) t : rel any (Ok a, t) (Ok b, t).
Proof. split; [reflexivity|exact Logic.I]. Qed.

(* every primitive but m_branch and m_index *)
Ltac ni1 :=
  match goal with
  | |- rel any (let '(_, _) := ?x in _) (let '(_, _) := ?y in _) => destruct x, y
  | |- rel _ (if ?b then _ else _) (if ?b then _ else _) => destruct b
  | |- rel any (lbind _ _) (lbind _ _) => eapply (rel_bind any); [|intros ? ? _; cbv beta]
  | |- rel any (for_ _ _ _) (for_ _ _ _) => apply rel_for; [intros ? ? ? _|exact Logic.I]
  | |- rel any (m_op _ _ _ _) _ => apply rel_ok
  | |- rel any (m_neg _ _) _ => apply rel_ok
  | |- rel any (m_not _ _) _ => apply rel_ok
  | |- rel any (m_shl _ _ _) _ => apply rel_ok
  | |- rel any (m_shr _ _ _) _ => apply rel_ok
  | |- rel any (m_ct_eq _ _ _) _ => apply rel_ok
  | |- rel any (m_ct_ge _ _ _) _ => apply rel_ok
  | |- rel any (ld _ _ _) _ => apply rel_ok
  | |- rel any (st _ _ _) _ => apply rel_ok
  | |- rel any (lret _) _ => apply rel_ok
  end.
Ltac ni := repeat ni1.
Tactic Notation "prim" := progress ni1.

Section NI.
  Variable O : oracles.
  Notation M := (zm O).
  Definition ni1_ {A B} (f : A -> lk B) : Prop := forall a a', rel any (f a) (f a').
  Definition ni2_ {A B C} (f : A -> B -> lk C) : Prop := forall a a' b b', rel any (f a b) (f a' b').

  Lemma ct_eq_n a a' b b' : length a = length a' -> rel any (ct_eq_byte_array_l M a b) (ct_eq_byte_array_l M a' b').
  Proof. intros L. unfold ct_eq_byte_array_l. rewrite L. ni. Qed.
  Lemma from_le_n sz b b' : length b = length b' -> rel any (from_le_bytes_l M sz b) (from_le_bytes_l M sz b').
  Proof. intros L. unfold from_le_bytes_l. rewrite L. ni. Qed.
  Lemma mul_full_n : ni2_ (mul_full_l M).
  Proof. intros a a' b b'. unfold mul_full_l. ni. Qed.
  Lemma add128_n : ni2_ (u128_add_l M).
  Proof. intros a a' b b'. unfold u128_add_l. ni. Qed.
  Lemma neg128_n : ni1_ (u128_neg_l M).
  Proof. intros a a'. unfold u128_neg_l. ni. Qed.
  Lemma sub128_n : ni2_ (u128_sub_l M).
  Proof. intros a a' b b'. unfold u128_sub_l. eapply (rel_bind any); [apply neg128_n|]. intros. apply add128_n. Qed.
  Lemma mul128_n : ni2_ (u128_mul_l M).
  Proof. intros [ah al] [ah' al'] [bh bl] [bh' bl']. unfold u128_mul_l. eapply (rel_bind any); [apply mul_full_n|]. intros [? ?] [? ?] _. ni. Qed.
  Lemma shl128_n n : ni1_ (fun a => u128_shl_l M a n).
  Proof. intros [ah al] [ah' al']. unfold u128_shl_l. ni. Qed.
  Lemma shr128_n n : ni1_ (fun a => u128_shr_l M a n).
  Proof. intros [ah al] [ah' al']. unfold u128_shr_l. ni. Qed.
  Lemma or128_n : ni2_ (u128_or_l M).
  Proof. intros [ah al] [ah' al'] [bh bl] [bh' bl']. unfold u128_or_l. ni. Qed.
  Lemma and128_n : ni2_ (u128_and_l M).
  Proof. intros [ah al] [ah' al'] [bh bl] [bh' bl']. unfold u128_and_l. ni. Qed.
  Lemma reduce_n q : ni1_ (reduce_once_mod_l M q).
  Proof. intros a a'. unfold reduce_once_mod_l. ni. Qed.
  Lemma barrett_n : ni1_ (barrett_reduce_l M).
  Proof.
    intros v v'. unfold barrett_reduce_l.
    repeat (eapply (rel_bind any); [first [apply shr128_n|apply shl128_n|apply and128_n|apply or128_n|apply mul128_n|apply add128_n|apply sub128_n]|intros ? ? _; cbv beta]).
    apply reduce_n.
  Qed.
  Lemma zq_add_n : ni2_ (zq_add_l M).
  Proof. intros a a' b b'. unfold zq_add_l. ni. apply reduce_n. Qed.
  Lemma zq_sub_n : ni2_ (zq_sub_l M).
  Proof. intros a a' b b'. unfold zq_sub_l. eapply (rel_bind any); [prim|]. intros. apply zq_add_n. Qed.
  Lemma zq_mul_n : ni2_ (zq_mul_l M).
  Proof. intros a a' b b'. unfold zq_mul_l. eapply (rel_bind any); [apply mul128_n|]. intros. apply barrett_n. Qed.
  Lemma zq_shl_n off : ni1_ (zq_shl_l M off).
  Proof. intros a a'. unfold zq_shl_l. eapply (rel_bind any); [prim|]. intros. apply barrett_n. Qed.

  Ltac zop :=
    match goal with
    | |- rel any (zq_mul_l _ _ _) _ => apply zq_mul_n
    | |- rel any (zq_sub_l _ _ _) _ => apply zq_sub_n
    | |- rel any (zq_add_l _ _ _) _ => apply zq_add_n
    | _ => prim
    end.
  Lemma each2_n f : ni2_ f -> ni2_ (each2 M f).
  Proof. intros H a a' b b'. unfold each2. ni. apply H. Qed.
  Lemma each1_n f : ni1_ f -> ni1_ (each1 M f).
  Proof. intros H a a'. unfold each1. ni. apply H. Qed.
  Lemma each_here_n f : ni1_ f -> ni1_ (each_here M f).
  Proof. intros H a a'. unfold each_here. apply rel_for; [intros i s s' _|exact Logic.I]. ni. apply H. Qed.
  Lemma poly_add_n : ni2_ (poly_add_l M). Proof. apply each2_n, zq_add_n. Qed.
  Lemma poly_sub_n : ni2_ (poly_sub_l M). Proof. apply each2_n, zq_sub_n. Qed.
  Lemma poly_mul_n : ni2_ (poly_mul_l M). Proof. apply each2_n, zq_mul_n. Qed.
  Lemma poly_add_mod_n q : ni2_ (poly_add_mod_l M q).
  Proof. apply each2_n. intros a a' b b'. ni. apply reduce_n. Qed.
  Lemma poly_sub_mod_n q : ni2_ (poly_sub_mod_l M q).
  Proof. apply each2_n. intros a a' b b'. ni. apply reduce_n. Qed.
  Lemma poly_shl_n off : ni1_ (poly_shl_l M off). Proof. apply each1_n, zq_shl_n. Qed.
  Lemma poly_rshr_n off : ni1_ (poly_rounding_shr_l M off).
  Proof. apply each_here_n. intros a a'. ni. apply reduce_n. Qed.
  Lemma poly_eqb_n : ni2_ (poly_eqb_l M).
  Proof. intros a a' b b'. unfold poly_eqb_l. ni. Qed.
  Lemma ntt_n : ni1_ (ntt_l M).
  Proof.
    intros a a'. unfold ntt_l. apply rel_for; [intros l s s' _|exact Logic.I]. unfold ntt_layer_l.
    apply rel_for; [intros start p p' _|exact Logic.I]. eapply (rel_bind any); [prim|]. intros z z' _.
    apply rel_for; [intros i q q' _|exact Logic.I]. unfold ntt_butterfly_l.
    repeat (eapply (rel_bind any); [zop|intros ? ? _; cbv beta]). prim.
  Qed.
  Lemma intt_n : ni1_ (intt_l M).
  Proof.
    intros a a'. unfold intt_l. eapply (rel_bind any).
    - apply rel_for; [intros l s s' _|exact Logic.I]. unfold intt_layer_l.
      apply rel_for; [intros start p p' _|exact Logic.I]. eapply (rel_bind any); [prim|]. intros z z' _.
      apply rel_for; [intros i q q' _|exact Logic.I]. unfold intt_butterfly_l.
      repeat (eapply (rel_bind any); [zop|intros ? ? _; cbv beta]). prim.
    - intros p p' _. apply each_here_n. intros x x'. apply zq_mul_n.
  Qed.
  Lemma rows1_n {A B} (x : A) n (f : A -> lk B) : ni1_ f -> ni1_ (rows1 x n f).
  Proof. intros H a a'. unfold rows1. ni. apply H. Qed.
  Lemma rows2_n {A B C} (x : A) (y : B) n (f : A -> B -> lk C) : ni2_ f -> ni2_ (rows2 x y n f).
  Proof. intros H a a' b b'. unfold rows2. ni. apply H. Qed.
  Lemma mp_add_n d : ni2_ (mp_add_l M d). Proof. apply rows2_n, poly_add_n. Qed.
  Lemma mp_sub_n d : ni2_ (mp_sub_l M d). Proof. apply rows2_n, poly_sub_n. Qed.
  Lemma mp_shl_n d off : ni1_ (mp_shl_l M d off). Proof. apply rows1_n, poly_shl_n. Qed.
  Lemma mp_rshr_n d off : ni1_ (mp_rounding_shr_l M d off). Proof. apply rows1_n, poly_rshr_n. Qed.
  Lemma mp_ntt_n d : ni1_ (mp_ntt_l M d). Proof. apply rows1_n, ntt_n. Qed.
  Lemma mp_intt_n d : ni1_ (mp_intt_l M d). Proof. apply rows1_n, intt_n. Qed.
  Lemma mp_mul_poly_n d : ni2_ (mp_mul_poly_l M d).
  Proof. intros c c' a a'. unfold mp_mul_poly_l, shares1, rows1. ni. apply poly_mul_n. Qed.
  Lemma mp_eqb_n d : ni2_ (mp_eqb_l M d).
  Proof. intros a a' b b'. unfold mp_eqb_l. ni. apply poly_eqb_n. Qed.
  Lemma mp_decode_n d : ni1_ (mp_decode_l M d).
  Proof. intros a a'. unfold mp_decode_l. apply rel_for; [|exact Logic.I]. intros. apply poly_add_n. Qed.

  (* results are (something secret, state of the masked generator) with equal generators *)
  Definition same_g {A} (x y : A * mrng) : Prop := snd x = snd y.
  Lemma rel_same_g {A} (m : lk (A * mrng)) : rel same_g m m.
  Proof. split; [reflexivity|]. destruct (fst m); reflexivity. Qed.
  Lemma mp_refresh_n fuel d a a' g : rel same_g (mp_refresh_l M fuel d a g) (mp_refresh_l M fuel d a' g).
  Proof.
    unfold mp_refresh_l. eapply (rel_bind eq); [apply rel_same|]. intros [z g1] ? <-.
    eapply (rel_bind any); [apply mp_add_n|]. intros s s' _. apply rel_ret. reflexivity.
  Qed.
  Lemma sampleU_n u hdr sg sg' : length sg = length sg' -> rel any (sampleU_l M u hdr sg) (sampleU_l M u hdr sg').
  Proof.
    intros L. unfold sampleU_l. cbv zeta. eapply (rel_bind (fun x y => length x = length y)).
    - split; [cbn [snd zm m_squeeze]; rewrite !app_length, L; reflexivity|]. cbn [fst zm m_squeeze]. rewrite !map_length. reflexivity.
    - intros b b' Lb. apply rel_for; [intros i s s' _|exact Logic.I]. eapply (rel_bind any); [apply from_le_n; rewrite !firstn_length, !skipn_length, Lb; reflexivity|].
      intros w w' _. cbv beta. repeat (eapply (rel_bind any); [prim|intros ? ? _; cbv beta]). prim.
  Qed.
  Lemma noise_coeff_n : ni2_ (noise_coeff_l M).
  Proof. intros a a' b b'. unfold noise_coeff_l. ni. Qed.
  Lemma read_n p p' n : rel (fun x y => length (fst x) = length (fst y)) (m_read M p n) (m_read M p' n).
  Proof. split; [reflexivity|]. cbn [fst zm m_read prng_read]. rewrite !map_length, !seq_length. reflexivity. Qed.
  Lemma noise_share_n u kappa idx i_rep sidx : ni1_ (noise_share_l M u kappa idx i_rep sidx).
  Proof.
    intros [mp p] [mp' p']. unfold noise_share_l. eapply rel_bind; [apply read_n|]. intros [sg q] [sg' q'] L. cbn [fst] in L.
    eapply (rel_bind any); [apply sampleU_n; exact L|]. intros f f' _. eapply (rel_bind any).
    - apply rel_for; [intros i s s' _|exact Logic.I]. repeat (eapply (rel_bind any); [first [prim|apply noise_coeff_n]|intros ? ? _; cbv beta]). prim.
    - intros x x' _. prim.
  Qed.
  Lemma mp_noise_n fuel u rep kappa d idx a a' p p' g :
    rel same_g (mp_add_rep_noise_l M fuel u rep kappa d idx a p g) (mp_add_rep_noise_l M fuel u rep kappa d idx a' p' g).
  Proof.
    unfold mp_add_rep_noise_l. apply rel_for; [|reflexivity]. intros i [[b q] g1] [[b' q'] g2] E. unfold same_g in E. cbn [snd] in E. subst g2.
    eapply (rel_bind any); [apply rel_for; [intros; apply noise_share_n|exact Logic.I]|]. intros [c o] [c' o'] _.
    eapply rel_bind; [apply mp_refresh_n|]. intros [e g3] [e' g4] E. unfold same_g in E. cbn [snd] in E. subst g4. apply rel_ret. reflexivity.
  Qed.
  Lemma pv_add_n rows d : ni2_ (pv_add_l M rows d). Proof. apply rows2_n, mp_add_n. Qed.
  Lemma pv_sub_n rows d : ni2_ (pv_sub_l M rows d). Proof. apply rows2_n, mp_sub_n. Qed.
  Lemma pv_mul_poly_n rows d : ni2_ (pv_mul_poly_l M rows d).
  Proof. intros v v' c c'. unfold pv_mul_poly_l, rows1. ni. apply mp_mul_poly_n. Qed.
  Lemma pv_rshr_n rows d off : ni1_ (pv_rounding_shr_l M rows d off). Proof. apply rows1_n, mp_rshr_n. Qed.
  Lemma pv_ntt_n rows d : ni1_ (pv_ntt_l M rows d). Proof. apply rows1_n, mp_ntt_n. Qed.
  Lemma pv_intt_n rows d : ni1_ (pv_intt_l M rows d). Proof. apply rows1_n, mp_intt_n. Qed.
  Lemma pv_decode_n rows d : ni1_ (pv_decode_l M rows d).
  Proof. apply rows1_n. intros a a'. eapply (rel_bind any); [apply mp_decode_n|]. intros. prim. Qed.
  Lemma pv_refresh_n fuel rows d v v' g : rel same_g (pv_refresh_l M fuel rows d v g) (pv_refresh_l M fuel rows d v' g).
  Proof.
    unfold pv_refresh_l. apply rel_for; [|reflexivity]. intros i [b g1] [b' g2] E. unfold same_g in E. cbn [snd] in E. subst g2.
    eapply rel_bind; [apply mp_refresh_n|]. intros [e g3] [e' g4] E. unfold same_g in E. cbn [snd] in E. subst g4. apply rel_ret. reflexivity.
  Qed.
  Lemma pv_noise_n fuel u rep kappa rows d v v' p p' g :
    rel same_g (pv_add_rep_noise_l M fuel u rep kappa rows d v p g) (pv_add_rep_noise_l M fuel u rep kappa rows d v' p' g).
  Proof.
    unfold pv_add_rep_noise_l. apply rel_for; [|reflexivity]. intros i [[b q] g1] [[b' q'] g2] E. unfold same_g in E. cbn [snd] in E. subst g2.
    eapply rel_bind; [apply mp_noise_n|]. intros [[e o] g3] [[e' o'] g4] E. unfold same_g in E. cbn [snd] in E. subst g4. apply rel_ret. reflexivity.
  Qed.
  Lemma to_le_n v v' off n out out' : rel any (to_le_bytes_l M v off n out) (to_le_bytes_l M v' off n out').
  Proof. unfold to_le_bytes_l. ni. Qed.
  Definition same_pos (x y : list Z * Z * Z * Z) : Prop :=
    let '(_, off, _, b) := x in let '(_, off', _, b') := y in off = off' /\ b = b'.
  Lemma mc_row_n c c' out out' off : rel (fun x y => snd x = snd y) (mc_row_l M c (out, off)) (mc_row_l M c' (out', off)).
  Proof.
    unfold mc_row_l. eapply (rel_bind same_pos).
    - apply rel_for; [|split; reflexivity]. intros i [[[o f] bu] bb] [[[o' f'] bu'] bb'] [<- <-]. unfold mc_put_l.
      repeat (eapply (rel_bind any); [first [prim|apply to_le_n]|intros ? ? _; cbv beta zeta]). apply rel_ret. split; reflexivity.
    - intros [[[o f] bu] bb] [[[o' f'] bu'] bb'] [E1 E2]. apply rel_ret. exact E1.
  Qed.
  Lemma mat_row_n cols d r : ni2_ (fun A v => mat_row_l M cols d A v r).
  Proof.
    intros A A' v v'. unfold mat_row_l. apply rel_for; [intros c s s' _|exact Logic.I]. apply rel_for; [intros i p p' _|exact Logic.I].
    eapply (rel_bind any); [apply poly_mul_n|]. intros. eapply (rel_bind any); [apply poly_add_n|]. intros. prim.
  Qed.
  Lemma mat_mul_n rows cols d : ni2_ (mat_mul_l M rows cols d).
  Proof.
    intros A A' v v'. unfold mat_mul_l. apply rel_for; [intros r s s' _|exact Logic.I]. eapply (rel_bind any); [apply (mat_row_n cols d r)|]. intros. prim.
  Qed.
  Ltac gb L := eapply rel_bind; [apply L|].
  Ltac g3 := intros [[? ?] ?] [[? ?] ?] E; unfold same_g in E; cbn [snd] in E; subst.
  Ltac g2 := intros [? ?] [? ?] E; unfold same_g in E; cbn [snd] in E; subst.
  Lemma generate_n fuel Pm A A' p p' g : rel any (generate_l M fuel Pm A p g) (generate_l M fuel Pm A' p' g).
  Proof.
    unfold generate_l. eapply (rel_bind same_g); [apply rel_same_g|]. g2. gb pv_noise_n. g3. gb pv_ntt_n. intros ? ? _. gb mat_mul_n. intros ? ? _.
    gb pv_intt_n. intros ? ? _. gb pv_noise_n. g3. gb pv_decode_n. intros ? ? _. gb pv_rshr_n. intros ? ? _. prim.
  Qed.
  Lemma commit_n fuel Pm A A' p p' g : rel same_g (commit_l M fuel Pm A p g) (commit_l M fuel Pm A' p' g).
  Proof.
    unfold commit_l. eapply (rel_bind same_g); [apply rel_same_g|]. g2. gb pv_noise_n. g3. gb pv_ntt_n. intros ? ? _. gb mat_mul_n. intros ? ? _.
    gb pv_intt_n. intros ? ? _. gb pv_noise_n. g3. gb pv_decode_n. intros ? ? _. gb pv_rshr_n. intros ? ? _. apply rel_ret. reflexivity.
  Qed.
  Lemma respond_n fuel Pm c c' s s' r r' g : rel same_g (respond_l M fuel Pm c s r g) (respond_l M fuel Pm c' s' r' g).
  Proof.
    unfold respond_l. gb pv_refresh_n. g2. gb pv_refresh_n. g2. gb pv_mul_poly_n. intros ? ? _. gb pv_add_n. intros ? ? _. gb pv_refresh_n. g2. gb pv_decode_n. intros ? ? _. apply rel_ret. reflexivity.
  Qed.
End NI.
