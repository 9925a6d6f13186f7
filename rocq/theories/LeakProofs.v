(* Every routine of ModelLeak.v computes the function of the same name of the model and has the same
   trace on all inputs. *)
From Coq Require Import ZArith Lia Bool List Arith.
From Coq Require Import ZifyBool ZifyNat.
From Verif Require Import ModelBase ModelU128 ModelField ModelUtils ModelPoly ModelVec ModelSerial ModelLeak.
From Verif Require Import Spec Words.
Import ListNotations.
Open Scope Z_scope.
Ltac Zify.zify_post_hook ::= idtac.
Opaque powers_of_zeta neg_powers_of_zeta INV_N.

Lemma lb {A B} (m : lk A) (k : A -> lk B) v t r t' : m = (Ok v, t) -> k v = (r, t') -> lbind m k = (r, t ++ t').
Proof. intros -> E. unfold lbind. cbn [fst snd]. rewrite E. reflexivity. Qed.
Definition pv2 (o : prim) (a b : Z) : Z :=
  match o with
  | Add => add64 a b | Sub => sub64 a b | Mul => mul64 a b
  | And => Z.land a b | Or => Z.lor a b
  | Less => b2z (a <? b) | Equal => b2z (a =? b)
  end.
Lemma op_ok O o a b : m_op (zm O) o a b = (Ok (pv2 o a b), [Op o]). Proof. reflexivity. Qed.
Ltac step := eapply lb; [reflexivity|cbv beta].
Ltac use H := eapply lb; [apply H|cbv beta].

Definition up (u : u128) : Z * Z := (u_hi u, u_lo u).
Definition const2 (f : oracles -> Z -> Z -> lk Z) (g : Z -> Z -> Z) : Prop := exists t, forall O a b, f O a b = (Ok (g a b), t).
Definition const1 (f : oracles -> Z -> lk Z) (g : Z -> Z) : Prop := exists t, forall O a, f O a = (Ok (g a), t).
Definition uconst2 (f : oracles -> Z * Z -> Z * Z -> lk (Z * Z)) (g : u128 -> u128 -> u128) : Prop :=
  exists t, forall O a b, f O (up a) (up b) = (Ok (up (g a b)), t).
Definition uconst1 (f : oracles -> Z * Z -> lk (Z * Z)) (g : u128 -> u128) : Prop :=
  exists t, forall O a, f O (up a) = (Ok (up (g a)), t).

Lemma mul_full_c : exists t, forall O a b, mul_full_l (zm O) a b = (Ok (mul_full_u64 a b), t).
Proof. eexists. intros O a b. unfold mul_full_l. repeat step. reflexivity. Qed.
Lemma add128_c : uconst2 (fun O => u128_add_l (zm O)) u128_add.
Proof. eexists. intros O [ah al] [bh bl]. unfold u128_add_l, up. cbn [u_hi u_lo]. repeat step. reflexivity. Qed.
Lemma neg128_c : uconst1 (fun O => u128_neg_l (zm O)) u128_neg.
Proof. eexists. intros O [ah al]. unfold u128_neg_l, up. cbn [u_hi u_lo]. repeat step. reflexivity. Qed.
Lemma sub128_c : uconst2 (fun O => u128_sub_l (zm O)) u128_sub.
Proof.
  destruct neg128_c as [t1 H1]. destruct add128_c as [t2 H2]. eexists. intros O a b. unfold u128_sub_l. use H1. apply H2.
Qed.
Lemma mul128_c : uconst2 (fun O => u128_mul_l (zm O)) u128_mul.
Proof.
  destruct mul_full_c as [t1 H1]. eexists. intros O [ah al] [bh bl]. unfold u128_mul_l, up, u128_mul. cbn [u_hi u_lo]. use H1.
  destruct (mul_full_u64 al bl) as [ph pl]. repeat step. reflexivity.
Qed.
Lemma shl128_c n : uconst1 (fun O a => u128_shl_l (zm O) a n) (fun a => u128_shl a n).
Proof.
  unfold uconst1, u128_shl_l, u128_shl, up.
  destruct (n =? 0); [|destruct (n =? 128); [|destruct (n <? 64); [|destruct (n =? 64)]]]; eexists; intros O [ah al]; cbn [u_hi u_lo]; repeat step; reflexivity.
Qed.
Lemma shr128_c n : uconst1 (fun O a => u128_shr_l (zm O) a n) (fun a => u128_shr a n).
Proof.
  unfold uconst1, u128_shr_l, u128_shr, up.
  destruct (n =? 0); [|destruct (n =? 128); [|destruct (n <? 64); [|destruct (n =? 64)]]]; eexists; intros O [ah al]; cbn [u_hi u_lo]; repeat step; reflexivity.
Qed.
Lemma or128_c : uconst2 (fun O => u128_or_l (zm O)) u128_or.
Proof. eexists. intros O [ah al] [bh bl]. unfold u128_or_l, up. cbn [u_hi u_lo]. repeat step. reflexivity. Qed.
Lemma and128_c : uconst2 (fun O => u128_and_l (zm O)) u128_and.
Proof. eexists. intros O [ah al] [bh bl]. unfold u128_and_l, up. cbn [u_hi u_lo]. repeat step. reflexivity. Qed.
Lemma reduce_c q : const1 (fun O => reduce_once_mod_l (zm O) q) (reduce_once_mod q).
Proof. eexists. intros O a. unfold reduce_once_mod_l. repeat step. reflexivity. Qed.
Lemma barrett_c : exists t, forall O v, barrett_reduce_l (zm O) (up v) = (Ok (barrett_reduce v), t).
Proof.
  destruct (shr128_c 64) as [ts Hs]. destruct (shl128_c 64) as [tl Hl]. destruct (shl128_c 30) as [tk Hk]. destruct (shr128_c (2 * Q_BIT_WIDTH)) as [tr Hr].
  destruct and128_c as [ta Ha]. destruct mul128_c as [tm Hm]. destruct add128_c as [td Hd]. destruct or128_c as [to Ho]. destruct sub128_c as [tb Hb]. destruct (reduce_c Q) as [tq Hq].
  eexists. intros O v. unfold barrett_reduce_l. cbn [m_lit zm].
  change (0, two64 - 1) with (up (u128_from (two64 - 1))). change (0, 0) with (up u128_zero). change (0, R) with (up (u128_from R)).
  change (0, 1048575) with (up (u128_from 1048575)). change (0, Q) with (up (u128_from Q)).
  use Hs. use Ha. use Hm. use Hm. use Hm. use Hd. use Hm. use Hs. use Ha. use Hs. use Hd. use Hs. use Hd. use Hd. use Hl. use Hd. use Ha. use Hk. use Hr. use Ho. use Hm. use Hb.
  rewrite (Hq O). f_equal. f_equal. unfold barrett_reduce. cbv zeta. unfold reduce_once, reduce_once_mod. cbn [up snd].
  match goal with |- context [u128_to 64 ?x] => assert (E : u128_to 64 x = u_lo x); [|rewrite E; reflexivity] end.
  unfold u128_to, u128_sub, u128_add. cbv zeta. cbn [u_lo]. unfold add64 at 1 3, u64, two64. change (2 ^ 64) with 18446744073709551616. apply Z.mod_mod. lia.
Qed.
Lemma zq_add_c : const2 (fun O => zq_add_l (zm O)) zq_add.
Proof. destruct (reduce_c Q) as [t H]. eexists. intros O a b. unfold zq_add_l. step. rewrite (H O). reflexivity. Qed.
Lemma zq_sub_c : const2 (fun O => zq_sub_l (zm O)) zq_sub.
Proof. destruct zq_add_c as [t H]. eexists. intros O a b. unfold zq_sub_l. step. rewrite (H O). reflexivity. Qed.
Lemma zq_mul_c : const2 (fun O => zq_mul_l (zm O)) zq_mul.
Proof.
  destruct barrett_c as [t H]. destruct mul128_c as [t2 H2]. eexists. intros O a b. unfold zq_mul_l. cbn [m_lit zm].
  change (0, a) with (up (u128_from a)). change (0, b) with (up (u128_from b)). use H2. rewrite (H O). unfold zq_mul. reflexivity.
Qed.
Lemma zq_shl_c off : const1 (fun O => zq_shl_l (zm O) off) (fun x => zq_shl x off).
Proof.
  destruct barrett_c as [t H]. eexists. intros O a. unfold zq_shl_l. step. cbn [m_lit zm]. change (0, shl64 a off) with (up (u128_from (shl64 a off))). rewrite (H O). reflexivity.
Qed.

Opaque zq_add zq_sub zq_mul.
(* ---- loops ---- *)
Lemma for_pure {I S} (J : S -> Prop) (body : I -> S -> lk S) (g : S -> I -> S) (t : I -> list event) : forall l s,
  (forall i s, In i l -> J s -> body i s = (Ok (g s i), t i) /\ J (g s i)) -> J s ->
  for_ l body s = (Ok (fold_left g l s), concat (map t l)) /\ J (fold_left g l s).
Proof.
  induction l as [|i l IH]; intros s H Hs; [split; [reflexivity|exact Hs]|]. cbn [for_ fold_left map concat].
  destruct (H i s (or_introl eq_refl) Hs) as [E Hs']. destruct (IH (g s i)) as [E2 H2]; [intros; apply H; [right|]; assumption|exact Hs'|].
  split; [|exact H2]. eapply lb; [exact E|exact E2].
Qed.
Lemma for_pure0 {I S} (body : I -> S -> lk S) (g : S -> I -> S) (t : I -> list event) l s :
  (forall i s, body i s = (Ok (g s i), t i)) -> for_ l body s = (Ok (fold_left g l s), concat (map t l)).
Proof. intros H. apply (for_pure (fun _ => True) body g t l s); [intros; split; [apply H|exact Logic.I]|exact Logic.I]. Qed.
Lemma upd_mid {A} (a : list A) x y b : upd (length a) x (a ++ y :: b) = a ++ x :: b.
Proof. induction a as [|z a IH]; [reflexivity|]. cbn [length app upd]. rewrite IH. reflexivity. Qed.
(* filling an array position by position *)
Lemma fill_loop (F : nat -> Z -> Z) : forall n (k : nat) (pre r : list Z),
  length r = n -> length pre = k ->
  fold_left (fun r i => upd i (F i (nth i r 0)) r) (seq k n) (pre ++ r) = pre ++ map (fun i => F i (nth (i - k) r 0)) (seq k n).
Proof.
  induction n as [|n IH]; intros k pre r Lr Lp; [destruct r; [reflexivity|discriminate Lr]|].
  destruct r as [|y r]; [discriminate Lr|]. cbn [length] in Lr. cbn [seq fold_left map].
  rewrite Nat.sub_diag. cbn [nth]. rewrite app_nth2 by lia. replace (k - length pre)%nat with 0%nat by lia. cbn [nth].
  replace (upd k (F k y) (pre ++ y :: r)) with (pre ++ F k y :: r) by (subst k; symmetry; apply upd_mid). change (F k y :: r) with ([F k y] ++ r). rewrite app_assoc.
  rewrite IH; [|lia|rewrite app_length; cbn [length]; lia]. rewrite <- app_assoc. cbn [app]. f_equal. f_equal.
  apply map_ext_in. intros i Hi. apply in_seq in Hi. f_equal. replace (i - k)%nat with (S (i - S k)) by lia. reflexivity.
Qed.
Lemma fill0 F n r : length r = n -> fold_left (fun r i => upd i (F i (nth i r 0)) r) (seq 0 n) r = map (fun i => F i (nth i r 0)) (seq 0 n).
Proof.
  intros L. pose proof (fill_loop F n 0 [] r L eq_refl) as E. cbn [app] in E. rewrite E. apply map_ext. intros i. rewrite Nat.sub_0_r. reflexivity.
Qed.
Lemma map_seq_nth {A B} (g : A -> B) d : forall l, map (fun i => g (nth i l d)) (seq 0 (length l)) = map g l.
Proof.
  induction l as [|x l IH]; [reflexivity|]. cbn [length seq map nth]. f_equal. rewrite <- seq_shift, map_map. exact IH.
Qed.
Lemma map_seq_nth2 {A B C} (g : A -> B -> C) d e : forall l m, length l = length m ->
  map (fun i => g (nth i l d) (nth i m e)) (seq 0 (length l)) = map2 g l m.
Proof.
  induction l as [|x l IH]; intros [|y m] L; try discriminate L; [reflexivity|]. cbn [length seq map map2 nth]. f_equal. rewrite <- seq_shift, map_map. apply IH. injection L as L; exact L.
Qed.
Definition len512 (a : list Z) : Prop := length a = 512%nat.

Lemma each_c (f : oracles -> nat -> list Z -> lk Z) (F : nat -> Z -> Z) (t : nat -> list event) r :
  (forall O i s, f O i s = (Ok (F i (nth i s 0)), t i)) -> len512 r ->
  forall O, for_ (seq 0 PN) (fun i s => z <<- f O i s ;; st s i z) r
            = (Ok (map (fun i => F i (nth i r 0)) (seq 0 PN)), concat (map (fun i => t i ++ [Store i]) (seq 0 PN))).
Proof.
  intros H L O. rewrite (for_pure0 _ (fun s i => upd i (F i (nth i s 0)) s) (fun i => t i ++ [Store i])).
  - rewrite fill0 by exact L. reflexivity.
  - intros i s. eapply lb; [apply H|reflexivity].
Qed.
Lemma lassoc {A B C} (m : lk A) (f : A -> lk B) (g : B -> lk C) : lbind (lbind m f) g = lbind m (fun x => lbind (f x) g).
Proof.
  unfold lbind. destruct m as [[a| |] t]; cbn [fst snd]; [|reflexivity|reflexivity].
  destruct (f a) as [[b| |] t']; cbn [fst snd]; [|reflexivity|reflexivity]. rewrite app_assoc. reflexivity.
Qed.
Lemma for_ext {I S} (b b' : I -> S -> lk S) : (forall i s, b i s = b' i s) -> forall l s, for_ l b s = for_ l b' s.
Proof.
  intros H l. induction l as [|i l IH]; intros s; [reflexivity|]. cbn [for_]. rewrite H. unfold lbind. destruct (b' i s) as [[x| |] t]; cbn [fst snd]; [|reflexivity|reflexivity]. rewrite IH. reflexivity.
Qed.

Lemma each2_c f g : const2 f g -> exists t, forall O a b, len512 a -> len512 b -> each2 (zm O) (f O) a b = (Ok (map2 g a b), t).
Proof.
  intros [t H]. eexists. intros O a b La Lb. unfold each2.
  rewrite (for_pure0 _ (fun s i => upd i (g (nth i a 0) (nth i b 0)) s) (fun i => [Load i] ++ [Load i] ++ t ++ [Store i])).
  - change (m_lit (zm O) 0) with 0. rewrite (fill0 (fun i _ => g (nth i a 0) (nth i b 0))) by apply repeat_length. rewrite <- (map_seq_nth2 g 0 0 a b) by (rewrite La, Lb; reflexivity). rewrite La. reflexivity.
  - intros i s. step. step. eapply lb; [apply H|reflexivity].
Qed.
Lemma each1_c f g : const1 f g -> exists t, forall O a, len512 a -> each1 (zm O) (f O) a = (Ok (map g a), t).
Proof.
  intros [t H]. eexists. intros O a La. unfold each1.
  rewrite (for_pure0 _ (fun s i => upd i (g (nth i a 0)) s) (fun i => [Load i] ++ t ++ [Store i])).
  - change (m_lit (zm O) 0) with 0. rewrite (fill0 (fun i _ => g (nth i a 0))) by apply repeat_length. rewrite <- (map_seq_nth g 0 a). rewrite La. reflexivity.
  - intros i s. step. eapply lb; [apply H|reflexivity].
Qed.
Lemma each_here_c f g : const1 f g -> exists t, forall O a, len512 a -> each_here (zm O) (f O) a = (Ok (map g a), t).
Proof.
  intros [t H]. eexists. intros O a La. unfold each_here.
  rewrite (for_pure0 _ (fun s i => upd i (g (nth i s 0)) s) (fun i => [Load i] ++ t ++ [Store i])).
  - rewrite (fill0 (fun i x => g x)) by exact La. rewrite <- (map_seq_nth g 0 a). rewrite La. reflexivity.
  - intros i s. step. eapply lb; [apply H|reflexivity].
Qed.

(* ---- polynomials ---- *)
Definition pconst2 (f : oracles -> list Z -> list Z -> lk (list Z)) (g : list Z -> list Z -> list Z) : Prop :=
  exists t, forall O a b, len512 a -> len512 b -> f O a b = (Ok (g a b), t).
Definition pconst1 (f : oracles -> list Z -> lk (list Z)) (g : list Z -> list Z) : Prop :=
  exists t, forall O a, len512 a -> f O a = (Ok (g a), t).
Lemma poly_add_c : pconst2 (fun O => poly_add_l (zm O)) poly_add.
Proof. exact (each2_c _ _ zq_add_c). Qed.
Lemma poly_sub_c : pconst2 (fun O => poly_sub_l (zm O)) poly_sub.
Proof. exact (each2_c _ _ zq_sub_c). Qed.
Lemma poly_mul_c : pconst2 (fun O => poly_mul_l (zm O)) poly_mul.
Proof. exact (each2_c _ _ zq_mul_c). Qed.
Lemma poly_add_mod_c q : pconst2 (fun O => poly_add_mod_l (zm O) q) (poly_add_mod q).
Proof.
  apply (each2_c (fun O x y => s <<- m_op (zm O) Add x y ;; reduce_once_mod_l (zm O) q s)). destruct (reduce_c q) as [t H]. eexists. intros O a b. step. rewrite (H O). reflexivity.
Qed.
Lemma poly_sub_mod_c q : pconst2 (fun O => poly_sub_mod_l (zm O) q) (poly_sub_mod q).
Proof.
  apply (each2_c (fun O x y => n <<- m_op (zm O) Sub (m_lit (zm O) q) y ;; s <<- m_op (zm O) Add x n ;; reduce_once_mod_l (zm O) q s)).
  destruct (reduce_c q) as [t H]. eexists. intros O a b. step. step. rewrite (H O). reflexivity.
Qed.
Lemma poly_shl_c off : pconst1 (fun O => poly_shl_l (zm O) off) (poly_shl off).
Proof. exact (each1_c _ _ (zq_shl_c off)). Qed.
Lemma poly_rounding_shr_c off : pconst1 (fun O => poly_rounding_shr_l (zm O) off) (poly_rounding_shr off).
Proof.
  apply (each_here_c (fun O x => r <<- m_op (zm O) Add x (m_lit (zm O) (shl64 1 (off - 1))) ;; s <<- m_shr (zm O) r off ;; reduce_once_mod_l (zm O) (shr64 Q off) s)).
  destruct (reduce_c (shr64 Q off)) as [t H]. eexists. intros O a. step. step. rewrite (H O). reflexivity.
Qed.
Lemma and_b2z a b : Z.land (b2z a) (b2z b) = b2z (a && b).
Proof. destruct a, b; reflexivity. Qed.
Lemma fold_b2z {I} (e : I -> bool) : forall l r, fold_left (fun r i => Z.land r (b2z (e i))) l (b2z r) = b2z (fold_left (fun r i => r && e i) l r).
Proof. induction l as [|i l IH]; intros r; [reflexivity|]. cbn [fold_left]. rewrite and_b2z. apply IH. Qed.
Lemma poly_eqb_c : exists t, forall O a b, poly_eqb_l (zm O) a b = (Ok (b2z (poly_eqb a b)), t).
Proof.
  eexists. intros O a b. unfold poly_eqb_l, poly_eqb. rewrite <- fold_b2z.
  apply (for_pure0 _ (fun r i => Z.land r (b2z (nth i a 0 =? nth i b 0))) (fun i => [Load i] ++ [Load i] ++ [Op Equal] ++ [Op And])).
  intros i s. repeat step. reflexivity.
Qed.
Lemma ct_eq_c : forall n, exists t, forall O a b, length a = n -> ct_eq_byte_array_l (zm O) a b = (Ok (ct_eq_byte_array a b), t).
Proof.
  intros n. eexists. intros O a b L. unfold ct_eq_byte_array_l, ct_eq_byte_array. rewrite L.
  apply (for_pure0 _ (fun r i => Z.land r (ct_eq32 (nth i a 0) (nth i b 0))) (fun i => [Load i] ++ [Load i] ++ [CtEq] ++ [Op And])).
  intros i s. repeat step. reflexivity.
Qed.

(* ---- transforms ---- *)
Lemma ntt_butterfly_c : exists t : nat -> nat -> list event, forall O z len i p,
  ntt_butterfly_l (zm O) z len i p = (Ok (ntt_butterfly z len p i), t len i).
Proof.
  destruct zq_mul_c as [tm Hm]. destruct zq_sub_c as [ts Hs]. destruct zq_add_c as [ta Ha].
  exists (fun len i => [Load (i + len)] ++ tm ++ [Load i] ++ ts ++ [Store (i + len)] ++ [Load i] ++ ta ++ [Store i]).
  intros O z len i p. unfold ntt_butterfly_l. step. use Hm. step. use Hs. step. step. eapply lb; [apply Ha|reflexivity].
Qed.
Lemma intt_butterfly_c : exists t : nat -> nat -> list event, forall O z len i p,
  intt_butterfly_l (zm O) z len i p = (Ok (intt_butterfly z len p i), t len i).
Proof.
  destruct zq_mul_c as [tm Hm]. destruct zq_sub_c as [ts Hs]. destruct zq_add_c as [ta Ha].
  exists (fun len i => [Load i] ++ [Load i] ++ [Load (i + len)] ++ ta ++ [Store i] ++ [Load (i + len)] ++ ts ++ [Store (i + len)] ++ [Load (i + len)] ++ tm ++ [Store (i + len)]).
  intros O z len i p. unfold intt_butterfly_l. step. step. step. use Ha. step. step. use Hs. step. step. eapply lb; [apply Hm|reflexivity].
Qed.
Lemma ntt_layer_c : exists t : nat -> list event, forall O l p, ntt_layer_l (zm O) l p = (Ok (ntt_layer l p), t l).
Proof.
  destruct ntt_butterfly_c as [tb Hb]. eexists (fun l => _). intros O l p. unfold ntt_layer_l, ntt_layer. cbv zeta.
  apply (for_pure0 _ (fun p start => fold_left (ntt_butterfly (nth (PN / 2 ^ (l + 1) + start / 2 ^ (l + 1)) powers_of_zeta 0) (2 ^ l)) (seq start (2 ^ l)) p)
           (fun start => [Load (PN / 2 ^ (l + 1) + start / 2 ^ (l + 1))] ++ concat (map (tb (2 ^ l)%nat) (seq start (2 ^ l))))).
  intros start s. step. cbn [m_lit zm]. rewrite map_id. rewrite (for_pure0 _ (ntt_butterfly (nth (PN / 2 ^ (l + 1) + start / 2 ^ (l + 1)) powers_of_zeta 0) (2 ^ l)) (tb (2 ^ l)%nat)); [reflexivity|].
  intros i s'. apply Hb.
Qed.
Lemma intt_layer_c : exists t : nat -> list event, forall O l p, intt_layer_l (zm O) l p = (Ok (intt_layer l p), t l).
Proof.
  destruct intt_butterfly_c as [tb Hb]. eexists (fun l => _). intros O l p. unfold intt_layer_l, intt_layer. cbv zeta.
  apply (for_pure0 _ (fun p start => fold_left (intt_butterfly (nth (PN / 2 ^ l - 1 - start / 2 ^ (l + 1)) neg_powers_of_zeta 0) (2 ^ l)) (seq start (2 ^ l)) p)
           (fun start => [Load (PN / 2 ^ l - 1 - start / 2 ^ (l + 1))] ++ concat (map (tb (2 ^ l)%nat) (seq start (2 ^ l))))).
  intros start s. step. cbn [m_lit zm]. rewrite map_id. rewrite (for_pure0 _ (intt_butterfly (nth (PN / 2 ^ l - 1 - start / 2 ^ (l + 1)) neg_powers_of_zeta 0) (2 ^ l)) (tb (2 ^ l)%nat)); [reflexivity|].
  intros i s'. apply Hb.
Qed.
Lemma ntt_c : exists t, forall O p, ntt_l (zm O) p = (Ok (ntt p), t).
Proof.
  destruct ntt_layer_c as [t H]. eexists. intros O p. unfold ntt_l. with_strategy transparent [ntt] unfold ntt. apply (for_pure0 _ (fun p l => ntt_layer l p) t). intros i s. apply H.
Qed.
Lemma fold_len {I} (f : list Z -> I -> list Z) : (forall s i, length (f s i) = length s) -> forall l s, length (fold_left f l s) = length s.
Proof. intros H l. induction l as [|i l IH]; intros s; [reflexivity|]. cbn [fold_left]. rewrite IH. apply H. Qed.
Lemma upd_len {A} : forall (l : list A) i x, length (upd i x l) = length l.
Proof. induction l as [|y l IH]; intros [|i] x; try reflexivity. cbn [upd length]. rewrite IH. reflexivity. Qed.
Lemma ntt_layer_len l p : length (ntt_layer l p) = length p.
Proof. unfold ntt_layer. apply fold_len. intros s i. apply fold_len. intros s' j. unfold ntt_butterfly. cbv zeta. rewrite !upd_len. reflexivity. Qed.
Lemma intt_layer_len l p : length (intt_layer l p) = length p.
Proof. unfold intt_layer. apply fold_len. intros s i. apply fold_len. intros s' j. unfold intt_butterfly. cbv zeta. rewrite !upd_len. reflexivity. Qed.
Lemma ntt_len p : length (ntt p) = length p.
Proof. unfold ntt. apply fold_len. intros. apply ntt_layer_len. Qed.
Lemma intt_len p : length (intt p) = length p.
Proof. unfold intt. rewrite map_length. apply fold_len. intros. apply intt_layer_len. Qed.
Lemma intt_c : pconst1 (fun O => intt_l (zm O)) intt.
Proof.
  destruct intt_layer_c as [t H]. destruct zq_mul_c as [tm Hm].
  destruct (each_here_c (fun O x => zq_mul_l (zm O) x (m_lit (zm O) INV_N)) (fun x => zq_mul x INV_N)) as [te He].
  { exists tm. intros O a. apply Hm. }
  eexists. intros O p L. unfold intt_l, intt. cbv zeta. eapply lb.
  - apply (for_pure0 _ (fun p l => intt_layer l p) t). intros i s. apply H.
  - cbv beta. apply He. unfold len512. rewrite fold_len; [exact L|]. intros. apply intt_layer_len.
Qed.

(* ---- values ---- *)
(* [is m v]: the value computed by m is v *)
Definition is {A} (m : lk A) (v : A) : Prop := fst m = Ok v.
Lemma fst_bind {A B} (m : lk A) (k : A -> lk B) : fst (lbind m k) = bind (fst m) (fun a => fst (k a)).
Proof. unfold lbind. destruct m as [[a| |] t]; reflexivity. Qed.
Lemma fst_for {I S} (body : I -> S -> lk S) : forall l s, fst (for_ l body s) = foldM (fun s i => fst (body i s)) l s.
Proof.
  induction l as [|i l IH]; intros s; [reflexivity|]. cbn [for_ foldM]. rewrite fst_bind. destruct (fst (body i s)); cbn [bind]; [apply IH|reflexivity|reflexivity].
Qed.
Lemma foldM_inv {I S} (J : S -> Prop) (f g : S -> I -> res S) : forall l s, J s ->
  (forall s i, In i l -> J s -> f s i = g s i /\ (forall s', g s i = Ok s' -> J s')) ->
  foldM f l s = foldM g l s /\ (forall s', foldM g l s = Ok s' -> J s').
Proof.
  induction l as [|i l IH]; intros s Hs H; [split; [reflexivity|intros s' [= <-]; exact Hs]|]. cbn [foldM].
  destruct (H s i (or_introl eq_refl) Hs) as [E P]. rewrite E. destruct (g s i) as [s1| |]; cbn [bind]; [|split; [reflexivity|discriminate]..].
  apply IH; [apply P; reflexivity|]. intros s2 j Hj. apply H. right. exact Hj.
Qed.
Lemma foldM_ok {I S} (J : S -> Prop) (f : S -> I -> res S) (g : S -> I -> S) : forall l s, J s ->
  (forall s i, In i l -> J s -> f s i = Ok (g s i) /\ J (g s i)) -> foldM f l s = Ok (fold_left g l s) /\ J (fold_left g l s).
Proof.
  induction l as [|i l IH]; intros s Hs H; [split; [reflexivity|exact Hs]|]. cbn [foldM fold_left].
  destruct (H s i (or_introl eq_refl) Hs) as [E P]. rewrite E. cbn [bind]. apply IH; [exact P|]. intros s2 j Hj. apply H. right. exact Hj.
Qed.
Lemma bind_inv {A B} (J : A -> Prop) (K : B -> Prop) (m m' : res A) (k k' : A -> res B) :
  m = m' /\ (forall a, m' = Ok a -> J a) -> (forall a, J a -> k a = k' a /\ (forall b, k' a = Ok b -> K b)) ->
  bind m k = bind m' k' /\ (forall b, bind m' k' = Ok b -> K b).
Proof. intros [-> P] H. destruct m' as [a| |]; cbn [bind]; [|split; [reflexivity|discriminate]..]. apply H, P. reflexivity. Qed.
Lemma is_of {A} (m : lk A) v t : m = (Ok v, t) -> is m v.
Proof. intros ->. reflexivity. Qed.
Lemma fold_snoc {I A} (h : I -> A) : forall l r, fold_left (fun r i => r ++ [h i]) l r = r ++ map h l.
Proof. induction l as [|i l IH]; intros r; [rewrite app_nil_r; reflexivity|]. cbn [fold_left map]. rewrite IH, <- app_assoc. reflexivity. Qed.
Lemma rows1_v {A B} (x : A) n (f : A -> lk B) (g : A -> B) a : length a = n -> (forall y, In y a -> is (f y) (g y)) -> is (rows1 x n f a) (map g a).
Proof.
  intros L H. unfold is, rows1. rewrite fst_for.
  destruct (foldM_ok (fun _ => True) (fun s i => fst (s0 <<- f (nth i a x) ;; lret (s ++ [s0]))) (fun s i => s ++ [g (nth i a x)]) (seq 0 n) [] Logic.I) as [E _].
  - intros s i Hi _. split; [|exact Logic.I]. rewrite fst_bind. apply in_seq in Hi. rewrite (H (nth i a x)); [reflexivity|]. apply nth_In. lia.
  - rewrite E. rewrite (fold_snoc (fun i => g (nth i a x))). cbn [app]. rewrite <- L. rewrite (map_seq_nth g x a). reflexivity.
Qed.
Lemma rows2_v {A B C} (x : A) (y : B) n (f : A -> B -> lk C) (g : A -> B -> C) a b : length a = n -> length b = n ->
  (forall u v, In u a -> In v b -> is (f u v) (g u v)) -> is (rows2 x y n f a b) (map2 g a b).
Proof.
  intros L L' H. unfold is, rows2. rewrite fst_for.
  destruct (foldM_ok (fun _ => True) (fun s i => fst (s0 <<- f (nth i a x) (nth i b y) ;; lret (s ++ [s0]))) (fun s i => s ++ [g (nth i a x) (nth i b y)]) (seq 0 n) [] Logic.I) as [E _].
  - intros s i Hi _. split; [|exact Logic.I]. rewrite fst_bind. apply in_seq in Hi. rewrite (H (nth i a x) (nth i b y)); [reflexivity|apply nth_In; lia..].
  - rewrite E. rewrite (fold_snoc (fun i => g (nth i a x) (nth i b y))). cbn [app]. rewrite <- L. rewrite (map_seq_nth2 g x y a b); [reflexivity|lia].
Qed.
Definition mok (d : nat) (a : list (list Z)) : Prop := length a = d /\ Forall len512 a.
Definition vok (n d : nat) (v : list (list (list Z))) : Prop := length v = n /\ Forall (mok d) v.

Section Values.
  Variable O : oracles.
  Notation M := (zm O).
  Lemma vp2 f g a b : pconst2 f g -> len512 a -> len512 b -> is (f O a b) (g a b).
  Proof. intros [t H] La Lb. eapply is_of. apply H; assumption. Qed.
  Lemma vp1 f g a : pconst1 f g -> len512 a -> is (f O a) (g a).
  Proof. intros [t H] La. eapply is_of. apply H; assumption. Qed.
  Lemma sh2_v d f g a b : pconst2 f g -> mok d a -> mok d b -> is (shares2 d (f O) a b) (map2 g a b).
  Proof. intros H [L F] [L' F']. rewrite Forall_forall in F, F'. apply rows2_v; [exact L|exact L'|]. intros u v Hu Hv. apply vp2; [exact H|apply F; exact Hu|apply F'; exact Hv]. Qed.
  Lemma sh1_v d f g a : pconst1 f g -> mok d a -> is (shares1 d (f O) a) (map g a).
  Proof. intros H [L F]. rewrite Forall_forall in F. apply rows1_v; [exact L|]. intros u Hu. apply vp1; [exact H|apply F; exact Hu]. Qed.
  Lemma mp_add_v d a b : mok d a -> mok d b -> is (mp_add_l M d a b) (mp_add a b).
  Proof. exact (sh2_v d _ _ a b poly_add_c). Qed.
  Lemma mp_sub_v d a b : mok d a -> mok d b -> is (mp_sub_l M d a b) (mp_sub a b).
  Proof. exact (sh2_v d _ _ a b poly_sub_c). Qed.
  Lemma mp_shl_v d off a : mok d a -> is (mp_shl_l M d off a) (mp_shl off a).
  Proof. exact (sh1_v d _ _ a (poly_shl_c off)). Qed.
  Lemma mp_rshr_v d off a : mok d a -> is (mp_rounding_shr_l M d off a) (mp_rounding_shr off a).
  Proof. exact (sh1_v d _ _ a (poly_rounding_shr_c off)). Qed.
  Lemma ntt_c' : pconst1 (fun O => ntt_l (zm O)) ntt.
  Proof. destruct ntt_c as [t H]. exists t. intros. apply H. Qed.
  Lemma mp_ntt_v d a : mok d a -> is (mp_ntt_l M d a) (mp_ntt a).
  Proof. exact (sh1_v d _ _ a ntt_c'). Qed.
  Lemma mp_intt_v d a : mok d a -> is (mp_intt_l M d a) (mp_intt a).
  Proof. exact (sh1_v d _ _ a intt_c). Qed.
  Lemma mp_mul_poly_v d c a : len512 c -> mok d a -> is (mp_mul_poly_l M d c a) (map (fun s => poly_mul s c) a).
  Proof.
    intros Lc [L F]. rewrite Forall_forall in F. apply rows1_v; [exact L|]. intros u Hu. apply (vp2 (fun O => poly_mul_l (zm O))); [exact poly_mul_c|apply F; exact Hu|exact Lc].
  Qed.
  Lemma map2_len {A B C} (f : A -> B -> C) : forall a b, length a = length b -> length (map2 f a b) = length a.
  Proof. induction a as [|x a IH]; intros [|y b] L; try discriminate L; [reflexivity|]. cbn [map2 length] in *. rewrite IH; lia. Qed.
  Lemma map2_512 f a b : len512 a -> len512 b -> len512 (map2 f a b).
  Proof. intros La Lb. unfold len512. rewrite map2_len; [exact La|rewrite La, Lb; reflexivity]. Qed.
  Lemma mok_map2 d f a b : (forall x y, len512 x -> len512 y -> len512 (f x y)) -> mok d a -> mok d b -> mok d (map2 f a b).
  Proof.
    intros H [L F] [L' F']. split; [rewrite map2_len; lia|]. clear L L'. revert b F'. induction F as [|x a Hx Fa IH]; intros [|y b] F'; cbn [map2]; [constructor..|].
    inversion F'; subst. constructor; [apply H; assumption|apply IH; assumption].
  Qed.
  Lemma mok_map d f a : (forall x, len512 x -> len512 (f x)) -> mok d a -> mok d (map f a).
  Proof. intros H [L F]. split; [rewrite map_length; exact L|]. rewrite Forall_map. eapply Forall_impl; [|exact F]. exact H. Qed.
  Lemma mp_eqb_v d a b : length b = d -> is (mp_eqb_l M d a b) (b2z (mp_eqb a b)).
  Proof.
    intros L. destruct poly_eqb_c as [t H]. unfold is, mp_eqb_l, mp_eqb. rewrite fst_for. unfold poly. rewrite L. rewrite <- fold_b2z.
    destruct (foldM_ok (fun _ => True) (fun s i => fst (e <<- poly_eqb_l M (nth i a []) (nth i b []) ;; m_op M And s e))
                (fun r i => Z.land r (b2z (poly_eqb (nth i a []) (nth i b [])))) (seq 0 d) (b2z true) Logic.I) as [E _]; [|exact E].
    intros s i _ _. split; [|exact Logic.I]. rewrite fst_bind, H. reflexivity.
  Qed.
  Lemma zero512 : len512 (repeat 0 PN). Proof. apply repeat_length. Qed.
  Lemma fold_seq_nth {A S} (f : S -> A -> S) x : forall (l : list A) s, fold_left (fun s i => f s (nth i l x)) (seq 0 (length l)) s = fold_left f l s.
  Proof.
    intros l. assert (E : l = map (fun i => nth i l x) (seq 0 (length l))) by (rewrite (map_seq_nth (fun z => z) x l), map_id; reflexivity).
    intros s. transitivity (fold_left f (map (fun i => nth i l x) (seq 0 (length l))) s); [|rewrite <- E; reflexivity]. generalize (seq 0 (length l)). intros q. revert s. induction q as [|i q IH]; intros s; [reflexivity|]. cbn [fold_left map]. apply IH.
  Qed.
  Lemma mp_decode_v d a : mok d a -> is (mp_decode_l M d a) (mp_decode a) /\ len512 (mp_decode a).
  Proof.
    intros [L F]. unfold is, mp_decode_l, mp_decode. rewrite fst_for. rewrite Forall_forall in F.
    destruct (foldM_ok len512 (fun s i => fst (poly_add_l M s (nth i a []))) (fun s i => poly_add s (nth i a [])) (seq 0 d) (repeat 0 PN) zero512) as [E P].
    - intros s i Hi Hs. apply in_seq in Hi. assert (La : len512 (nth i a [])) by (apply F, nth_In; lia).
      split; [apply (vp2 (fun O => poly_add_l (zm O))); [exact poly_add_c|exact Hs|exact La]|apply map2_512; assumption].
    - change (m_lit M 0) with 0. change poly_zero with (repeat 0 PN). rewrite <- (@fold_seq_nth (list Z) (list Z) poly_add [] a). rewrite L. split; [exact E|exact P].
  Qed.
  Lemma samplep_v : forall fuel d idx g acc, (length acc <= PN)%nat ->
    fst (sample_polynomial_loop_l M fuel d idx g acc) = sample_polynomial_loop O fuel d idx g acc /\
    (forall r g', sample_polynomial_loop O fuel d idx g acc = Ok (r, g') -> len512 r).
  Proof.
    induction fuel as [|f IH]; intros d idx g acc L; cbn [sample_polynomial_loop_l sample_polynomial_loop]; destruct (PN <=? length acc)%nat eqn:E.
    - apply Nat.leb_le in E. split; [reflexivity|]. intros r g' H. injection H as <- <-. unfold len512. change PN with 512%nat in *. lia.
    - split; [reflexivity|discriminate].
    - apply Nat.leb_le in E. split; [reflexivity|]. intros r g' H. injection H as <- <-. unfold len512. change PN with 512%nat in *. lia.
    - apply Nat.leb_gt in E. rewrite fst_bind. cbn [m_get zm fst bind]. destruct (mrng_get O d idx g) as [v g1]. rewrite fst_bind. cbn [m_op zm fst bind m_lit].
      rewrite fst_bind. cbn [m_op zm fst bind]. rewrite fst_bind. cbn [m_branch zm fst bind].
      destruct (Z.land v MASK49 <? Q); cbn [b2z Z.eqb negb]; apply IH; [rewrite app_length; cbn [length]; lia|lia].
  Qed.
  Lemma sample_v fuel d idx g : fst (sample_polynomial_l M fuel d idx g) = sample_polynomial O fuel d idx g /\
    (forall r g', sample_polynomial O fuel d idx g = Ok (r, g') -> len512 r).
  Proof.
    unfold sample_polynomial_l, sample_polynomial. destruct (d - 1 <=? idx)%nat.
    - split; [reflexivity|]. intros r g' H. injection H as <- <-. apply zero512.
    - apply samplep_v. apply Nat.le_0_l.
  Qed.
  Definition gok (d : nat) (s : list (list Z) * mrng) : Prop := mok d (fst s).
  Lemma mok_upd d i x a : mok d a -> len512 x -> mok d (upd i x a).
  Proof.
    intros [L F] Hx. split; [rewrite upd_len; exact L|]. clear L. revert i. induction F as [|y a Hy Fa IH]; intros [|i]; cbn [upd]; constructor; try assumption. apply IH.
  Qed.
  Lemma mok_nth d i a : mok d a -> (i < d)%nat -> len512 (nth i a []).
  Proof. intros [L F] Hi. rewrite Forall_forall in F. apply F, nth_In. lia. Qed.
  Lemma zstep_v fuel d off s sidx : gok d s ->
    fst (zenc_step_l M fuel d off sidx s) = zenc_step O fuel d off s sidx /\ (forall s', zenc_step O fuel d off s sidx = Ok s' -> gok d s').
  Proof.
    destruct s as [mp g]. unfold gok. cbn [fst]. intros H. unfold zenc_step_l, zenc_step. rewrite fst_bind. destruct (sample_v fuel d sidx g) as [E Lr]. rewrite E.
    destruct (sample_polynomial O fuel d sidx g) as [[r g1]| |]; cbn [bind]; [|split; [reflexivity|discriminate]..]. specialize (Lr r g1 eq_refl). unfold poly in *.
    destruct (sidx + off <? length mp)%nat eqn:B; [|split; [reflexivity|discriminate]]. apply Nat.ltb_lt in B. pose proof (proj1 H) as L.
    assert (H1 : len512 (nth sidx mp [])) by (apply (mok_nth d); [exact H|lia]).
    assert (H2 : mok d (upd sidx (poly_add (nth sidx mp []) r) mp)) by (apply mok_upd; [exact H|apply map2_512; assumption]).
    assert (H3 : len512 (nth (sidx + off) (upd sidx (poly_add (nth sidx mp []) r) mp) [])) by (apply (mok_nth d); [exact H2|lia]).
    split.
    - rewrite fst_bind. rewrite (vp2 (fun O => poly_add_l (zm O)) poly_add _ _ poly_add_c H1 Lr). cbn [bind]. rewrite fst_bind.
      rewrite (vp2 (fun O => poly_sub_l (zm O)) poly_sub _ _ poly_sub_c H3 Lr). reflexivity.
    - intros s' E'. injection E' as <-. cbn [fst]. apply mok_upd; [exact H2|apply map2_512; assumption].
  Qed.
  Lemma zwhile_v fuel d : forall n d_idx s, gok d s ->
    fst (zenc_while_l M fuel n d d_idx s) = zenc_while O fuel n d d_idx s /\ (forall s', zenc_while O fuel n d d_idx s = Ok s' -> gok d s').
  Proof.
    induction n as [|n IH]; intros d_idx s H; cbn [zenc_while_l zenc_while]; destruct (d <=? d_idx)%nat; try (split; [reflexivity|intros s' E; injection E as <-; exact H]); [split; [reflexivity|discriminate]|].
    rewrite fst_bind, fst_for. eapply (bind_inv (gok d)); [|intros; apply IH; assumption].
    apply foldM_inv; [exact H|]. intros s1 i _ H1. rewrite fst_for. apply foldM_inv; [exact H1|]. intros s2 j _ H2. apply zstep_v. exact H2.
  Qed.
  Lemma zenc_v fuel d g : fst (mp_zero_encoding_l M fuel d g) = mp_zero_encoding O fuel d g /\ (forall s', mp_zero_encoding O fuel d g = Ok s' -> gok d s').
  Proof.
    assert (H0 : gok d (repeat (repeat 0 PN) d, g)).
    { split; cbn [fst]; [apply repeat_length|]. apply Forall_forall. intros x Hx. apply repeat_spec in Hx. subst x. apply zero512. }
    unfold mp_zero_encoding_l, mp_zero_encoding. cbv zeta. change (m_lit M 0) with 0. change (poly_fill 0) with (repeat 0 PN).
    destruct (1 <? d)%nat; [|split; [reflexivity|intros s' E; injection E as <-; exact H0]].
    rewrite fst_bind, fst_for. eapply (bind_inv (gok d)); [|intros; apply zwhile_v; assumption].
    apply foldM_inv; [exact H0|]. intros s i _ Hs. apply zstep_v. exact Hs.
  Qed.
  Lemma refresh_v fuel d a g : mok d a -> fst (mp_refresh_l M fuel d a g) = mp_refresh O fuel d a g /\ (forall s', mp_refresh O fuel d a g = Ok s' -> gok d s').
  Proof.
    intros H. unfold mp_refresh_l, mp_refresh. rewrite fst_bind. destruct (zenc_v fuel d g) as [E P]. rewrite E.
    destruct (mp_zero_encoding O fuel d g) as [[z g1]| |]; cbn [bind]; [|split; [reflexivity|discriminate]..]. specialize (P _ eq_refl). unfold gok in P. cbn [fst] in P.
    split; [rewrite fst_bind; rewrite (mp_add_v d a z H P); reflexivity|]. intros s' E'. injection E' as <-. unfold gok. cbn [fst]. apply mok_map2; [intros; apply map2_512; assumption|exact H|exact P].
  Qed.
End Values.
