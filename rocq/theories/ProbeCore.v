(* Probing security of the mask network: integer core.  Masks are indexed by round and lower position. *)
From Coq Require Import ZArith Lia Bool List Arith.
From Coq Require Import ZifyBool ZifyNat.
From Verif Require Import Spec SpecMask.
From Verif Require Import ArithLemmas Cong MaskUniform BoundProofs.
Import ListNotations.
Open Scope Z_scope.
Ltac Zify.zify_post_hook ::= idtac.

(* what position k receives in round m, and in the first n rounds *)
Definition term (r : nat -> nat -> Z) (m k : nat) : Z := if Nat.testbit k m then - r m (k - 2 ^ m)%nat else r m k.
Definition part (r : nat -> nat -> Z) (n k : nat) : Z := Zsum n (fun m => term r m k).

Lemma part_S r n k : part r (S n) k = part r n k + term r n k.
Proof. reflexivity. Qed.

Inductive probe := Pmask (m i : nat) | Ppart (n k : nat).
Definition pval (r : nat -> nat -> Z) (w : probe) : Z := match w with Pmask m i => r m i | Ppart n k => part r n k end.
Definition pok (e : nat) (w : probe) : Prop :=
  match w with Pmask m i => (m < e /\ i < 2 ^ e)%nat /\ Nat.testbit i m = false | Ppart n k => (n <= e /\ k < 2 ^ e)%nat end.
Definition pshift (n : nat) (w : probe) : probe := match w with Pmask m i => Pmask m (n + i) | Ppart p k => Ppart p (n + k) end.

Ltac sp5 := split; [try assumption|split; [try assumption|split; [try assumption|split; [try assumption|]]]].
Lemma split_probes e W : Forall (pok (S e)) W -> exists WA WB R Ou,
  (length WA + length WB + length R + length Ou <= length W)%nat /\
  Forall (pok e) WA /\ Forall (pok e) WB /\ Forall (fun i => (i < 2 ^ e)%nat) R /\ Forall (fun k => (k < 2 ^ S e)%nat) Ou /\
  forall w, In w W -> In w WA \/ (exists w', In w' WB /\ w = pshift (2 ^ e) w') \/ (exists i, In i R /\ w = Pmask e i) \/ (exists k, In k Ou /\ w = Ppart (S e) k).
Proof.
  induction 1 as [|w W Hw F IH]; [exists [], [], [], []; split; [cbn; lia|]; do 4 (split; [constructor|]); intros w []|].
  destruct IH as (WA & WB & R & Ou & L & FA & FB & FR & FO & C).
  assert (PS : (2 ^ S e = 2 ^ e + 2 ^ e)%nat) by (cbn [Nat.pow]; lia).
  assert (TB : forall i m, (m < e)%nat -> (2 ^ e <= i)%nat -> Nat.testbit (i - 2 ^ e) m = Nat.testbit i m).
  { intros i m Hm Hi. replace i with ((i - 2 ^ e) + 1 * 2 ^ e)%nat at 2 by lia.
    rewrite <- (Nat.mod_pow2_bits_low ((i - 2 ^ e) + 1 * 2 ^ e) e m Hm), Nat.mod_add by (apply Nat.pow_nonzero; lia). rewrite Nat.mod_pow2_bits_low by exact Hm. reflexivity. }
  destruct w as [m i|n k]; cbn [pok] in Hw.
  - destruct Hw as [[H1 H2] H3]. destruct (Nat.eq_dec m e) as [->|N].
    + assert (Hi : (i < 2 ^ e)%nat).
      { destruct (Nat.lt_ge_cases i (2 ^ e)) as [H|H]; [exact H|]. exfalso.
        assert (X : Nat.testbit i e = true); [|congruence].
        apply Nat.testbit_true. replace i with ((i - 2 ^ e) + 1 * 2 ^ e)%nat by lia. rewrite Nat.div_add by (apply Nat.pow_nonzero; lia).
        rewrite Nat.div_small by lia. reflexivity. }
      exists WA, WB, (i :: R), Ou. split; [cbn [length] in *; lia|]; sp5; [constructor; assumption|].
      intros w [<-|Hw]; [right; right; left; exists i; split; [left; reflexivity|reflexivity]|].
      destruct (C w Hw) as [X|[X|[(j & X & Y)|X]]]; [left; exact X|right; left; exact X|right; right; left; exists j; split; [right; exact X|exact Y]|right; right; right; exact X].
    + destruct (Nat.lt_ge_cases i (2 ^ e)) as [Hi|Hi].
      * exists (Pmask m i :: WA), WB, R, Ou. split; [cbn [length] in *; lia|]; sp5; [constructor; [cbn [pok]; repeat split; [lia|lia|exact H3]|assumption]|].
        intros w [<-|Hw]; [left; left; reflexivity|]. destruct (C w Hw) as [X|X]; [left; right; exact X|right; exact X].
      * exists WA, (Pmask m (i - 2 ^ e) :: WB), R, Ou. split; [cbn [length] in *; lia|]; sp5; [constructor; [cbn [pok]; repeat split; [lia|lia|rewrite TB by lia; exact H3]|assumption]|].
        intros w [<-|Hw]; [right; left; eexists; split; [left; reflexivity|]; cbn [pshift]; f_equal; lia|].
        destruct (C w Hw) as [X|[(w' & X & Y)|X]]; [left; exact X|right; left; exists w'; split; [right; exact X|exact Y]|right; right; exact X].
  - destruct Hw as [H1 H2]. destruct (Nat.eq_dec n (S e)) as [->|N].
    + exists WA, WB, R, (k :: Ou). split; [cbn [length] in *; lia|]; sp5; [constructor; assumption|].
      intros w [<-|Hw]; [right; right; right; exists k; split; [left; reflexivity|reflexivity]|].
      destruct (C w Hw) as [X|[X|[X|(j & X & Y)]]]; [left; exact X|right; left; exact X|right; right; left; exact X|right; right; right; exists j; split; [right; exact X|exact Y]].
    + destruct (Nat.lt_ge_cases k (2 ^ e)) as [Hk|Hk].
      * exists (Ppart n k :: WA), WB, R, Ou. split; [cbn [length] in *; lia|]; sp5; [constructor; [cbn [pok]; lia|assumption]|].
        intros w [<-|Hw]; [left; left; reflexivity|]. destruct (C w Hw) as [X|X]; [left; right; exact X|right; exact X].
      * exists WA, (Ppart n (k - 2 ^ e) :: WB), R, Ou. split; [cbn [length] in *; lia|]; sp5; [constructor; [cbn [pok]; lia|assumption]|].
        intros w [<-|Hw]; [right; left; eexists; split; [left; reflexivity|]; cbn [pshift]; f_equal; lia|].
        destruct (C w Hw) as [X|[(w' & X & Y)|X]]; [left; exact X|right; left; exists w'; split; [right; exact X|exact Y]|right; right; exact X].
Qed.

(* two halves and a last round *)
Definition glue (e : nat) (dA dB : nat -> nat -> Z) (rho : nat -> Z) (m i : nat) : Z :=
  if Nat.eqb m e then rho i else if (i <? 2 ^ e)%nat then dA m i else dB m (i - 2 ^ e)%nat.
Lemma bit_low e k m : (m < e)%nat -> (k < 2 ^ e)%nat -> Nat.testbit (2 ^ e + k) m = Nat.testbit k m.
Proof.
  intros Hm Hk. rewrite <- (Nat.mod_pow2_bits_low (2 ^ e + k) e m Hm).
  replace (2 ^ e + k)%nat with (k + 1 * 2 ^ e)%nat by lia. rewrite Nat.mod_add by (apply Nat.pow_nonzero; lia). rewrite Nat.mod_pow2_bits_low by exact Hm. reflexivity.
Qed.
Lemma bit_high e k : (k < 2 ^ e)%nat -> Nat.testbit (2 ^ e + k) e = true.
Proof.
  intros Hk. apply Nat.testbit_true. replace (2 ^ e + k)%nat with (k + 1 * 2 ^ e)%nat by lia. rewrite Nat.div_add by (apply Nat.pow_nonzero; lia).
  rewrite Nat.div_small by lia. reflexivity.
Qed.
Lemma bit_none e k : (k < 2 ^ e)%nat -> Nat.testbit k e = false.
Proof.
  intros Hk. destruct (Nat.testbit k e) eqn:E; [|reflexivity]. apply Nat.testbit_true in E. rewrite Nat.div_small in E by exact Hk. discriminate E.
Qed.
Lemma bit_ge k m : Nat.testbit k m = true -> (2 ^ m <= k)%nat.
Proof. intros E. destruct (Nat.lt_ge_cases k (2 ^ m)) as [H|H]; [rewrite (bit_none m k H) in E; discriminate|exact H]. Qed.
Lemma glue_low e dA dB rho n k : (n <= e)%nat -> (k < 2 ^ e)%nat -> part (glue e dA dB rho) n k = part dA n k.
Proof.
  intros Hn Hk. unfold part. apply Zsum_ext. intros m Hm. unfold term, glue. replace (Nat.eqb m e) with false by (symmetry; apply Nat.eqb_neq; lia).
  destruct (Nat.testbit k m) eqn:E.
  - replace (k - 2 ^ m <? 2 ^ e)%nat with true by (symmetry; apply Nat.ltb_lt; lia). reflexivity.
  - replace (k <? 2 ^ e)%nat with true by (symmetry; apply Nat.ltb_lt; lia). reflexivity.
Qed.
Lemma glue_high e dA dB rho n k : (n <= e)%nat -> (k < 2 ^ e)%nat -> part (glue e dA dB rho) n (2 ^ e + k) = part dB n k.
Proof.
  intros Hn Hk. unfold part. apply Zsum_ext. intros m Hm. unfold term, glue. replace (Nat.eqb m e) with false by (symmetry; apply Nat.eqb_neq; lia).
  rewrite bit_low by lia. destruct (Nat.testbit k m) eqn:E.
  - apply bit_ge in E. replace (2 ^ e + k - 2 ^ m <? 2 ^ e)%nat with false by (symmetry; apply Nat.ltb_ge; lia). do 2 f_equal. lia.
  - replace (2 ^ e + k <? 2 ^ e)%nat with false by (symmetry; apply Nat.ltb_ge; lia). f_equal. lia.
Qed.
Lemma glue_last_low e dA dB rho k : (k < 2 ^ e)%nat -> part (glue e dA dB rho) (S e) k = part dA e k + rho k.
Proof.
  intros Hk. rewrite part_S, glue_low by lia. f_equal. unfold term, glue. rewrite (bit_none e k Hk), Nat.eqb_refl. reflexivity.
Qed.
Lemma glue_last_high e dA dB rho k : (k < 2 ^ e)%nat -> part (glue e dA dB rho) (S e) (2 ^ e + k) = part dB e k - rho k.
Proof.
  intros Hk. rewrite part_S, glue_high by lia. unfold term, glue. rewrite (bit_high e k Hk), Nat.eqb_refl.
  replace (2 ^ e + k - 2 ^ e)%nat with k by lia. reflexivity.
Qed.

(* counting *)
Definition mem (k : nat) (L : list nat) : bool := existsb (Nat.eqb k) L.
Lemma mem_In k L : mem k L = true <-> In k L.
Proof. unfold mem. rewrite existsb_exists. split; [intros (x & H & E); apply Nat.eqb_eq in E; subst; exact H|intros H; exists k; split; [exact H|apply Nat.eqb_refl]]. Qed.
Definition b2z (b : bool) : Z := if b then 1 else 0.
Lemma count_filter n (f : nat -> bool) : Zsum n (fun k => b2z (f k)) = Z.of_nat (length (filter f (seq 0 n))).
Proof.
  induction n as [|n IH]; [reflexivity|]. rewrite seq_S, filter_app, app_length. cbn [Zsum]. rewrite IH. cbn [Nat.add filter]. destruct (f n); cbn [b2z length]; lia.
Qed.
Lemma count_mem n L : Zsum n (fun k => b2z (mem k L)) <= Z.of_nat (length L).
Proof.
  rewrite count_filter. apply inj_le. apply NoDup_incl_length; [apply NoDup_filter, seq_NoDup|]. intros x H. apply filter_In in H. apply mem_In, H.
Qed.
Lemma concat_count n (f : nat -> list nat) : Z.of_nat (length (concat (map f (seq 0 n)))) = Zsum n (fun k => Z.of_nat (length (f k))).
Proof.
  induction n as [|n IH]; [reflexivity|]. rewrite seq_S, map_app, concat_app, app_length. cbn [Zsum map concat Nat.add]. rewrite app_nil_r. lia.
Qed.
Lemma in_concat_seq n (f : nat -> list nat) k x : (k < n)%nat -> In x (f k) -> In x (concat (map f (seq 0 n))).
Proof. intros Hk Hx. apply in_concat. exists (f k). split; [apply in_map_iff; exists k; split; [reflexivity|apply in_seq; lia]|exact Hx]. Qed.

Ltac fall := repeat first [apply Forall_nil | apply Forall_cons; [first [left; reflexivity | right; reflexivity]|]].
(* the last round: choose its shifts *)
Lemma last_round n (JA JB R : list nat) : exists J,
  (length J <= length JA + length JB + length R)%nat /\ Forall (fun k => (k < n + n)%nat) J /\
  forall D : nat -> Z, Zsum (n + n) D = 0 -> (forall k, In k J -> D k = 0) ->
  exists rho : nat -> Z,
    (forall k, (k < n)%nat -> In k JA -> D k - rho k = 0) /\ (forall k, (k < n)%nat -> In k JB -> D (n + k)%nat + rho k = 0) /\
    (forall k, (k < n)%nat -> In k R -> rho k = 0) /\
    Zsum n (fun k => D k - rho k) = 0 /\ Zsum n (fun k => D (n + k)%nat + rho k) = 0.
Proof.
  set (a := fun k => mem k JA). set (b := fun k => mem k JB). set (c := fun k => mem k R).
  pose proof (count_mem n JA) as CA. pose proof (count_mem n JB) as CB. pose proof (count_mem n R) as CR.
  change (Zsum n (fun k => b2z (a k)) <= Z.of_nat (length JA)) in CA. change (Zsum n (fun k => b2z (b k)) <= Z.of_nat (length JB)) in CB. change (Zsum n (fun k => b2z (c k)) <= Z.of_nat (length R)) in CR.
  assert (MA : forall k, In k JA -> a k = true) by (intros k H; apply mem_In, H).
  assert (MB : forall k, In k JB -> b k = true) by (intros k H; apply mem_In, H).
  assert (MC : forall k, In k R -> c k = true) by (intros k H; apply mem_In, H).
  assert (TOT : forall D rho : nat -> Z, Zsum (n + n) D = 0 -> Zsum n (fun k => D k - rho k) = 0 -> Zsum n (fun k => D (n + k)%nat + rho k) = 0).
  { intros D rho T S. rewrite Zsum_split in T. rewrite Zsum_minus in S. rewrite Zsum_plus. lia. }
  assert (TOT2 : forall D rho : nat -> Z, Zsum (n + n) D = 0 -> Zsum n (fun k => D (n + k)%nat + rho k) = 0 -> Zsum n (fun k => D k - rho k) = 0).
  { intros D rho T S. rewrite Zsum_split in T. rewrite Zsum_plus in S. rewrite Zsum_minus. lia. }
  assert (BND : forall f : nat -> list nat, (forall k, (k < n)%nat -> Forall (fun x => x = k \/ x = (n + k)%nat) (f k)) -> Forall (fun k => (k < n + n)%nat) (concat (map f (seq 0 n)))).
  { intros f H. apply Forall_forall. intros x Hx. apply in_concat in Hx. destruct Hx as (l & Hl & Hx). apply in_map_iff in Hl. destruct Hl as (k & <- & Hk). apply in_seq in Hk.
    specialize (H k ltac:(lia)). rewrite Forall_forall in H. destruct (H x Hx); lia. }
  assert (LEN : forall (f : nat -> list nat) (g : nat -> Z), (forall k, (k < n)%nat -> Z.of_nat (length (f k)) <= b2z (a k) + b2z (b k) + b2z (c k) + g k) -> Zsum n g <= 0 ->
    (length (concat (map f (seq 0 n))) <= length JA + length JB + length R)%nat).
  { intros f g H G. apply Nat2Z.inj_le. rewrite concat_count, !Nat2Z.inj_add.
    pose proof (Zsum_le n (fun k => Z.of_nat (length (f k))) (fun k => b2z (a k) + b2z (b k) + b2z (c k) + g k) H) as X. rewrite !Zsum_plus in X. lia. }
  set (none := fun k => negb (a k || b k || c k)).
  destruct (existsb none (seq 0 n)) eqn:EX.
  - apply existsb_exists in EX. destruct EX as (k0 & Hk0 & N0). apply in_seq in Hk0. unfold none in N0. apply negb_true_iff, orb_false_iff in N0. destruct N0 as [N0 Nc]. apply orb_false_iff in N0. destruct N0 as [Na Nb].
    set (f := fun k : nat => ((if a k && (b k || c k) then [k] else []) ++ (if b k && (a k || c k) then [n + k] else []))%nat).
    exists (concat (map f (seq 0 n))). split; [|split].
    + apply (LEN f (fun _ => 0)); [|rewrite Zsum_0; lia]. intros k _. unfold f. destruct (a k), (b k), (c k); cbn; lia.
    + apply BND. intros k _. unfold f. apply Forall_app. split; [destruct (_ && _)|destruct (_ && _)]; fall.
    + intros D T HD.
      assert (Ha : forall k, (k < n)%nat -> a k = true -> b k = true \/ c k = true -> D k = 0).
      { intros k Hk E1 E2. apply HD. apply (in_concat_seq n f k); [exact Hk|]. unfold f. rewrite E1. destruct E2 as [-> | ->]; rewrite ?orb_true_r; left; reflexivity. }
      assert (Hb : forall k, (k < n)%nat -> b k = true -> a k = true \/ c k = true -> D (n + k)%nat = 0).
      { intros k Hk E1 E2. apply HD. apply (in_concat_seq n f k); [exact Hk|]. unfold f. apply in_or_app. right. rewrite E1. destruct E2 as [-> | ->]; rewrite ?orb_true_r; left; reflexivity. }
      set (base := fun k => if a k then D k else if b k then - D (n + k)%nat else 0).
      set (s := Zsum n (fun k => if Nat.eqb k k0 then 0 else D k - base k)).
      set (rho := fun k => if Nat.eqb k k0 then D k0 + s else base k). exists rho.
      assert (NE : forall k, a k = true \/ b k = true \/ c k = true -> rho k = base k).
      { intros k H. unfold rho. destruct (Nat.eqb_spec k k0) as [->|_]; [|reflexivity]. destruct H as [H|[H|H]]; congruence. }
      assert (S1 : Zsum n (fun k => D k - rho k) = 0).
      { assert (X : forall j, Zsum j (fun k => D k - rho k) = Zsum j (fun k => if Nat.eqb k k0 then 0 else D k - base k) - (if (k0 <? j)%nat then s else 0)).
        { induction j as [|j IH]; [reflexivity|]. cbn [Zsum]. rewrite IH. unfold rho. destruct (Nat.eqb_spec j k0) as [->|Nj].
          - replace (k0 <? k0)%nat with false by (symmetry; apply Nat.ltb_irrefl). replace (k0 <? S k0)%nat with true by (symmetry; apply Nat.ltb_lt; lia). lia.
          - replace (k0 <? S j)%nat with (k0 <? j)%nat by (destruct (Nat.ltb_spec k0 j), (Nat.ltb_spec k0 (S j)); try reflexivity; lia). lia. }
        rewrite X. replace (k0 <? n)%nat with true by (symmetry; apply Nat.ltb_lt; lia). fold s. lia. }
      split; [|split; [|split; [|split; [exact S1|apply TOT; assumption]]]].
      * intros k Hk H. apply MA in H. rewrite NE by auto. unfold base. rewrite H. lia.
      * intros k Hk H. apply MB in H. rewrite NE by auto. unfold base. destruct (a k) eqn:E; [|rewrite H; lia]. rewrite (Ha k Hk E (or_introl H)), (Hb k Hk H (or_introl E)). reflexivity.
      * intros k Hk H. apply MC in H. rewrite NE by auto. unfold base. destruct (a k) eqn:E; [apply Ha; auto|]. destruct (b k) eqn:E'; [rewrite (Hb k Hk E' (or_intror H)); reflexivity|reflexivity].
  - assert (ALL : forall k, (k < n)%nat -> a k || b k || c k = true).
    { intros k Hk. destruct (a k || b k || c k) eqn:E; [reflexivity|]. exfalso. assert (X : existsb none (seq 0 n) = true); [|congruence]. apply existsb_exists. exists k. split; [apply in_seq; lia|]. unfold none. rewrite E. reflexivity. }
    set (ao := fun k => a k && negb (b k) && negb (c k)). set (bo := fun k => b k && negb (a k) && negb (c k)).
    destruct (Z.le_ge_cases (Zsum n (fun k => b2z (bo k))) (Zsum n (fun k => b2z (ao k)))) as [LE|LE].
    + set (f := fun k : nat => (if a k then (if b k then [k; n + k] else if c k then [k] else []) else (if b k then [k; n + k] else [k]))%nat).
      exists (concat (map f (seq 0 n))). split; [|split].
      * apply (LEN f (fun k => b2z (bo k) - b2z (ao k))); [|rewrite Zsum_minus; lia]. intros k Hk. specialize (ALL k Hk). unfold f, ao, bo. destruct (a k), (b k), (c k); cbn in *; try discriminate; lia.
      * apply BND. intros k _. unfold f. destruct (a k), (b k), (c k); fall.
      * intros D T HD. assert (IN : forall k x, (k < n)%nat -> In x (f k) -> D x = 0) by (intros k x Hk Hx; apply HD, (in_concat_seq n f k); assumption).
        set (rho := fun k => if a k then D k else if b k then - D (n + k)%nat else 0). exists rho.
        assert (S1 : Zsum n (fun k => D k - rho k) = 0).
        { rewrite (Zsum_ext n _ (fun _ => 0)); [apply Zsum_0|]. intros k Hk. unfold rho. destruct (a k) eqn:E1; [lia|].
          assert (D k = 0) by (apply (IN k k Hk); unfold f; rewrite E1; destruct (b k); left; reflexivity).
          destruct (b k) eqn:E2; [|lia]. assert (D (n + k)%nat = 0) by (apply (IN k _ Hk); unfold f; rewrite E1, E2; right; left; reflexivity). lia. }
        split; [|split; [|split; [|split; [exact S1|apply TOT; assumption]]]].
        -- intros k Hk H. apply MA in H. unfold rho. rewrite H. lia.
        -- intros k Hk H. apply MB in H. unfold rho. destruct (a k) eqn:E; [|rewrite H; lia].
           rewrite (IN k k Hk), (IN k (n + k)%nat Hk); [reflexivity|unfold f; rewrite E, H; right; left; reflexivity|unfold f; rewrite E, H; left; reflexivity].
        -- intros k Hk H. apply MC in H. unfold rho. destruct (a k) eqn:E1.
           ++ apply (IN k k Hk). unfold f. rewrite E1, H. destruct (b k); left; reflexivity.
           ++ destruct (b k) eqn:E2; [|reflexivity]. rewrite (IN k (n + k)%nat Hk); [reflexivity|]. unfold f. rewrite E1, E2. right; left; reflexivity.
    + set (f := fun k : nat => (if b k then (if a k then [k; n + k] else if c k then [n + k] else []) else (if a k then [k; n + k] else [n + k]))%nat).
      exists (concat (map f (seq 0 n))). split; [|split].
      * apply (LEN f (fun k => b2z (ao k) - b2z (bo k))); [|rewrite Zsum_minus; lia]. intros k Hk. specialize (ALL k Hk). unfold f, ao, bo. destruct (a k), (b k), (c k); cbn in *; try discriminate; lia.
      * apply BND. intros k _. unfold f. destruct (a k), (b k), (c k); fall.
      * intros D T HD. assert (IN : forall k x, (k < n)%nat -> In x (f k) -> D x = 0) by (intros k x Hk Hx; apply HD, (in_concat_seq n f k); assumption).
        set (rho := fun k => if b k then - D (n + k)%nat else if a k then D k else 0). exists rho.
        assert (S1 : Zsum n (fun k => D (n + k)%nat + rho k) = 0).
        { rewrite (Zsum_ext n _ (fun _ => 0)); [apply Zsum_0|]. intros k Hk. unfold rho. destruct (b k) eqn:E1; [lia|].
          assert (D (n + k)%nat = 0) by (apply (IN k _ Hk); unfold f; rewrite E1; destruct (a k); [right|]; left; reflexivity).
          destruct (a k) eqn:E2; [|lia]. assert (D k = 0) by (apply (IN k _ Hk); unfold f; rewrite E1, E2; left; reflexivity). lia. }
        split; [|split; [|split; [|split; [apply TOT2; assumption|exact S1]]]].
        -- intros k Hk H. apply MA in H. unfold rho. destruct (b k) eqn:E; [|rewrite H; lia].
           rewrite (IN k k Hk), (IN k (n + k)%nat Hk); [reflexivity|unfold f; rewrite E, H; right; left; reflexivity|unfold f; rewrite E, H; left; reflexivity].
        -- intros k Hk H. apply MB in H. unfold rho. rewrite H. lia.
        -- intros k Hk H. apply MC in H. unfold rho. destruct (b k) eqn:E1.
           ++ rewrite (IN k (n + k)%nat Hk); [reflexivity|]. unfold f. rewrite E1, H. destruct (a k); [right|]; left; reflexivity.
           ++ destruct (a k) eqn:E2; [|reflexivity]. apply (IN k k Hk). unfold f. rewrite E1, E2. left; reflexivity.
Qed.

(* any probes can be simulated from as many outputs *)
Lemma probes_core e : forall W, Forall (pok e) W -> exists J, (length J <= length W)%nat /\ Forall (fun k => (k < 2 ^ e)%nat) J /\
  forall D : nat -> Z, Zsum (2 ^ e) D = 0 -> (forall k, In k J -> D k = 0) ->
  exists r, (forall k, (k < 2 ^ e)%nat -> part r e k = D k) /\ forall w, In w W -> pval r w = 0.
Proof.
  induction e as [|e IH]; intros W FW.
  - exists []. split; [cbn; lia|]. split; [constructor|]. intros D T _. exists (fun _ _ => 0). split.
    + intros k Hk. change (2 ^ 0)%nat with 1%nat in *. cbn [Zsum] in T. replace k with 0%nat by lia. unfold part. cbn [Zsum]. lia.
    + intros w Hw. rewrite Forall_forall in FW. specialize (FW w Hw). destruct w as [m i|n k]; cbn [pok pval] in *; [lia|]. unfold part. replace n with 0%nat by lia. reflexivity.
  - destruct (split_probes e W FW) as (WA & WB & R & Ou & L & FA & FB & FR & FO & C).
    destruct (IH WA FA) as (JA & LA & BA & SA). destruct (IH WB FB) as (JB & LB & BB & SB).
    destruct (last_round (2 ^ e) JA JB R) as (J & LJ & BJ & SJ).
    assert (PS : (2 ^ S e = 2 ^ e + 2 ^ e)%nat) by (cbn [Nat.pow]; lia).
    exists (Ou ++ J). split; [rewrite app_length; lia|]. split; [apply Forall_app; split; [exact FO|rewrite PS; exact BJ]|].
    intros D T HD. rewrite PS in T. destruct (SJ D T) as (rho & H1 & H2 & H3 & H4 & H5); [intros k Hk; apply HD, in_or_app; right; exact Hk|].
    destruct (SA (fun k => D k - rho k) H4) as (rA & EA & VA). { intros k Hk. apply H1; [|exact Hk]. rewrite Forall_forall in BA. apply BA, Hk. }
    destruct (SB (fun k => D (2 ^ e + k)%nat + rho k) H5) as (rB & EB & VB). { intros k Hk. apply H2; [|exact Hk]. rewrite Forall_forall in BB. apply BB, Hk. }
    exists (glue e rA rB rho). assert (FIN : forall k, (k < 2 ^ S e)%nat -> part (glue e rA rB rho) (S e) k = D k).
    { intros k Hk. destruct (Nat.lt_ge_cases k (2 ^ e)) as [X|X]; [rewrite glue_last_low, EA by exact X; lia|].
      replace k with (2 ^ e + (k - 2 ^ e))%nat by lia. rewrite glue_last_high, EB by lia. lia. }
    split; [exact FIN|]. intros w Hw. destruct (C w Hw) as [X|[(w' & X & ->)|[(i & X & ->)|(k & X & ->)]]].
    + rewrite Forall_forall in FA. pose proof (FA w X) as Y. pose proof (VA w X) as V. destruct w as [m i|n k]; cbn [pok pval] in *.
      * destruct Y as [[Y1 Y2] _]. unfold glue. replace (Nat.eqb m e) with false by (symmetry; apply Nat.eqb_neq; lia). replace (i <? 2 ^ e)%nat with true by (symmetry; apply Nat.ltb_lt; lia). exact V.
      * rewrite glue_low by lia. exact V.
    + rewrite Forall_forall in FB. pose proof (FB w' X) as Y. pose proof (VB w' X) as V. destruct w' as [m i|n k]; cbn [pok pval pshift] in *.
      * destruct Y as [[Y1 Y2] _]. unfold glue. replace (Nat.eqb m e) with false by (symmetry; apply Nat.eqb_neq; lia). replace (2 ^ e + i <? 2 ^ e)%nat with false by (symmetry; apply Nat.ltb_ge; lia).
        replace (2 ^ e + i - 2 ^ e)%nat with i by lia. exact V.
      * rewrite glue_high by lia. exact V.
    + cbn [pval]. unfold glue. rewrite Nat.eqb_refl. apply H3; [|exact X]. rewrite Forall_forall in FR. apply FR, X.
    + cbn [pval]. rewrite Forall_forall in FO. rewrite FIN by (apply FO, X). apply HD, in_or_app. left. exact X.
Qed.
