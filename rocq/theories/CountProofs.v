(* Counting the byte windows on which a rejection sampler has not finished. *)
From Coq Require Import ZArith Lia Bool List Arith.
From Verif Require Import Spec.
Import ListNotations.
Open Scope Z_scope.
Ltac Zify.zify_post_hook ::= idtac.

Definition zl {A} (l : list A) : Z := Z.of_nat (length l).
Lemma zl_app {A} (l m : list A) : zl (l ++ m) = zl l + zl m.
Proof. unfold zl. rewrite app_length. lia. Qed.
Lemma zl_map {A B} (f : A -> B) l : zl (map f l) = zl l.
Proof. unfold zl. rewrite map_length. reflexivity. Qed.
Lemma zl_nonneg {A} (l : list A) : 0 <= zl l. Proof. unfold zl. lia. Qed.
Lemma zl_flat_map {A B} (f : A -> list B) c l : (forall x, In x l -> zl (f x) <= c) -> zl (flat_map f l) <= zl l * c.
Proof.
  induction l as [|x l IH]; intros H; [cbn; lia|]. cbn [flat_map]. rewrite zl_app. pose proof (H x (or_introl eq_refl)).
  specialize (IH (fun y Hy => H y (or_intror Hy))). replace (zl (x :: l)) with (zl l + 1) by (unfold zl; cbn [length]; lia). lia.
Qed.
Section Seqs.
  Context {X : Type}.
  Fixpoint seqs (al : list X) (n : nat) : list (list X) :=
    match n with 0%nat => [[]] | Datatypes.S m => flat_map (fun x => map (cons x) (seqs al m)) al end.
  Lemma in_seqs al n : forall s, In s (seqs al n) <-> length s = n /\ Forall (fun x => In x al) s.
  Proof.
    induction n as [|n IH]; intros s; cbn [seqs].
    - split; [intros [<-|[]]; split; [reflexivity|constructor]|]. intros [L _]. destruct s; [left; reflexivity|discriminate L].
    - rewrite in_flat_map. split.
      + intros (x & Hx & H). apply in_map_iff in H. destruct H as (s' & <- & H). apply IH in H. destruct H as [L F].
        split; [cbn [length]; lia|constructor; assumption].
      + intros [L F]. destruct s as [|x s]; [discriminate L|]. inversion F as [|? ? Hx F']; subst. exists x. split; [exact Hx|].
        apply in_map. apply IH. split; [cbn [length] in L; lia|exact F'].
  Qed.
  Lemma zl_seqs al n : zl (seqs al n) <= zl al ^ Z.of_nat n.
  Proof.
    induction n as [|n IH]; [cbn; lia|]. cbn [seqs]. rewrite Nat2Z.inj_succ, Z.pow_succ_r by lia.
    apply zl_flat_map. intros x _. rewrite zl_map. exact IH.
  Qed.
  (* a sampler that reads symbols of [al]; [cnt] is its progress after a list of symbols, [r pre] the symbols that make
     no progress after [pre] *)
  Variables (al : list X) (r : list X -> list X) (cnt : list X -> nat) (T b : nat) (R : Z).
  Hypothesis Hmono : forall pre u, (cnt pre <= cnt (pre ++ u))%nat.
  Hypothesis Hstuck : forall pre u, Forall (fun x => In x al) u -> cnt (pre ++ u) = cnt pre -> (cnt pre < T)%nat -> Forall (fun x => In x (r pre)) u.
  Hypothesis HR : forall pre, zl (r pre) <= R.
  Fixpoint bad (pre : list X) (N : nat) : list (list X) :=
    match N with
    | 0%nat => []
    | Datatypes.S N => flat_map (fun u => map (app u) (seqs al (N * b))) (seqs (r pre) b)
                       ++ flat_map (fun u => map (app u) (bad (pre ++ u) N)) (seqs al b)
    end.
  Lemma bad_complete N : forall pre s, length s = (N * b)%nat -> Forall (fun x => In x al) s ->
    (cnt (pre ++ s) < T)%nat -> (T <= cnt pre + N)%nat -> In s (bad pre N).
  Proof.
    induction N as [|N IH]; intros pre s L F HT HN.
    - pose proof (Hmono pre s). lia.
    - cbn [bad]. apply in_or_app. set (u := firstn b s). set (v := skipn b s).
      assert (E : s = u ++ v) by (symmetry; apply firstn_skipn).
      assert (Lu : length u = b) by (unfold u; rewrite firstn_length, L; cbn [Nat.mul]; lia).
      assert (Lv : length v = (N * b)%nat) by (unfold v; rewrite skipn_length, L; cbn [Nat.mul]; lia).
      rewrite E in F. apply Forall_app in F. destruct F as [Fu Fv].
      destruct (Nat.eq_dec (cnt (pre ++ u)) (cnt pre)) as [D|D].
      + left. apply in_flat_map. exists u. split.
        * apply in_seqs. split; [exact Lu|]. apply Hstuck; [exact Fu|exact D|]. pose proof (Hmono pre s). lia.
        * rewrite E. apply in_map. apply in_seqs. split; assumption.
      + right. apply in_flat_map. exists u. split; [apply in_seqs; split; assumption|]. rewrite E. apply in_map.
        apply IH; [exact Lv|exact Fv|rewrite <- app_assoc, <- E; exact HT|]. pose proof (Hmono pre u). lia.
  Qed.
  Hypothesis Hr : forall pre x, In x (r pre) -> In x al.
  Lemma bad_sound N : forall pre s, In s (bad pre N) -> length s = (N * b)%nat /\ Forall (fun x => In x al) s.
  Proof.
    induction N as [|N IH]; intros pre s H; [destruct H|]. cbn [bad] in H. apply in_app_or in H. destruct H as [H|H]; apply in_flat_map in H;
      destruct H as (u & Hu & H); apply in_map_iff in H; destruct H as (v & <- & Hv); apply in_seqs in Hu; destruct Hu as [Lu Fu].
    - apply in_seqs in Hv. destruct Hv as [Lv Fv]. split; [rewrite app_length; cbn [Nat.mul]; lia|]. apply Forall_app. split; [|exact Fv].
      refine (Forall_impl _ _ Fu). intros x. apply Hr.
    - apply IH in Hv. destruct Hv as [Lv Fv]. split; [rewrite app_length; cbn [Nat.mul]; lia|]. apply Forall_app. split; assumption.
  Qed.
  Lemma bad_count N : forall pre,
    zl (bad pre N) * zl al ^ Z.of_nat b <= Z.of_nat N * R ^ Z.of_nat b * zl al ^ Z.of_nat (N * b).
  Proof.
    assert (HR0 : 0 <= R) by (pose proof (HR []); pose proof (zl_nonneg (r [])); lia).
    pose proof (zl_nonneg al) as HA. set (A := zl al) in *.
    induction N as [|N IH]; intros pre; [cbn; lia|]. cbn [bad]. rewrite zl_app.
    assert (PA : 0 <= A ^ Z.of_nat b) by (apply Z.pow_nonneg; exact HA).
    assert (PN : 0 <= A ^ Z.of_nat (N * b)) by (apply Z.pow_nonneg; exact HA).
    assert (E : A ^ Z.of_nat (Datatypes.S N * b) = A ^ Z.of_nat b * A ^ Z.of_nat (N * b)).
    { cbn [Nat.mul]. rewrite Nat2Z.inj_add. apply Z.pow_add_r; lia. }
    rewrite E.
    assert (B1 : zl (flat_map (fun u => map (app u) (seqs al (N * b))) (seqs (r pre) b)) <= R ^ Z.of_nat b * A ^ Z.of_nat (N * b)).
    { eapply Z.le_trans; [apply (zl_flat_map _ (A ^ Z.of_nat (N * b)))|].
      - intros u _. rewrite zl_map. apply zl_seqs.
      - apply Z.mul_le_mono_nonneg_r; [exact PN|]. eapply Z.le_trans; [apply zl_seqs|]. apply Z.pow_le_mono_l. split; [apply zl_nonneg|apply HR]. }
    set (B := R ^ Z.of_nat b) in *. set (AN := A ^ Z.of_nat (N * b)) in *. set (Ab := A ^ Z.of_nat b) in *.
    set (C1 := zl (flat_map (fun u => map (app u) (seqs al (N * b))) (seqs (r pre) b))) in *.
    assert (B2 : zl (flat_map (fun u => map (app u) (bad (pre ++ u) N)) (seqs al b)) * Ab <= Ab * (Z.of_nat N * B * AN)).
    { assert (G : forall l, zl (flat_map (fun u => map (app u) (bad (pre ++ u) N)) l) * Ab <= zl l * (Z.of_nat N * B * AN)).
      { induction l as [|u l IHl]; [cbn; lia|]. cbn [flat_map]. rewrite zl_app, zl_map. specialize (IH (pre ++ u)).
        replace (zl (u :: l)) with (zl l + 1) by (unfold zl; cbn [length]; lia). lia. }
      eapply Z.le_trans; [apply G|]. apply Z.mul_le_mono_nonneg_r; [|apply zl_seqs].
      apply Z.mul_nonneg_nonneg; [apply Z.mul_nonneg_nonneg; [lia|apply Z.pow_nonneg; exact HR0]|exact PN]. }
    set (C2 := zl (flat_map (fun u => map (app u) (bad (pre ++ u) N)) (seqs al b))) in *.
    rewrite Nat2Z.inj_succ. assert (B3 : C1 * Ab <= B * AN * Ab) by (apply Z.mul_le_mono_nonneg_r; assumption).
    replace (Z.succ (Z.of_nat N) * B * (Ab * AN)) with (B * AN * Ab + Ab * (Z.of_nat N * B * AN)) by ring. lia.
  Qed.
End Seqs.
