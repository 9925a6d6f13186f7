(* Runs of the machine of ModelConc: programs without stores. *)
From Coq Require Import ZArith List Bool Arith Lia.
From Coq.Init Require Import Byte.
From Verif Require Import ModelBase ModelField ModelUtils ModelPoly ModelVec ModelSerial ModelScheme ModelMore ModelConc.
From Verif Require Import Spec SpecScheme MoreProofs.
Import ListNotations.
Open Scope Z_scope.

(* ---- a program without stores, when its access number i sees the memory M i ---- *)
Fixpoint seen {A} (p : prog A) (M : nat -> mem) (t : nat) (ws : list Z) : option (A * nat * list Z) :=
  match p with
  | p_ret r => Some (r, t, ws)
  | p_get x k => seen (k (M t x)) M (S t) ws
  | p_put _ _ _ => None
  | p_dev k => match ws with [] => None | w :: ws => seen (k w) M (S t) ws end
  end.
Lemma seen_bind {A B} (p : prog A) (f : A -> prog B) : forall M t ws,
  seen (pbind p f) M t ws = match seen p M t ws with Some (a, t', ws') => seen (f a) M t' ws' | None => None end.
Proof.
  induction p as [r|x k IH|x v k IH|k IH]; intros M t ws; cbn [pbind seen].
  - reflexivity.
  - apply IH.
  - reflexivity.
  - destruct ws as [|w ws]; [reflexivity|apply IH].
Qed.

Lemma seen_later {A} (p : prog A) : forall M t ws a t' ws', seen p M t ws = Some (a, t', ws') -> (t <= t')%nat.
Proof.
  induction p as [r|x k IH|x v k IH|k IH]; intros M t ws a t' ws' E; cbn [seen] in E.
  - injection E as _ <- _. apply Nat.le_refl.
  - apply IH in E. lia.
  - discriminate.
  - destruct ws as [|w ws]; [discriminate|]. apply IH in E. lia.
Qed.

(* at most n accesses, none of them a store *)
Inductive reads_only {A} : nat -> prog A -> Prop :=
| ro_ret n r : reads_only n (p_ret r)
| ro_get n x k : (forall v, reads_only n (k v)) -> reads_only (S n) (p_get x k)
| ro_dev n k : (forall v, reads_only n (k v)) -> reads_only (S n) (p_dev k).
Lemma ro_mono {A} n (p : prog A) : reads_only n p -> forall m, (n <= m)%nat -> reads_only m p.
Proof.
  induction 1 as [n r|n x k _ IH|n k _ IH]; intros m L; [constructor| |]; (destruct m as [|m]; [exfalso; lia|]); constructor; intros v; apply IH; lia.
Qed.
Lemma ro_bind {A B} n (p : prog A) : reads_only n p -> forall m (f : A -> prog B), (forall a, reads_only m (f a)) -> reads_only (n + m) (pbind p f).
Proof.
  induction 1 as [n r|n x k _ IH|n k _ IH]; intros m f F; cbn [pbind].
  - apply (ro_mono m); [apply F|lia].
  - cbn [Nat.add]. constructor. intros v. apply IH, F.
  - cbn [Nat.add]. constructor. intros v. apply IH, F.
Qed.
Lemma ro_pmap {A B} (f : A -> prog B) n : (forall a, reads_only n (f a)) -> forall l, reads_only (length l * n) (pmap f l).
Proof.
  intros F. induction l as [|a l IH]; cbn [pmap length]; [constructor|].
  cbn [Nat.mul]. apply ro_bind; [apply F|]. intros b.
  replace (length l * n)%nat with (length l * n + 0)%nat by lia. apply ro_bind; [exact IH|]. intros bs. constructor.
Qed.

(* ---- threads ---- *)
Lemma set_thread_length l : forall i t, length (set_thread l i t) = length l.
Proof. induction l as [|x l IH]; intros [|i] t; cbn [set_thread length]; congruence. Qed.
Lemma set_thread_same l : forall i t x, nth_error l i = Some x -> nth_error (set_thread l i t) i = Some t.
Proof. induction l as [|y l IH]; intros [|i] t x H; cbn [set_thread nth_error] in *; try discriminate; [reflexivity|]. eapply IH, H. Qed.
Lemma set_thread_other l : forall i j t, i <> j -> nth_error (set_thread l i t) j = nth_error l j.
Proof.
  induction l as [|y l IH]; intros [|i] [|j] t N; cbn [set_thread nth_error]; try reflexivity; try congruence. apply IH. congruence.
Qed.
Lemma set_thread_got l : forall i th th', nth_error l i = Some th -> th_got th' = th_got th -> map th_got (set_thread l i th') = map th_got l.
Proof.
  induction l as [|x l IH]; intros [|i] th th' N E; cbn [set_thread nth_error map] in *; try discriminate.
  - injection N as ->. rewrite E. reflexivity.
  - rewrite (IH i th th' N E). reflexivity.
Qed.

(* device words: each thread has got different ones, all of them below the counter *)
Definition fresh_words (c : machine) : Prop :=
  NoDup (concat (map th_got (mc_threads c))) /\ Forall (fun w => (w < mc_next c)%nat) (concat (map th_got (mc_threads c))).
Lemma got_more l : forall i th th' w, nth_error l i = Some th -> th_got th' = th_got th ++ [w] ->
  exists a b, concat (map th_got l) = a ++ b /\ concat (map th_got (set_thread l i th')) = a ++ w :: b.
Proof.
  induction l as [|x l IH]; intros [|i] th th' w N E; cbn [set_thread nth_error map concat] in *; try discriminate.
  - injection N as ->. exists (th_got th), (concat (map th_got l)). rewrite E, <- app_assoc. split; reflexivity.
  - destruct (IH i th th' w N E) as (a & b & H1 & H2). exists (th_got x ++ a), b. rewrite H1, H2, <- !app_assoc. split; reflexivity.
Qed.
Lemma fresh_step dev c i : fresh_words c -> fresh_words (mc_step dev c i).
Proof.
  intros [N F]. unfold mc_step. destruct (nth_error (mc_threads c) i) as [th|] eqn:E; [|split; assumption].
  destruct (th_prog th) as [r|x k|x v k|k]; [split; assumption| | |].
  - unfold fresh_words. cbn [mc_threads mc_next]. rewrite (set_thread_got _ i th _ E); [split; assumption|reflexivity].
  - unfold fresh_words. cbn [mc_threads mc_next]. rewrite (set_thread_got _ i th _ E); [split; assumption|reflexivity].
  - unfold fresh_words. cbn [mc_threads mc_next].
    destruct (got_more _ i th (Thread (k (dev (mc_next c))) (th_got th ++ [mc_next c])) (mc_next c) E eq_refl) as (a & b & H1 & H2).
    rewrite H2. rewrite H1 in N, F. split.
    + apply (proj2 (NoDup_Add (Add_app (mc_next c) a b))). split; [exact N|]. intros I.
      rewrite Forall_forall in F. specialize (F _ I). lia.
    + apply Forall_app in F. destruct F as [F1 F2]. apply Forall_app. split; [|constructor; [lia|]].
      * eapply Forall_impl; [|exact F1]. cbn beta. intros w Hw. lia.
      * eapply Forall_impl; [|exact F2]. cbn beta. intros w Hw. lia.
Qed.
Lemma fresh_run dev sched : forall c, fresh_words c -> fresh_words (mc_run dev c sched).
Proof. induction sched as [|i sched IH]; intros c F; [exact F|]. apply IH, fresh_step, F. Qed.

(* ---- machines whose threads have no stores ---- *)
Section Readers.
Variable m0 : mem.
Variable dev : nat -> Z.
Let M : nat -> mem := fun _ => m0.

Definition value {A} (p : prog A) (ws : list Z) : option (A * list Z) :=
  match seen p M 0 ws with Some (a, _, ws') => Some (a, ws') | None => None end.
Lemma seen_time {A} (p : prog A) : forall t t' ws,
  match seen p M t ws with Some (a, _, ws') => Some (a, ws') | None => None end =
  match seen p M t' ws with Some (a, _, ws') => Some (a, ws') | None => None end.
Proof.
  induction p as [r|x k IH|x v k IH|k IH]; intros t t' ws; cbn [seen].
  - reflexivity.
  - apply IH.
  - reflexivity.
  - destruct ws as [|w ws]; [reflexivity|apply IH].
Qed.

(* thread [th], started as p0 and scheduled s times: it computes what p0 computes on m0 *)
Definition follows (N : nat) (p0 : prog answer) (s : nat) (th : thread) : Prop :=
  reads_only (N - s) (th_prog th) /\
  forall ws, value (th_prog th) ws = value p0 (map dev (th_got th) ++ ws).
Definition all_follow (N : list nat) (ps : list (prog answer)) (sched : list nat) (c : machine) : Prop :=
  mc_mem c = m0 /\ length (mc_threads c) = length ps /\
  forall i p0 n, nth_error ps i = Some p0 -> nth_error N i = Some n ->
    exists th, nth_error (mc_threads c) i = Some th /\ follows n p0 (count_occ Nat.eq_dec sched i) th.

Lemma ro_pred {A} n (p : prog A) : reads_only (S n) p -> forall r, p = p_ret r -> reads_only n p.
Proof. intros _ r ->. constructor. Qed.
Lemma follow_step N ps sched c i : length N = length ps -> all_follow N ps sched c -> all_follow N ps (sched ++ [i]) (mc_step dev c i).
Proof.
  intros LN (Hm & Hl & Hf). unfold mc_step.
  assert (CO : forall j, count_occ Nat.eq_dec (sched ++ [i]) j = (count_occ Nat.eq_dec sched j + if Nat.eq_dec i j then 1 else 0)%nat).
  { intros j. rewrite count_occ_app. cbn [count_occ]. destruct (Nat.eq_dec i j); reflexivity. }
  destruct (nth_error (mc_threads c) i) as [th|] eqn:E.
  2:{ split; [exact Hm|]. split; [exact Hl|]. intros j p0 n Hp Hn. destruct (Hf j p0 n Hp Hn) as (th & T & F).
      exists th. split; [exact T|]. rewrite CO. destruct (Nat.eq_dec i j) as [->|NE]; [rewrite E in T; discriminate|]. rewrite Nat.add_0_r. exact F. }
  assert (Li : (i < length ps)%nat) by (rewrite <- Hl; apply nth_error_Some; rewrite E; discriminate).
  destruct (nth_error ps i) as [pi|] eqn:Epi; [|apply nth_error_None in Epi; lia].
  destruct (nth_error N i) as [ni|] eqn:Eni; [|apply nth_error_None in Eni; lia].
  destruct (Hf i pi ni Epi Eni) as (th' & T & [RO V]). rewrite E in T. injection T as <-.
  (* threads other than i are as before *)
  assert (OTHER : forall th1 j p0 n, i <> j -> nth_error ps j = Some p0 -> nth_error N j = Some n ->
    exists t, nth_error (set_thread (mc_threads c) i th1) j = Some t /\ follows n p0 (count_occ Nat.eq_dec (sched ++ [i]) j) t).
  { intros th1 j p0 n NE Hp Hn. destruct (Hf j p0 n Hp Hn) as (t & T & F). exists t. rewrite set_thread_other by exact NE.
    split; [exact T|]. rewrite CO. destruct (Nat.eq_dec i j) as [X|_]; [congruence|]. rewrite Nat.add_0_r. exact F. }
  assert (THIS : forall c1 th1, mc_mem c1 = m0 -> mc_threads c1 = set_thread (mc_threads c) i th1 ->
    follows ni pi (count_occ Nat.eq_dec sched i + 1) th1 -> all_follow N ps (sched ++ [i]) c1).
  { intros c1 th1 Hm1 Ht1 F. split; [exact Hm1|]. rewrite Ht1. split; [rewrite set_thread_length; exact Hl|].
    intros j p0 n Hp Hn. destruct (Nat.eq_dec i j) as [<-|NE]; [|apply OTHER; assumption].
    rewrite Epi in Hp. injection Hp as <-. rewrite Eni in Hn. injection Hn as <-.
    exists th1. split; [eapply set_thread_same, E|]. rewrite CO. destruct (Nat.eq_dec i i) as [_|X]; [exact F|congruence]. }
  destruct (th_prog th) as [r|x k|x v k|k] eqn:EP.
  - (* finished *)
    split; [exact Hm|]. split; [exact Hl|]. intros j p0 n Hp Hn. destruct (Hf j p0 n Hp Hn) as (t & T & F).
    exists t. split; [exact T|]. rewrite CO. destruct (Nat.eq_dec i j) as [<-|NE]; [|rewrite Nat.add_0_r; exact F].
    rewrite E in T. injection T as <-. destruct F as [F1 F2]. split; [|exact F2]. rewrite EP. constructor.
  - (* a read *)
    apply (THIS _ (Thread (k (mc_mem c x)) (th_got th))); [exact Hm|reflexivity|].
    inversion RO as [|n' x' k' RK EN EX|]; subst x' k'. split; cbn [th_prog th_got].
    + apply (ro_mono n'); [apply RK|lia].
    + intros ws. rewrite <- V. unfold value. cbn [seen]. rewrite (seen_time (k (M 0%nat x)) 1%nat 0%nat). rewrite Hm. reflexivity.
  - (* a store *)
    inversion RO.
  - (* a device word *)
    apply (THIS _ (Thread (k (dev (mc_next c))) (th_got th ++ [mc_next c]))); [exact Hm|reflexivity|].
    inversion RO as [| |n' k' RK EN EX]; subst k'. split; cbn [th_prog th_got].
    + apply (ro_mono n'); [apply RK|lia].
    + intros ws. rewrite map_app, <- app_assoc. cbn [map app]. rewrite <- V. unfold value. cbn [seen].
      rewrite (seen_time (k (dev (mc_next c))) 1%nat 0%nat). reflexivity.
Qed.
Lemma follow_run N ps sched : length N = length ps -> forall done c, all_follow N ps done c -> all_follow N ps (done ++ sched) (mc_run dev c sched).
Proof.
  intros LN. induction sched as [|i sched IH]; intros done c F; [rewrite app_nil_r; exact F|].
  cbn [mc_run fold_left]. replace (done ++ i :: sched) with ((done ++ [i]) ++ sched) by (rewrite <- app_assoc; reflexivity).
  apply IH, follow_step; assumption.
Qed.
End Readers.

(* ---- copies of the parts of a key object ---- *)
(* p reads v, if from its first access on it sees the words of m *)
Definition reads {A} (p : prog A) (m : mem) (v : A) : Prop := forall M t ws, (forall s x, (t <= s)%nat -> M s x = m x) ->
  exists t', (t <= t')%nat /\ seen p M t ws = Some (v, t', ws).
Lemma reads_ret {A} (v : A) m : reads (p_ret v) m v.
Proof. intros M t ws _. exists t. split; [apply Nat.le_refl|reflexivity]. Qed.
Lemma reads_bind {A B} (p : prog A) (f : A -> prog B) m v w : reads p m v -> reads (f v) m w -> reads (pbind p f) m w.
Proof.
  intros Hp Hf M t ws HM. destruct (Hp M t ws HM) as (t' & L & E).
  destruct (Hf M t' ws) as (t2 & L2 & E2); [intros s x Hs; apply HM; lia|]. exists t2. split; [lia|]. rewrite seen_bind, E. exact E2.
Qed.
Lemma reads_get1 x m : reads (get1 x) m (m x).
Proof. intros M t ws HM. exists (S t). split; [lia|]. cbn [get1 seen]. rewrite HM by apply Nat.le_refl. reflexivity. Qed.
Lemma reads_pmap {A B} (f : A -> prog B) (g : A -> B) m l : (forall a, In a l -> reads (f a) m (g a)) -> reads (pmap f l) m (map g l).
Proof.
  induction l as [|a l IH]; intros H; cbn [pmap map]; [apply reads_ret|].
  apply (reads_bind _ _ _ (g a)); [apply H; left; reflexivity|].
  apply (reads_bind _ _ _ (map g l)); [apply IH; intros b I; apply H; right; exact I|]. apply reads_ret.
Qed.
Lemma map_nth_all {A} (d : A) l : map (fun i => nth i l d) (seq 0 (length l)) = l.
Proof.
  induction l as [|a l IH]; [reflexivity|]. cbn [length seq map nth]. f_equal.
  rewrite <- seq_shift, map_map. exact IH.
Qed.
Lemma map_nth_n {A} (d : A) l n : length l = n -> map (fun i => nth i l d) (seq 0 n) = l.
Proof. intros <-. apply map_nth_all. Qed.

Section Key.
Context (P : params) (sk : skey).
Hypothesis (Vseed : length (pk_seed (sk_pkey sk)) = Z.to_nat (p_kappa P / 8)).
Hypothesis (Vt : public_vec (p_k P) (pk_t (sk_pkey sk))).
Hypothesis (Vs : masked_vec49 (p_l P) (p_d P) (sk_s sk)).
Lemma reads_seed : reads (copy_seed P) (key_mem sk) (pk_seed (sk_pkey sk)).
Proof.
  unfold copy_seed. rewrite <- (map_nth_n 0 (pk_seed (sk_pkey sk)) _ Vseed).
  apply reads_pmap. intros i _. apply reads_get1.
Qed.
Lemma reads_t : reads (copy_t P) (key_mem sk) (pk_t (sk_pkey sk)).
Proof.
  destruct Vt as [L F]. unfold copy_t. rewrite <- (map_nth_n [] (pk_t (sk_pkey sk)) _ L).
  apply reads_pmap. intros r I. apply in_seq in I.
  assert (In (nth r (pk_t (sk_pkey sk)) []) (pk_t (sk_pkey sk))) as I2 by (apply nth_In; refine (eq_ind_r (fun n => (r < n)%nat) _ L); lia).
  rewrite Forall_forall in F. destruct (F _ I2) as (p & E & Lp & _).
  apply (reads_bind _ _ _ p); [|refine (eq_ind_r (fun y => reads (p_ret [p]) (key_mem sk) y) _ E); apply reads_ret].
  rewrite <- (map_nth_n 0 p _ Lp). apply reads_pmap. intros i _.
  replace (nth i p 0) with (key_mem sk (Lt r i)); [apply reads_get1|]. cbn [key_mem]. refine (f_equal (fun y => nth i (nth 0 y []) 0) E).
Qed.
Lemma reads_row r : (r < p_l P)%nat -> reads (copy_row (p_d P) r) (key_mem sk) (nth r (sk_s sk) []).
Proof.
  intros Hr. destruct Vs as [L F].
  assert (In (nth r (sk_s sk) []) (sk_s sk)) as I2 by (apply nth_In; refine (eq_ind_r (fun n => (r < n)%nat) _ L); exact Hr).
  rewrite Forall_forall in F. destruct (F _ I2) as [Lr Fr]. unfold copy_row.
  rewrite <- (map_nth_n [] (nth r (sk_s sk) []) _ Lr). apply reads_pmap. intros j I. apply in_seq in I.
  assert (In (nth j (nth r (sk_s sk) []) []) (nth r (sk_s sk) [])) as I3 by (apply nth_In; refine (eq_ind_r (fun n => (j < n)%nat) _ Lr); lia).
  rewrite Forall_forall in Fr. destruct (Fr _ I3) as [Lj _].
  refine (eq_ind _ (fun v => reads _ _ v) _ _ (map_nth_n 0 _ _ Lj)). apply reads_pmap. intros i _.
  apply (reads_get1 (Ls r j i) (key_mem sk)).
Qed.
Lemma reads_s : reads (copy_s P) (key_mem sk) (sk_s sk).
Proof.
  unfold copy_s. refine (eq_ind _ (fun v => reads _ _ v) _ _ (map_nth_n [] _ _ (proj1 Vs))). apply reads_pmap. intros r I. apply in_seq in I. apply reads_row. lia.
Qed.
Lemma reads_pkey : reads (copy_pkey P) (key_mem sk) (sk_pkey sk).
Proof.
  unfold copy_pkey. eapply reads_bind; [apply reads_seed|]. eapply reads_bind; [apply reads_t|].
  replace (sk_pkey sk) with (Pkey (pk_seed (sk_pkey sk)) (pk_t (sk_pkey sk))) by (destruct (sk_pkey sk); reflexivity). apply reads_ret.
Qed.
End Key.

(* ---- the generator ---- *)
Lemma dev_words (l : list nat) : forall M t ws r, seen (pmap (fun _ => dev1) l) M t ws = r ->
  match r with
  | Some (vs, _, rest) => ws = vs ++ rest /\ length vs = length l
  | None => (length ws < length l)%nat
  end.
Proof.
  induction l as [|x l IH]; intros M t ws r E; cbn [pmap] in E.
  - subst r. cbn [seen]. split; reflexivity.
  - rewrite seen_bind in E. unfold dev1 in E at 1. cbn [seen] in E. destruct ws as [|w ws]; [subst r; cbn [length]; lia|].
    rewrite seen_bind in E. destruct (seen (pmap (fun _ => dev1) l) M (S t) ws) as [[[vs t'] rest]|] eqn:E2.
    + pose proof (IH _ _ _ _ E2) as H. cbn beta iota in H. destruct H as [-> L]. cbn [seen] in E. subst r. split; [reflexivity|]. cbn [length]. congruence.
    + pose proof (IH _ _ _ _ E2) as H. cbn beta iota in H. subst r. cbn [length]. lia.
Qed.
Lemma dev_words_ok n : forall M t ws, length ws = n -> exists t', seen (pmap (fun _ => dev1) (seq 0 n)) M t ws = Some (ws, t', []).
Proof.
  intros M t ws L. destruct (seen (pmap (fun _ => dev1) (seq 0 n)) M t ws) as [[[vs t'] rest]|] eqn:E.
  - destruct (dev_words _ _ _ _ _ E) as [H Lv]. rewrite seq_length in Lv.
    assert (rest = []) as ->. { destruct rest as [|y rest]; [reflexivity|]. exfalso. apply (f_equal (@length Z)) in H. rewrite app_length in H. cbn [length] in H. lia. }
    rewrite app_nil_r in H. subst vs. exists t'. reflexivity.
  - pose proof (dev_words _ _ _ _ _ E) as H. cbn beta iota in H. rewrite seq_length in H. exfalso. lia.
Qed.

(* the tape of a generator seeded with the given words of the device *)
Definition tape_of_words (shake128 : list Z -> nat -> byte) (ws : list Z) : nat -> byte := shake128 (concat (map word4 ws)).
Lemma prng_words shake128 fuel ws : (9 <= fuel)%nat -> length ws = 8%nat ->
  prng_of_device shake128 fuel (fun i => nth i ws 0) = Ok (prng_new (tape_of_words shake128 ws)).
Proof.
  intros Hf L. unfold prng_of_device. rewrite (device_seed_ok _ _ Hf). cbn [bind]. unfold tape_of_words.
  assert (E : map (fun i => word4 (nth i ws 0)) (seq 0 8) = map word4 ws).
  { rewrite <- (map_map (fun i => nth i ws 0) word4). f_equal. apply map_nth_n, L. }
  rewrite E. reflexivity.
Qed.
