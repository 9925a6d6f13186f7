(* Runs of the machine of ModelConc: refresh, which stores to the shared key, alone and while another
   thread signs. *)
From Coq Require Import ZArith List Bool Arith Lia.
From Coq.Init Require Import Byte.
From Verif Require Import ModelBase ModelField ModelUtils ModelPoly ModelVec ModelSerial ModelScheme ModelMore ModelConc.
From Verif Require Import Spec SpecScheme MoreProofs PolyProofs MaskedProofs MaskedLemmas ConcProofs.
Import ListNotations.
Open Scope Z_scope.

(* ---- programs without device words, run alone ---- *)
Fixpoint exec {A} (p : prog A) (m : mem) : option (A * mem) :=
  match p with
  | p_ret r => Some (r, m)
  | p_get x k => exec (k (m x)) m
  | p_put x v k => exec k (mem_set m x v)
  | p_dev _ => None
  end.
Lemma exec_bind {A B} (p : prog A) (f : A -> prog B) : forall m,
  exec (pbind p f) m = match exec p m with Some (a, m') => exec (f a) m' | None => None end.
Proof.
  induction p as [r|x k IH|x v k IH|k IH]; intros m; cbn [pbind exec]; [reflexivity|apply IH|apply IH|reflexivity].
Qed.
Lemma set_thread_twice l : forall i t t', set_thread (set_thread l i t) i t' = set_thread l i t'.
Proof. induction l as [|x l IH]; intros [|i] t t'; cbn [set_thread]; try reflexivity. rewrite IH. reflexivity. Qed.
Lemma set_thread_id l : forall i t, nth_error l i = Some t -> set_thread l i t = l.
Proof. induction l as [|x l IH]; intros [|i] t E; cbn [set_thread nth_error] in *; try discriminate; [congruence|]. rewrite IH by exact E. reflexivity. Qed.
Lemma run_app dev c a b : mc_run dev c (a ++ b) = mc_run dev (mc_run dev c a) b.
Proof. unfold mc_run. apply fold_left_app. Qed.
Lemma exec_run dev (p : prog answer) : forall m nx ths i g r m', nth_error ths i = Some (Thread p g) -> exec p m = Some (r, m') ->
  exists n, mc_run dev (Machine m nx ths) (repeat i n) = Machine m' nx (set_thread ths i (Thread (p_ret r) g)).
Proof.
  induction p as [r0|x k IH|x v k IH|k IH]; intros m nx ths i g r m' E X; cbn [exec] in X.
  - injection X as -> ->. exists 0%nat. cbn [repeat mc_run fold_left]. rewrite set_thread_id by exact E. reflexivity.
  - destruct (IH (m x) m nx (set_thread ths i (Thread (k (m x)) g)) i g r m') as [n R]; [eapply set_thread_same, E|exact X|].
    exists (S n). cbn [repeat mc_run fold_left]. unfold mc_step at 2. cbn [mc_threads mc_mem mc_next]. rewrite E. cbn [th_prog th_got].
    rewrite set_thread_twice in R. exact R.
  - destruct (IH (mem_set m x v) nx (set_thread ths i (Thread k g)) i g r m') as [n R]; [eapply set_thread_same, E|exact X|].
    exists (S n). cbn [repeat mc_run fold_left]. unfold mc_step at 2. cbn [mc_threads mc_mem mc_next]. rewrite E. cbn [th_prog th_got].
    rewrite set_thread_twice in R. exact R.
  - discriminate.
Qed.

(* ---- stores ---- *)
(* p stores the words of S and no other *)
Definition writes {A} (p : prog A) (S : loc -> option Z) : Prop := forall m, exists a m', exec p m = Some (a, m') /\
  forall x, m' x = match S x with Some v => v | None => m x end.
Lemma loc_eqb_eq x y : loc_eqb x y = true <-> x = y.
Proof.
  destruct x, y; cbn [loc_eqb]; try (split; [discriminate|intros E; inversion E]);
  rewrite ?andb_true_iff, ?Nat.eqb_eq; (split; [intros H|intros E; inversion E; subst]); repeat split; intuition congruence.
Qed.
Lemma writes_put x v : writes (p_put x v (p_ret tt)) (fun y => if loc_eqb y x then Some v else None).
Proof.
  intros m. exists tt, (mem_set m x v). split; [reflexivity|]. intros y. unfold mem_set. destruct (loc_eqb y x); reflexivity.
Qed.
Lemma writes_pmap {A B} (f : A -> prog B) (Sa : A -> loc -> option Z) (W : loc -> option Z) l :
  (forall a, In a l -> writes (f a) (Sa a)) ->
  (forall a x v, In a l -> Sa a x = Some v -> W x = Some v) ->
  (forall x v, W x = Some v -> exists a, In a l /\ Sa a x = Some v) ->
  writes (pmap f l) W.
Proof.
  intros Hf H1 H2.
  assert (G : forall l', incl l' l -> forall m, exists bs m', exec (pmap f l') m = Some (bs, m') /\
    forall x, ((forall a, In a l' -> Sa a x = None) -> m' x = m x) /\ (forall a v, In a l' -> Sa a x = Some v -> m' x = v)).
  { induction l' as [|a l' IH]; intros I m; cbn [pmap].
    - exists [], m. split; [reflexivity|]. intros x. split; [reflexivity|]. intros a v [].
    - destruct (Hf a (I a (or_introl eq_refl)) m) as (b & m1 & E1 & X1).
      destruct (IH (fun y Hy => I y (or_intror Hy)) m1) as (bs & m2 & E2 & X2).
      exists (b :: bs), m2. split.
      + rewrite exec_bind, E1, exec_bind, E2. reflexivity.
      + intros x. destruct (X2 x) as [N2 S2]. split.
        * intros N. rewrite N2 by (intros a' Ha'; apply N; right; exact Ha'). rewrite X1, (N a (or_introl eq_refl)). reflexivity.
        * intros a' v [<-|Ha'] Ev; [|eapply S2; eassumption].
          (* an earlier store survives: the later ones store the same value *)
          assert (D : (forall a', In a' l' -> Sa a' x = None) \/ exists a' v', In a' l' /\ Sa a' x = Some v').
          { clear - l'. induction l' as [|y l' IH]; [left; intros a []|]. destruct (Sa y x) as [v'|] eqn:Ey.
            - right. exists y, v'. split; [left; reflexivity|exact Ey].
            - destruct IH as [N|(a' & v' & Ha & Ev)]; [left|right; exists a', v'; split; [right; exact Ha|exact Ev]].
              intros a' [<-|Ha']; [exact Ey|apply N, Ha']. }
          destruct D as [N|(a2 & v2 & Ha2 & Ev2)].
          -- rewrite N2 by exact N. rewrite X1, Ev. reflexivity.
          -- rewrite (S2 a2 v2 Ha2 Ev2).
             pose proof (H1 _ _ _ (I a (or_introl eq_refl)) Ev) as W1. pose proof (H1 _ _ _ (I a2 (or_intror Ha2)) Ev2) as W2. congruence. }
  intros m. destruct (G l (incl_refl l) m) as (bs & m' & E & X). exists bs, m'. split; [exact E|]. intros x. destruct (X x) as [N Sx].
  destruct (W x) as [v|] eqn:EW.
  - destruct (H2 x v EW) as (a & Ha & Ev). eapply Sx; eassumption.
  - apply N. intros a Ha. destruct (Sa a x) as [v|] eqn:Ev; [|reflexivity]. rewrite (H1 a x v Ha Ev) in EW. discriminate.
Qed.

(* the words of one row *)
Definition row_words (r n : nat) (row : list (list Z)) (x : loc) : option Z :=
  match x with
  | Ls r' j i => if (r' =? r)%nat && (j <? n)%nat && (i <? 512)%nat then Some (nth i (nth j row []) 0) else None
  | _ => None
  end.
Lemma put_row_writes r row : writes (put_row r row) (row_words r (length row) row).
Proof.
  unfold put_row.
  apply (writes_pmap _ (fun j x => match x with Ls r' j' i => if (r' =? r)%nat && (j' =? j)%nat && (i <? 512)%nat then Some (nth i (nth j row []) 0) else None | _ => None end)).
  - intros j _. apply (writes_pmap _ (fun i x => if loc_eqb x (Ls r j i) then Some (nth i (nth j row []) 0) else None)).
    + intros i _. apply writes_put.
    + intros i x v Hi E. destruct (loc_eqb x (Ls r j i)) eqn:EL; [|discriminate]. apply loc_eqb_eq in EL. subst x.
      apply in_seq in Hi. rewrite !Nat.eqb_refl. replace (i <? 512)%nat with true by (symmetry; apply Nat.ltb_lt; unfold PN in Hi; lia). exact E.
    + intros x v E. destruct x as [r' j' i| |]; try discriminate.
      destruct ((r' =? r)%nat && (j' =? j)%nat && (i <? 512)%nat) eqn:EB; [|discriminate].
      apply andb_prop in EB. destruct EB as [EB Ei]. apply andb_prop in EB. destruct EB as [Er Ej].
      apply Nat.eqb_eq in Er, Ej. apply Nat.ltb_lt in Ei. subst r' j'. exists i. split; [apply in_seq; unfold PN; lia|].
      assert (loc_eqb (Ls r j i) (Ls r j i) = true) as -> by (apply loc_eqb_eq; reflexivity). exact E.
  - intros j x v Hj E. destruct x as [r' j' i| |]; try discriminate. cbn [row_words].
    destruct ((r' =? r)%nat && (j' =? j)%nat && (i <? 512)%nat) eqn:EB; [|discriminate].
    apply andb_prop in EB. destruct EB as [EB Ei]. apply andb_prop in EB. destruct EB as [Er Ej]. apply Nat.eqb_eq in Ej. subst j'.
    apply in_seq in Hj. rewrite Er, Ei. replace (j <? length row)%nat with true by (symmetry; apply Nat.ltb_lt; lia). exact E.
  - intros x v E. destruct x as [r' j' i| |]; try discriminate. cbn [row_words] in E.
    destruct ((r' =? r)%nat && (j' <? length row)%nat && (i <? 512)%nat) eqn:EB; [|discriminate].
    apply andb_prop in EB. destruct EB as [EB Ei]. apply andb_prop in EB. destruct EB as [Er Ej]. apply Nat.ltb_lt in Ej.
    exists j'. split; [apply in_seq; lia|]. rewrite Er, Ei, Nat.eqb_refl. exact E.
Qed.

(* reads without stores *)
Definition fetches {A} (p : prog A) (m : mem) (v : A) : Prop := exec p m = Some (v, m).
Lemma fetches_pmap {A B} (f : A -> prog B) (g : A -> B) m l : (forall a, In a l -> fetches (f a) m (g a)) -> fetches (pmap f l) m (map g l).
Proof.
  unfold fetches. induction l as [|a l IH]; intros H; cbn [pmap map]; [reflexivity|].
  rewrite exec_bind, (H a (or_introl eq_refl)), exec_bind, IH by (intros b I; apply H; right; exact I). reflexivity.
Qed.
Lemma copy_row_exec d r m row : masked49 d row -> (forall j i, (j < d)%nat -> (i < 512)%nat -> m (Ls r j i) = nth i (nth j row []) 0) ->
  exec (copy_row d r) m = Some (row, m).
Proof.
  intros [L F] H. unfold copy_row. change (fetches (pmap (fun j => pmap (fun i => get1 (Ls r j i)) (seq 0 PN)) (seq 0 d)) m row).
  refine (eq_ind _ (fun v => fetches _ _ v) _ _ (map_nth_n [] row d L)). apply fetches_pmap. intros j Hj. apply in_seq in Hj.
  assert (In (nth j row []) row) as I by (apply nth_In; rewrite L; lia). rewrite Forall_forall in F. destruct (F _ I) as [Lj _].
  refine (eq_ind _ (fun v => fetches _ _ v) _ _ (map_nth_n 0 _ _ Lj)). apply fetches_pmap. intros i Hi. apply in_seq in Hi.
  unfold fetches. cbn [get1 exec]. rewrite H by lia. reflexivity.
Qed.

(* refreshing the rows a, a + 1, ... *)
Definition rows_words (a n d : nat) (v : list (list (list Z))) (x : loc) : option Z :=
  match x with
  | Ls r j i => if (a <=? r)%nat && (r <? a + n)%nat && (j <? d)%nat && (i <? 512)%nat then Some (nth i (nth j (nth (r - a) v []) []) 0) else None
  | _ => None
  end.
Lemma refresh_rows_exec O fuel e : let d := (2 ^ e)%nat in
  forall v a mr acc out mr' m, Forall (masked49 d) v ->
  foldM (fun '(acc, m) row => '(z, m) <- mp_refresh O fuel d row m ;; Ok (acc ++ [z], m)) v (acc, mr) = Ok (out, mr') ->
  (forall r j i, (r < length v)%nat -> (j < d)%nat -> (i < 512)%nat -> m (Ls (a + r) j i) = nth i (nth j (nth r v []) []) 0) ->
  exists news m', out = acc ++ news /\ length news = length v /\
    exec (refresh_rows O fuel d (seq a (length v)) mr) m = Some (Ok tt, m') /\
    forall x, m' x = match rows_words a (length v) d news x with Some w => w | None => m x end.
Proof.
  intros d. induction v as [|row v IH]; intros a mr acc out mr' m F E Hm; cbn [foldM] in E.
  - injection E as <- <-. exists [], m. split; [rewrite app_nil_r; reflexivity|]. split; [reflexivity|]. split; [reflexivity|].
    intros x. destruct x as [r j i| |]; cbn [rows_words length]; try reflexivity.
    destruct ((a <=? r)%nat && (r <? a + 0)%nat) eqn:EB; cbn [andb]; [|reflexivity].
    apply andb_prop in EB. destruct EB as [B1 B2]. apply Nat.leb_le in B1. apply Nat.ltb_lt in B2. exfalso. lia.
  - inversion F as [|? ? Frow Fv]; subst. rewrite mp_refresh_eq in E.
    destruct (mp_zero_encoding O fuel d mr) as [[z mr1]| |] eqn:EZ; try discriminate. cbn [bind] in E.
    destruct (proj2 (zero_encoding_zero O fuel e mr) z mr1 EZ) as [[Lz Fz] _].
    assert (Lsum : length (mp_add row z) = d) by (unfold mp_add; rewrite map2_length; destruct Frow as [Lr _]; unfold mpoly, poly in *; rewrite Lr, Lz; apply Nat.min_id).
    (* this row *)
    assert (E1 : exec (copy_row d a) m = Some (row, m)).
    { apply copy_row_exec; [exact Frow|]. intros j i Hj Hi. pose proof (Hm 0%nat j i ltac:(cbn [length]; lia) Hj Hi) as X. rewrite Nat.add_0_r in X. exact X. }
    destruct (put_row_writes a (mp_add row z) m) as (us & m1 & E2 & X1). rewrite Lsum in X1.
    destruct (IH (S a) mr1 (acc ++ [mp_add row z]) out mr' m1 Fv E) as (news & m2 & Eo & Ln & E3 & X2).
    { intros r j i Hr Hj Hi. rewrite X1. cbn [row_words].
      replace (S a + r =? a)%nat with false by (symmetry; apply Nat.eqb_neq; lia). cbn [andb].
      pose proof (Hm (S r) j i ltac:(cbn [length]; lia) Hj Hi) as X. replace (a + S r)%nat with (S a + r)%nat in X by lia. exact X. }
    exists (mp_add row z :: news), m2. split; [rewrite Eo, <- app_assoc; reflexivity|]. split; [cbn [length]; congruence|]. split.
    + cbn [length seq refresh_rows]. rewrite EZ. rewrite exec_bind. unfold add_to_row. rewrite exec_bind, E1, E2. exact E3.
    + intros x. rewrite X2, X1. destruct x as [r j i| |]; cbn [rows_words row_words]; try reflexivity. cbn [length].
      destruct (Nat.lt_trichotomy r a) as [Hr|[->|Hr]].
      * replace (S a <=? r)%nat with false by (symmetry; apply Nat.leb_gt; lia).
        replace (a <=? r)%nat with false by (symmetry; apply Nat.leb_gt; lia).
        replace (r =? a)%nat with false by (symmetry; apply Nat.eqb_neq; lia). reflexivity.
      * replace (S a <=? a)%nat with false by (symmetry; apply Nat.leb_gt; lia). cbn [andb].
        rewrite Nat.eqb_refl, Nat.leb_refl, Nat.sub_diag. replace (a <? a + S (length v))%nat with true by (symmetry; apply Nat.ltb_lt; lia). cbn [andb nth]. reflexivity.
      * replace (S a <=? r)%nat with true by (symmetry; apply Nat.leb_le; lia).
        replace (a <=? r)%nat with true by (symmetry; apply Nat.leb_le; lia).
        replace (r =? a)%nat with false by (symmetry; apply Nat.eqb_neq; lia).
        replace (r <? a + S (length v))%nat with (r <? S a + length v)%nat by (f_equal; lia). cbn [andb].
        destruct (r - a)%nat as [|q] eqn:Eq; [exfalso; lia|]. replace (r - S a)%nat with q by lia. cbn [nth]. reflexivity.
Qed.

(* refresh, run without interruption, turns the memory of a key into the memory of the refreshed key *)
Lemma refresh_exec O fuel P sk e sk' : p_d P = (2 ^ e)%nat -> masked_vec49 (p_l P) (p_d P) (sk_s sk) -> sk_refresh O fuel P sk = Ok sk' ->
  exists m', exec (prog_refresh O fuel P) (key_mem sk) = Some (a_done (Ok tt), m') /\ forall x, m' x = key_mem sk' x.
Proof.
  intros Hd [L F] E. destruct (proj2 (refresh_preserves O fuel P sk e Hd (conj L F)) sk' E) as (Epk & _ & [L' F'] & _).
  unfold sk_refresh in E. destruct (pv_refresh O fuel (p_d P) (sk_s sk) (mrng_new O (p_d P))) as [[s' mr']| |] eqn:ER; try discriminate.
  cbn [bind] in E. injection E as <-. cbn [sk_s sk_pkey] in *. unfold pv_refresh in ER. rewrite Hd in ER, F, F'.
  destruct (refresh_rows_exec O fuel e (sk_s sk) 0 _ [] _ _ (key_mem sk) F ER ltac:(intros; reflexivity)) as (news & m' & En & Ln & EX & X).
  cbn [app] in En. subst s'. exists m'. split.
  - unfold prog_refresh. rewrite exec_bind, Hd. rewrite L in EX. rewrite EX. reflexivity.
  - intros x. rewrite X. destruct x as [r j i|r i|i]; cbn [rows_words key_mem sk_s sk_pkey]; try reflexivity.
    rewrite Nat.sub_0_r. match goal with |- context [if ?b then Some _ else None] => destruct b eqn:EB0; [reflexivity|] end.
    assert (EB : (0 <=? r)%nat && (r <? 0 + length (sk_s sk))%nat && (j <? 2 ^ e)%nat && (i <? 512)%nat = false) by exact EB0.
    (* outside of the vector both memories are zero *)
    assert (Z0 : forall v : list (list (list Z)), length v = length (sk_s sk) -> Forall (masked49 (2 ^ e)) v -> nth i (nth j (nth r v []) []) 0 = 0).
    { intros v Lv Fv. destruct (Nat.lt_ge_cases r (length (sk_s sk))) as [Hr|Hr].
      2:{ rewrite (nth_overflow v) by (rewrite Lv; exact Hr). destruct j; destruct i; reflexivity. }
      assert (In (nth r v []) v) as I1 by (apply nth_In; rewrite Lv; exact Hr). rewrite Forall_forall in Fv. destruct (Fv _ I1) as [Lr Fr].
      destruct (Nat.lt_ge_cases j (2 ^ e)) as [Hj|Hj].
      2:{ rewrite (nth_overflow (nth r v [])) by (rewrite Lr; exact Hj). destruct i; reflexivity. }
      assert (In (nth j (nth r v []) []) (nth r v [])) as I2 by (apply nth_In; rewrite Lr; exact Hj). rewrite Forall_forall in Fr. destruct (Fr _ I2) as [Lj _].
      destruct (Nat.lt_ge_cases i 512) as [Hi|Hi]; [|apply nth_overflow; rewrite Lj; exact Hi].
      exfalso. cbn [Nat.leb andb] in EB. replace (r <? 0 + length (sk_s sk))%nat with true in EB by (symmetry; apply Nat.ltb_lt; exact Hr).
      replace (j <? 2 ^ e)%nat with true in EB by (symmetry; apply Nat.ltb_lt; exact Hj).
      replace (i <? 512)%nat with true in EB by (symmetry; apply Nat.ltb_lt; exact Hi). discriminate. }
    etransitivity; [apply (Z0 (sk_s sk)); [reflexivity|exact F]|]. symmetry. apply Z0; [exact Ln|exact F'].
Qed.

(* ---- a reader that is interrupted ---- *)
(* thread i runs n times; it sees the memory of the machine *)
Lemma run_seen dev M n : forall c i th t N, nth_error (mc_threads c) i = Some th -> reads_only N (th_prog th) ->
  (forall s x, (t <= s)%nat -> (s < t + n)%nat -> M s x = mc_mem c x) ->
  exists th' got nx, mc_run dev c (repeat i n) = Machine (mc_mem c) nx (set_thread (mc_threads c) i th') /\
    reads_only (N - n) (th_prog th') /\ th_got th' = th_got th ++ got /\
    ((exists r, th_prog th' = p_ret r /\ forall ws, exists t', seen (th_prog th) M t (map dev got ++ ws) = Some (r, t', ws)) \/
     forall ws, seen (th_prog th') M (t + n) ws = seen (th_prog th) M t (map dev got ++ ws)).
Proof.
  induction n as [|n IH]; intros c i th t N E RO HM.
  - exists th, [], (mc_next c). cbn [repeat mc_run fold_left]. rewrite set_thread_id by exact E. split; [destruct c; reflexivity|].
    rewrite Nat.sub_0_r, app_nil_r. split; [exact RO|]. split; [reflexivity|]. right. intros ws. rewrite Nat.add_0_r. reflexivity.
  - cbn [repeat mc_run fold_left]. change (fold_left (mc_step dev) (repeat i n)) with (fun c => mc_run dev c (repeat i n)). cbv beta.
    unfold mc_step. rewrite E.
    destruct (th_prog th) as [r|x k|x v k|k] eqn:EP.
    + assert (F : forall n, mc_run dev c (repeat i n) = c).
      { clear - E EP. induction n as [|n IH]; [reflexivity|]. cbn [repeat mc_run fold_left]. unfold mc_step at 2. rewrite E, EP. exact IH. }
      rewrite F. exists th, [], (mc_next c). rewrite set_thread_id by exact E. split; [destruct c; reflexivity|].
      rewrite EP, app_nil_r. split; [constructor|]. split; [reflexivity|]. left. exists r. split; [reflexivity|]. intros ws. exists t. reflexivity.
    + inversion RO as [|N' x' k' RK EN EX|]; subst x' k'.
      destruct (IH (Machine (mc_mem c) (mc_next c) (set_thread (mc_threads c) i (Thread (k (mc_mem c x)) (th_got th)))) i (Thread (k (mc_mem c x)) (th_got th)) (S t) N')
        as (th' & got & nx & R & RO' & G & D); [cbn [mc_threads]; eapply set_thread_same, E|apply RK|intros s y H1 H2; apply HM; lia|].
      cbn [mc_threads mc_mem th_got th_prog] in *. rewrite set_thread_twice in R. exists th', got, nx. split; [exact R|].
      split; [exact RO'|]. split; [exact G|].
      assert (Hx : M t x = mc_mem c x) by (apply HM; lia).
      destruct D as [(r & Er & D)|D].
      * left. exists r. split; [exact Er|]. intros ws. cbn [seen]. rewrite Hx. apply D.
      * right. intros ws. cbn [seen]. rewrite Hx. replace (t + S n)%nat with (S t + n)%nat by lia. apply D.
    + inversion RO.
    + inversion RO as [| |N' k' RK EN EX]; subst k'.
      destruct (IH (Machine (mc_mem c) (S (mc_next c)) (set_thread (mc_threads c) i (Thread (k (dev (mc_next c))) (th_got th ++ [mc_next c])))) i
                  (Thread (k (dev (mc_next c))) (th_got th ++ [mc_next c])) (S t) N')
        as (th' & got & nx & R & RO' & G & D); [cbn [mc_threads]; eapply set_thread_same, E|apply RK|intros s y H1 H2; apply HM; lia|].
      cbn [mc_threads mc_mem th_got th_prog] in *. rewrite set_thread_twice in R. exists th', (mc_next c :: got), nx. split; [exact R|].
      split; [exact RO'|]. split; [rewrite G, <- app_assoc; reflexivity|].
      destruct D as [(r & Er & D)|D].
      * left. exists r. split; [exact Er|]. intros ws. cbn [map app seen]. apply D.
      * right. intros ws. cbn [map app seen]. replace (t + S n)%nat with (S t + n)%nat by lia. apply D.
Qed.

(* ---- the copy of s that a signing call makes while refresh runs ---- *)
(* share 0 of row 0 of the old vector, everything else of the new one *)
Definition torn (old new : list (list (list Z))) : list (list (list Z)) := (nth 0 (nth 0 old []) [] :: tl (nth 0 new [])) :: tl new.

Lemma seen_first {A} (f : A -> loc) m l : forall M t ws, (forall s x, (t <= s)%nat -> (s < t + length l)%nat -> M s x = m x) ->
  seen (pmap (fun i => get1 (f i)) l) M t ws = Some (map (fun i => m (f i)) l, (t + length l)%nat, ws).
Proof.
  induction l as [|a l IH]; intros M t ws HM; cbn [pmap map length].
  - rewrite Nat.add_0_r. reflexivity.
  - rewrite seen_bind. cbn [get1 seen]. rewrite seen_bind, IH.
    + cbn [seen]. rewrite HM by (cbn [length]; lia). replace (S t + length l)%nat with (t + S (length l))%nat by lia. reflexivity.
    + intros s x H1 H2. apply HM; cbn [length]; lia.
Qed.
Lemma tl_map_nth {A} (d : A) l n : length l = S n -> map (fun i => nth i l d) (seq 1 n) = tl l.
Proof. intros L. pose proof (map_nth_n d l (S n) L) as E. cbn [seq map] in E. apply (f_equal (@tl A)) in E. exact E. Qed.
Lemma reads_share P sk r j : length (pk_seed (sk_pkey sk)) = Z.to_nat (p_kappa P / 8) -> masked_vec49 (p_l P) (p_d P) (sk_s sk) ->
  (r < p_l P)%nat -> (j < p_d P)%nat -> reads (pmap (fun i => get1 (Ls r j i)) (seq 0 PN)) (key_mem sk) (nth j (nth r (sk_s sk) []) []).
Proof.
  intros _ [L F] Hr Hj.
  assert (In (nth r (sk_s sk) []) (sk_s sk)) as I2 by (apply nth_In; refine (eq_ind_r (fun n => (r < n)%nat) _ L); exact Hr).
  rewrite Forall_forall in F. destruct (F _ I2) as [Lr Fr].
  assert (In (nth j (nth r (sk_s sk) []) []) (nth r (sk_s sk) [])) as I3 by (apply nth_In; refine (eq_ind_r (fun n => (j < n)%nat) _ Lr); exact Hj).
  rewrite Forall_forall in Fr. destruct (Fr _ I3) as [Lj _].
  refine (eq_ind _ (fun v => reads _ _ v) _ _ (map_nth_n 0 _ _ Lj)). apply reads_pmap. intros i _.
  apply (reads_get1 (Ls r j i) (key_mem sk)).
Qed.
Lemma torn_copy P sk sk' M ws : length (pk_seed (sk_pkey sk')) = Z.to_nat (p_kappa P / 8) ->
  masked_vec49 (p_l P) (p_d P) (sk_s sk) -> masked_vec49 (p_l P) (p_d P) (sk_s sk') ->
  (0 < p_l P)%nat -> (0 < p_d P)%nat ->
  (forall s x, (s < 512)%nat -> M s x = key_mem sk x) -> (forall s x, (512 <= s)%nat -> M s x = key_mem sk' x) ->
  exists t', (512 <= t')%nat /\ seen (copy_s P) M 0 ws = Some (torn (sk_s sk) (sk_s sk'), t', ws).
Proof.
  intros Vseed Vs Vs' Hl Hd HM1 HM2.
  assert (R0 : reads (pmap (fun j => pmap (fun i => get1 (Ls 0 j i)) (seq 0 PN)) (seq 1 (p_d P - 1))) (key_mem sk') (tl (nth 0 (sk_s sk') []))).
  { pose proof Vs' as [L F]. assert (In (nth 0 (sk_s sk') []) (sk_s sk')) as I2 by (apply nth_In; refine (eq_ind_r (fun n => (0 < n)%nat) _ L); exact Hl).
    rewrite Forall_forall in F. destruct (F _ I2) as [Lr _].
    assert (Ld : length (nth 0 (sk_s sk') []) = S (p_d P - 1)) by (etransitivity; [exact Lr|lia]).
    refine (eq_ind _ (fun v => reads _ _ v) _ _ (tl_map_nth [] _ _ Ld)). apply reads_pmap. intros j Hj. apply in_seq in Hj.
    apply (reads_share P sk' 0 j Vseed Vs' Hl). clear - Hj Hd. lia. }
  assert (R1 : reads (pmap (copy_row (p_d P)) (seq 1 (p_l P - 1))) (key_mem sk') (tl (sk_s sk'))).
  { assert (Ll : length (sk_s sk') = S (p_l P - 1)) by (etransitivity; [exact (proj1 Vs')|lia]).
    refine (eq_ind _ (fun v => reads _ _ v) _ _ (tl_map_nth [] _ _ Ll)). apply reads_pmap. intros r Hr. apply in_seq in Hr.
    apply (reads_row P sk' Vseed Vs'). clear - Hr Hl. lia. }
  assert (S0 : seen (pmap (fun i => get1 (Ls 0 0 i)) (seq 0 PN)) M 0 ws = Some (nth 0 (nth 0 (sk_s sk) []) [], 512%nat, ws)).
  { rewrite (seen_first (Ls 0 0) (key_mem sk)) by (intros s x _ Hs; apply HM1; rewrite seq_length in Hs; exact Hs).
    rewrite seq_length. cbn [Nat.add]. refine (f_equal (fun v => Some (v, PN, ws)) _).
    destruct Vs as [L F]. assert (In (nth 0 (sk_s sk) []) (sk_s sk)) as I2 by (apply nth_In; refine (eq_ind_r (fun n => (0 < n)%nat) _ L); exact Hl).
    rewrite Forall_forall in F. destruct (F _ I2) as [Lr Fr].
    assert (In (nth 0 (nth 0 (sk_s sk) []) []) (nth 0 (sk_s sk) [])) as I3 by (apply nth_In; refine (eq_ind_r (fun n => (0 < n)%nat) _ Lr); exact Hd).
    rewrite Forall_forall in Fr. destruct (Fr _ I3) as [Lj _]. exact (map_nth_n 0 _ PN Lj). }
  unfold copy_s. replace (seq 0 (p_l P)) with (0%nat :: seq 1 (p_l P - 1)) by (destruct (p_l P) as [|n]; [exfalso; clear - Hl; lia|]; cbn [seq]; rewrite Nat.sub_succ, Nat.sub_0_r; reflexivity).
  assert (CR : exists t1, (512 <= t1)%nat /\ seen (copy_row (p_d P) 0) M 0 ws = Some (nth 0 (nth 0 (sk_s sk) []) [] :: tl (nth 0 (sk_s sk') []), t1, ws)).
  { unfold copy_row. replace (seq 0 (p_d P)) with (0%nat :: seq 1 (p_d P - 1)) by (destruct (p_d P) as [|n]; [exfalso; clear - Hd; lia|]; cbn [seq]; rewrite Nat.sub_succ, Nat.sub_0_r; reflexivity).
    cbn [pmap]. rewrite seen_bind, S0, seen_bind. destruct (R0 M 512%nat ws HM2) as (t1 & L1 & E1). rewrite E1. exists t1. split; [exact L1|reflexivity]. }
  destruct CR as (t1 & L1 & E1). cbn [pmap]. rewrite seen_bind, E1, seen_bind.
  destruct (R1 M t1 ws) as (t2 & L2 & E2); [intros s x Hs; apply HM2; exact (Nat.le_trans _ _ _ L1 Hs)|]. rewrite E2.
  exists t2. split; [exact (Nat.le_trans _ _ _ L1 L2)|reflexivity].
Qed.
(* the polynomial that the copied shares of row 0 represent *)
Lemma torn_unmask P e sk sk' : p_d P = (2 ^ e)%nat -> masked_vec49 (p_l P) (p_d P) (sk_s sk) -> (0 < p_l P)%nat ->
  masked_vec49 (p_l P) (p_d P) (sk_s sk') -> map unmask (sk_s sk') = map unmask (sk_s sk) ->
  forall i, (i < 512)%nat -> coef (unmask (nth 0 (torn (sk_s sk) (sk_s sk')) [])) i =
    (coef (unmask (nth 0 (sk_s sk) [])) i + coef (nth 0 (nth 0 (sk_s sk) []) []) i - coef (nth 0 (nth 0 (sk_s sk') []) []) i) mod Spec.q.
Proof.
  intros Hd Vs Hl [L' F'] EU i Hi.
  assert (E0 : unmask (nth 0 (sk_s sk') []) = unmask (nth 0 (sk_s sk) [])).
  { transitivity (nth 0 (map unmask (sk_s sk')) (unmask [])); [symmetry; apply map_nth|]. rewrite EU. apply map_nth. }
  rewrite <- E0. cbn [torn nth].
  assert (In (nth 0 (sk_s sk') []) (sk_s sk')) as I2 by (apply nth_In; refine (eq_ind_r (fun n => (0 < n)%nat) _ L'); exact Hl).
  rewrite Forall_forall in F'. destruct (F' _ I2) as [Lr _].
  destruct (nth 0 (sk_s sk') []) as [|s0' rest] eqn:ES.
  { exfalso. cbn [length] in Lr. rewrite Hd in Lr. pose proof (Nat.pow_nonzero 2 e ltac:(lia)). lia. }
  cbn [tl nth]. rewrite !coef_unmask by exact Hi. rewrite !usum_cons.
  set (a := coef (nth 0 (nth 0 (sk_s sk) []) []) i). set (b := coef s0' i). set (c := usum i rest).
  refine (eq_trans (f_equal (fun y => (a + usum i y) mod Spec.q) (f_equal (@tl (list Z)) ES)) _). cbn [tl]. fold c.
  replace ((b + c) mod Spec.q + a - b) with ((b + c) mod Spec.q + (a - b)) by ring. rewrite Zplus_mod_idemp_l. f_equal. ring.
Qed.

Lemma torn_shape P sk sk' : masked_vec49 (p_l P) (p_d P) (sk_s sk) -> masked_vec49 (p_l P) (p_d P) (sk_s sk') ->
  (0 < p_l P)%nat -> (0 < p_d P)%nat -> masked_vec49 (p_l P) (p_d P) (torn (sk_s sk) (sk_s sk')).
Proof.
  intros [L F] [L' F'] Hl Hd.
  assert (In (nth 0 (sk_s sk) []) (sk_s sk)) as I2 by (apply nth_In; refine (eq_ind_r (fun n => (0 < n)%nat) _ L); exact Hl).
  rewrite Forall_forall in F. destruct (F _ I2) as [Lr Fr].
  assert (In (nth 0 (nth 0 (sk_s sk) []) []) (nth 0 (sk_s sk) [])) as I3 by (apply nth_In; refine (eq_ind_r (fun n => (0 < n)%nat) _ Lr); exact Hd).
  rewrite Forall_forall in Fr. pose proof (Fr _ I3) as P0.
  unfold torn. destruct (sk_s sk') as [|row' rows'] eqn:E'; [exfalso; rewrite <- L' in Hl; cbn [length] in Hl; lia|].
  inversion F' as [|? ? [Lr' Fr'] Fs']; subst. cbn [nth tl]. split; [cbn [length] in *; exact L'|].
  constructor; [|exact Fs']. destruct row' as [|s' row']; [exfalso; rewrite <- Lr' in Hd; cbn [length] in Hd; lia|].
  inversion Fr' as [|? ? _ Frest]; subst. cbn [tl]. split; [exact Lr'|]. constructor; [exact P0|exact Frest].
Qed.
