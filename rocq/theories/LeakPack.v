(* Packing and unpacking of a whole secret key in the leakage model. *)
From Coq Require Import ZArith Lia Bool List Arith.
From Coq Require Import ZifyBool ZifyNat.
From Verif Require Import ModelBase ModelU128 ModelField ModelUtils ModelPoly ModelVec ModelSerial ModelScheme ModelLeak ModelLeakSign.
From Verif Require Import Spec Words FieldProofs BytesProofs LeakProofs LeakRel LeakValues.
Import ListNotations.
Open Scope Z_scope.
Ltac Zify.zify_post_hook ::= idtac.
Opaque powers_of_zeta neg_powers_of_zeta INV_N zq_add zq_sub zq_mul Q R Q_BIT_WIDTH ntt intt.

Section Traces.
  Variable O : oracles.
  Notation M := (zm O).
  Lemma copy_n v v' off out out' : length v = length v' -> rel any (copy_l M v off out) (copy_l M v' off out').
  Proof. intros L. unfold copy_l. rewrite L. ni. Qed.
  Definition same_seed (x y : list (list Z) * list Z * prng) : Prop := snd x = snd y.
  Lemma mc_share_n fuel kappa rows s s' sidx x y : same_seed x y ->
    rel same_seed (mc_share_l M fuel kappa rows s sidx x) (mc_share_l M fuel kappa rows s' sidx y).
  Proof.
    destruct x as [[x out] p], y as [[y out'] p']. unfold same_seed. cbn [snd]. intros <-. unfold mc_share_l.
    eapply (rel_bind eq); [apply rel_same|]. intros [z p1] ? <-. eapply (rel_bind any); [apply copy_n; reflexivity|]. intros o o' _.
    eapply (rel_bind any).
    - apply rel_for; [|exact Logic.I]. intros ridx a b _. eapply (rel_bind eq); [apply rel_same|]. intros q q' _. eapply (rel_bind any); [apply poly_sub_n|]. intros. prim.
    - intros x1 y1 _. eapply (rel_bind any).
      + apply rel_for; [|exact Logic.I]. intros ridx a b _. eapply (rel_bind any); [apply poly_add_n|]. intros. prim.
      + intros x2 y2 _. apply rel_ret. reflexivity.
  Qed.
  Lemma mask_compress_n fuel kappa rows d s s' out out' p :
    rel any (mask_compress_l M fuel kappa rows d s out p) (mask_compress_l M fuel kappa rows d s' out' p).
  Proof.
    unfold mask_compress_l. cbv zeta. eapply (rel_bind same_seed).
    - apply rel_for; [|reflexivity]. intros i x y H. apply mc_share_n. exact H.
    - intros [[x o] p1] [[x' o'] p2] E. unfold same_seed in E. cbn [snd] in E. subst p2.
      eapply (rel_bind (fun a b => snd a = snd b)).
      + apply rel_for; [|reflexivity]. intros i [a1 a2] [b1 b2] E. cbn [snd] in E. subst b2. apply mc_row_n.
      + intros [a1 a2] [b1 b2] _. prim.
  Qed.
  Definition same_pos2 (x y : list Z * Z * Z * Z) : Prop :=
    let '(_, off, _, b) := x in let '(_, off', _, b') := y in off = off' /\ b = b'.
  Lemma md_get_n s_c s_c' i x y : length s_c = length s_c' -> same_pos2 x y -> rel same_pos2 (md_get_l M s_c i x) (md_get_l M s_c' i y).
  Proof.
    intros L. destruct x as [[[a off] bu] bb], y as [[[a' off'] bu'] bb']. intros [<- <-]. unfold md_get_l. cbv zeta.
    eapply (rel_bind any); [apply from_le_n; rewrite !firstn_length, !skipn_length, L; reflexivity|]. intros ? ? _.
    repeat (eapply (rel_bind any); [prim|intros ? ? _; cbv beta]). apply rel_ret. split; reflexivity.
  Qed.
  Lemma mask_decompress_n fuel kappa l d s_c s_c' : length s_c = length s_c' ->
    firstn ((d - 1) * kbytes kappa) s_c = firstn ((d - 1) * kbytes kappa) s_c' ->
    rel any (mask_decompress_l M fuel kappa l d s_c) (mask_decompress_l M fuel kappa l d s_c').
  Proof.
    intros L E. unfold mask_decompress_l. eapply (rel_bind (fun a b => snd a = snd b)).
    - apply rel_for; [|reflexivity]. intros i [s off] [s' off'] H. cbn [snd] in H. subst off'.
      eapply (rel_bind same_pos2).
      + apply rel_for; [|split; reflexivity]. intros j x y H. apply md_get_n; assumption.
      + intros [[[a o] bu] bb] [[[a' o'] bu'] bb'] [H1 H2]. apply rel_ret. exact H1.
    - intros [s o] [s' o'] _.
      assert (X : forall l0, (forall i, In i l0 -> (1 <= i <= d - 1)%nat) -> forall s s' : list (list (list Z)), rel any
        (for_ l0 (fun sidx s => for_ (seq 0 l) (fun ridx s => _ <<- sampleQ_l M fuel (map (m_lit M) (hdr_K sidx ridx)) (firstn (kbytes kappa) (skipn ((sidx - 1) * kbytes kappa) s_c)) ;; lret s) s) s)
        (for_ l0 (fun sidx s => for_ (seq 0 l) (fun ridx s => _ <<- sampleQ_l M fuel (map (m_lit M) (hdr_K sidx ridx)) (firstn (kbytes kappa) (skipn ((sidx - 1) * kbytes kappa) s_c')) ;; lret s) s) s')).
      { induction l0 as [|i l0 IH]; intros Hin a b; [apply rel_ret; exact Logic.I|]. cbn [for_]. eapply (rel_bind any).
        - assert (Es : firstn (kbytes kappa) (skipn ((i - 1) * kbytes kappa) s_c) = firstn (kbytes kappa) (skipn ((i - 1) * kbytes kappa) s_c')).
          { assert (Hi : (1 <= i <= d - 1)%nat) by (apply Hin; left; reflexivity). set (n := kbytes kappa) in *.
            assert (Hn : ((i - 1) * n + n <= (d - 1) * n)%nat). { replace ((i - 1) * n + n)%nat with (i * n)%nat by (rewrite Nat.mul_sub_distr_r, Nat.mul_1_l; pose proof (Nat.mul_le_mono_r 1 i n ltac:(lia)); lia). apply Nat.mul_le_mono_r. lia. }
            clear - E Hn. assert (G : forall m (v : list Z), ((i - 1) * n + n <= m)%nat -> firstn n (skipn ((i - 1) * n) v) = firstn n (skipn ((i - 1) * n) (firstn m v))).
            { intros m v Hm. rewrite skipn_firstn_comm, firstn_firstn. f_equal. lia. }
            rewrite (G ((d - 1) * n)%nat s_c Hn), (G ((d - 1) * n)%nat s_c' Hn), E. reflexivity. }
          rewrite Es. apply rel_for; [|exact Logic.I]. intros ridx c1 c2 _. eapply (rel_bind eq); [apply rel_same|]. intros. prim.
        - intros c1 c2 _. apply IH. intros j Hj. apply Hin. right. exact Hj. }
      apply X. intros i Hi. apply in_seq in Hi. lia.
  Qed.
End Traces.

(* ---- values ---- *)
Section Vals.
  Variable O : oracles.
  Notation M := (zm O).
  Lemma lt_branch a b : negb (b2z (a <? b) =? 0) = (a <? b).
  Proof. destruct (a <? b); reflexivity. Qed.
  Lemma sampleQ_loop_v inp : forall fuel pos buf off acc, Forall isbyte buf ->
    fst (sampleQ_loop_l M fuel inp pos buf off acc) = sampleQ_loop O fuel (Xof inp pos) buf off acc.
  Proof.
    induction fuel as [|fuel IH]; intros pos buf off acc Fb; cbn [sampleQ_loop_l sampleQ_loop]; destruct (PN <=? length acc)%nat; try reflexivity.
    rewrite fst_bind.
    set (c := (length buf <? off + NEEDED_BYTES)%nat).
    assert (K : forall buf1 off1 pos1, Forall isbyte buf1 ->
      fst (w <<- from_le_bytes_l M 8 (firstn NEEDED_BYTES (skipn off1 buf1)) ;; coeff <<- m_op M And w (m_lit M MASK49) ;; lt <<- m_op M Less coeff (m_lit M Q) ;; ok <<- m_branch M lt ;;
        if (ok : bool) then sampleQ_loop_l M fuel inp pos1 buf1 (off1 + NEEDED_BYTES) (acc ++ [coeff]) else sampleQ_loop_l M fuel inp pos1 buf1 (off1 + NEEDED_BYTES) acc) =
      (let coeff := Z.land (from_le_bytes 8 (firstn NEEDED_BYTES (skipn off1 buf1))) MASK49 in
       let off := (off1 + NEEDED_BYTES)%nat in
       if Q <=? coeff then sampleQ_loop O fuel (Xof inp pos1) buf1 off acc else sampleQ_loop O fuel (Xof inp pos1) buf1 off (acc ++ [coeff]))).
    { intros buf1 off1 pos1 F1. rewrite (is_bind _ _ _ (from_le_v O _ (firstn_F _ _ _ (skipn_F _ _ _ F1)))). cbv zeta. set (w := from_le_bytes 8 _). rewrite fst_bind. cbn [zm m_op m_lit fst bind]. set (co := Z.land w MASK49).
      rewrite fst_bind. cbn [zm m_op m_lit fst bind]. rewrite fst_bind. cbn [zm m_branch fst bind]. rewrite lt_branch. rewrite Z.leb_antisym. destruct (co <? Q); cbn [negb]; apply IH; exact F1. }
    destruct c.
    - cbv zeta. rewrite fst_bind. cbn [zm m_squeeze fst bind lret]. unfold xof_squeeze. cbn [xof_in xof_out]. apply K.
      apply Forall_app. split; [apply firstn_F, skipn_F, Fb|]. apply Forall_map, Forall_forall. intros i _. apply byteZ_b.
    - cbn [lret fst bind]. apply K. exact Fb.
  Qed.
  Lemma sampleQ_v fuel hdr sigma : fst (sampleQ_l M fuel hdr sigma) = sampleQ O fuel hdr sigma.
  Proof.
    unfold sampleQ_l, sampleQ. rewrite fst_bind. cbn [zm m_squeeze fst bind]. unfold xof_squeeze, xof_absorb, xof_new. cbn [xof_in xof_out app Nat.add]. apply sampleQ_loop_v.
    apply Forall_map, Forall_forall. intros i _. apply byteZ_b.
  Qed.
  Lemma copy_v v off out : 0 <= off -> off + zlen v <= zlen out ->
    fst (copy_l M v (Z.to_nat off) out) = write_at out off v /\ (forall o, write_at out off v = Ok o -> zlen o = zlen out).
  Proof.
    intros H1 H2. unfold write_at. replace ((0 <=? off) && (off + zlen v <=? zlen out)) with true by lia. unfold zlen in *. split.
    - unfold copy_l. rewrite fst_for.
      destruct (foldM_ok (fun _ => True) (fun s i => fst (x <<- ld M v i ;; st s (Z.to_nat off + i) x)) (fun out i => upd (Z.to_nat off + i) (nth i v 0) out) (seq 0 (length v)) out Logic.I) as [E _].
      + intros s i _ _. split; [reflexivity|exact Logic.I].
      + rewrite E. f_equal. rewrite (write_eq (fun i => nth i v 0)) by lia. f_equal. f_equal. rewrite (map_seq_nth (fun x => x) 0). apply map_id.
    - intros o E. injection E as <-. rewrite !app_length, firstn_length, skipn_length. lia.
  Qed.

  (* ---- packing ---- *)
  Definition xok (rows : nat) (len : Z) (s : list (list Z) * list Z * prng) : Prop :=
    let '(x, out, _) := s in mok rows x /\ zlen out = len.
  Lemma vok_share rows d (s : list (list (list Z))) i : vok rows d s -> (i < d)%nat -> mok rows (map (fun row => nth i row []) s).
  Proof.
    intros [L F] Hi. split; [rewrite map_length; exact L|]. apply Forall_map. refine (Forall_impl _ _ F). intros row Hr. apply (mok_nth d); assumption.
  Qed.
  Lemma mc_share_v fuel n rows d s len : vok rows d s -> Z.of_nat (d - 1) * Z.of_nat n <= len -> forall sidx st, (1 <= sidx < d)%nat -> xok rows len st ->
    fst (mc_share_l M fuel (8 * Z.of_nat n) rows s sidx st) = mc_share O fuel (8 * Z.of_nat n) s st sidx /\
    (forall st', mc_share O fuel (8 * Z.of_nat n) s st sidx = Ok st' -> xok rows len st').
  Proof.
    intros Hs Hlen sidx [[x out] p] Hi [Hx Ho]. unfold mc_share_l, mc_share.
    assert (Ek : 8 * Z.of_nat n / 8 = Z.of_nat n) by (rewrite Z.mul_comm; apply Z.div_mul; discriminate).
    assert (En : kbytes (8 * Z.of_nat n) = n) by (unfold kbytes; rewrite Ek; apply Nat2Z.id).
    rewrite Ek, En. rewrite fst_bind. cbn [zm m_read fst bind]. destruct (prng_read p n) as [z p1] eqn:Ez.
    assert (Lz : length z = n) by (unfold prng_read in Ez; injection Ez as <- _; rewrite map_length, seq_length; reflexivity).
    assert (Hb : (Z.of_nat sidx - 1) * Z.of_nat n + Z.of_nat n <= len).
    { replace ((Z.of_nat sidx - 1) * Z.of_nat n + Z.of_nat n) with (Z.of_nat sidx * Z.of_nat n) by ring. apply Z.le_trans with (Z.of_nat (d - 1) * Z.of_nat n); [|exact Hlen]. apply Z.mul_le_mono_nonneg_r; lia. }
    assert (Hoff : Z.to_nat ((Z.of_nat sidx - 1) * Z.of_nat n) = ((sidx - 1) * n)%nat).
    { replace ((Z.of_nat sidx - 1) * Z.of_nat n) with (Z.of_nat ((sidx - 1) * n)); [apply Nat2Z.id|]. rewrite Nat2Z.inj_mul, Nat2Z.inj_sub by lia. reflexivity. }
    assert (H0 : 0 <= (Z.of_nat sidx - 1) * Z.of_nat n) by (apply Z.mul_nonneg_nonneg; lia).
    rewrite fst_bind. eapply (bind_inv (fun o => zlen o = len)).
    { destruct (copy_v z _ out H0) as [E1 E2]; [unfold zlen at 1; rewrite Lz; lia|]. rewrite Hoff in E1. split; [exact E1|]. intros o Eo. rewrite (E2 o Eo). exact Ho. }
    intros o Lo. rewrite fst_bind. eapply (bind_inv (mok rows)).
    { rewrite fst_for. replace (@length mpoly s) with rows by (symmetry; exact (proj1 Hs)). apply foldM_inv; [exact Hx|]. intros y ridx Hin Hy. apply in_seq in Hin.
      rewrite fst_bind, sampleQ_v. change (map (m_lit M) (hdr_K sidx ridx)) with (map (fun z : Z => z) (hdr_K sidx ridx)). rewrite map_id.
      destruct (sampleQ O fuel (hdr_K sidx ridx) z) as [r| |]; cbn [bind]; [|split; [reflexivity|discriminate]..].
      assert (Ly : len512 (nth ridx y [])) by (apply (mok_nth rows); [exact Hy|lia]).
      assert (L0 : len512 poly_zero) by apply repeat_length.
      pose proof (vp2 O (fun O => poly_sub_l (zm O)) poly_sub _ _ poly_sub_c Ly L0) as E1. cbv beta in E1. rewrite (is_bind _ _ _ E1). split; [reflexivity|].
      intros y' E. injection E as <-. apply mok_upd; [exact Hy|]. apply map2_512; assumption. }
    intros x1 Hx1. rewrite fst_bind. pose proof (vok_share rows d s sidx Hs ltac:(lia)) as Hsh.
    assert (EF : fst (for_ (seq 0 rows) (fun ridx x => y <<- poly_add_l M (nth ridx x []) (nth sidx (nth ridx s []) []) ;; lret (upd ridx y x)) x1) = Ok (map2 poly_add x1 (map (fun row => nth sidx row []) s))).
    { rewrite fst_for. destruct (foldM_ok (mok rows) (fun s0 i => fst (y <<- poly_add_l M (nth i s0 []) (nth sidx (nth i s []) []) ;; lret (upd i y s0)))
        (fun y i => upd i (poly_add (nth i y []) (nth sidx (nth i s []) [])) y) (seq 0 rows) x1 Hx1) as [E _].
      - intros y i Hin Hy. apply in_seq in Hin. assert (Ly : len512 (nth i y [])) by (apply (mok_nth rows); [exact Hy|lia]).
        assert (L2 : len512 (nth sidx (nth i s []) [])) by (apply (mok_nth d); [apply (vok_nth rows); [exact Hs|lia]|lia]).
        pose proof (vp2 O (fun O => poly_add_l (zm O)) poly_add _ _ poly_add_c Ly L2) as E1. cbv beta in E1. rewrite (is_bind _ _ _ E1). split; [reflexivity|]. apply mok_upd; [exact Hy|apply map2_512; assumption].
      - etransitivity; [exact E|]. refine (f_equal (@Ok (list (list Z))) _). pose proof (fill_mp (fun x i => poly_add x (nth sidx (nth i s []) [])) rows 0 [] x1 (proj1 Hx1) eq_refl) as E2. cbn [app] in E2. etransitivity; [exact E2|].
        pose proof (map_seq_nth2 poly_add [] (nth sidx [] []) x1 (map (fun row => nth sidx row []) s)) as E3. unfold poly in E3; rewrite (proj1 Hx1) in E3.
        etransitivity; [|apply E3; rewrite map_length; symmetry; exact (proj1 Hs)].
        apply map_ext. intros i. rewrite Nat.sub_0_r. f_equal. symmetry. exact (map_nth (fun row => nth sidx row []) s [] i). }
    rewrite EF. cbn [bind lret fst]. split; [reflexivity|]. intros st' E. injection E as <-. split; [|exact Lo]. apply mok_map2; [|exact Hx1|exact Hsh]. intros a b. apply map2_512.
  Qed.
  Lemma foldM_idx2 {S} (J : nat -> S -> Prop) (f g : S -> nat -> res S) : forall n k s, J k s ->
    (forall s i, (k <= i < k + n)%nat -> J i s -> f s i = g s i /\ (forall s', g s i = Ok s' -> J (Datatypes.S i) s')) ->
    foldM f (seq k n) s = foldM g (seq k n) s /\ (forall s', foldM g (seq k n) s = Ok s' -> J (k + n)%nat s').
  Proof.
    induction n as [|n IH]; intros k s Hs H; [split; [reflexivity|]; intros s' [= <-]; rewrite Nat.add_0_r; exact Hs|]. cbn [seq foldM]. destruct (H s k ltac:(lia) Hs) as [E P]. rewrite E. destruct (g s k) as [s1| |]; cbn [bind]; [|split; [reflexivity|discriminate]..].
    replace (k + Datatypes.S n)%nat with (Datatypes.S k + n)%nat by lia. apply IH; [apply P; reflexivity|]. intros s2 i Hi. apply H. lia.
  Qed.
  Lemma mc_row_post c out off o' off' : len512 c -> 0 <= off -> off + 3136 <= zlen out -> mc_row (out, off) c = Ok (o', off') -> off' = off + 3136 /\ zlen o' = zlen out.
  Proof.
    intros Lc H1 H2 E. unfold mc_row in E. rewrite (foldM_seq_nth mc_put 0 c) in E. rewrite Lc in E.
    destruct (foldM_idx2 (mcok off (zlen out)) (fun s i => fst (mc_put_l M c i s)) (fun s i => mc_put s (nth i c 0)) 512 0 (out, off, 0, 0)) as [_ P].
    - split; [lia|]. split; [lia|reflexivity].
    - intros s i Hi Hs. apply mc_put_v; [exact H1|lia|exact H2|exact Hs].
    - destruct (foldM _ (seq 0 512) _) as [[[[o f] bu] bb]| |]; cbn [bind] in E; [|discriminate E..]. injection E as <- <-.
      destruct (P _ eq_refl) as (P1 & P2 & P3). split; [|exact P3]. change (Z.of_nat (0 + 512)) with 512 in P1. lia.
  Qed.
  Definition rowinv (off0 len : Z) (i : nat) (s : list Z * Z) : Prop := snd s = off0 + 3136 * Z.of_nat i /\ zlen (fst s) = len.
  Lemma mask_compress_v fuel n rows d s s_c p : vok rows d s -> (1 <= d)%nat ->
    zlen s_c = Z.of_nat (d - 1) * Z.of_nat n + Z.of_nat rows * 3136 ->
    fst (mask_compress_l M fuel (8 * Z.of_nat n) rows d s s_c p) = mask_compress O fuel (8 * Z.of_nat n) d s s_c p.
  Proof.
    intros Hs Hd Hlen. unfold mask_compress_l, mask_compress. cbv zeta. rewrite fst_bind, fst_for.
    assert (Ex : map (fun ridx => nth 0 (nth ridx s []) []) (seq 0 rows) = map (fun row => nth 0 row []) s).
    { rewrite <- (proj1 Hs). exact (map_seq_nth (fun row : list (list Z) => nth 0 row []) [] s). }
    rewrite Ex. set (len := Z.of_nat (d - 1) * Z.of_nat n + Z.of_nat rows * 3136) in *.
    destruct (foldM_inv (xok rows len) (fun s0 i => fst (mc_share_l M fuel (8 * Z.of_nat n) rows s i s0)) (mc_share O fuel (8 * Z.of_nat n) s) (seq 1 (d - 1)) (map (fun row => nth 0 row []) s, s_c, p)) as [E P].
    - split; [apply (vok_share rows d); [exact Hs|lia]|exact Hlen].
    - intros st i Hi Hst. apply in_seq in Hi. apply (mc_share_v fuel n rows d s len Hs); [unfold len; lia|lia|exact Hst].
    - apply (bind_same (xok rows len)); [split; [exact E|exact P]|]. intros [[x out] p1] HX. cbn [fst snd] in HX.
      destruct HX as [Hx Lo]. rewrite fst_bind, fst_for.
      assert (Eo : (Z.of_nat d - 1) * (8 * Z.of_nat n) / 8 = Z.of_nat (d - 1) * Z.of_nat n).
      { rewrite Nat2Z.inj_sub by lia. replace ((Z.of_nat d - 1) * (8 * Z.of_nat n)) with ((Z.of_nat d - 1) * Z.of_nat n * 8) by ring. rewrite Z.div_mul by discriminate. reflexivity. }
      rewrite Eo. rewrite (foldM_seq_nth mc_row [] x). unfold poly in *. rewrite (proj1 Hx).
      destruct (foldM_idx2 (rowinv (Z.of_nat (d - 1) * Z.of_nat n) len) (fun s0 i => fst (mc_row_l M (nth i x []) s0)) (fun s0 i => mc_row s0 (nth i x [])) rows 0 (out, Z.of_nat (d - 1) * Z.of_nat n)) as [E2 _].
      + split; [cbn [snd]; lia|exact Lo].
      + intros [o f] i Hi [H1 H2]. cbn [fst snd] in H1, H2. assert (Lc : len512 (nth i x [])) by (apply (mok_nth rows); [exact Hx|lia]).
        assert (A1 : 0 <= f) by (rewrite H1; pose proof (Z.mul_nonneg_nonneg (Z.of_nat (d - 1)) (Z.of_nat n)); lia).
        assert (A2 : f + 3136 <= zlen o) by (rewrite H2, H1; unfold len; lia).
        split; [apply mc_row_v; assumption|]. intros [o' f'] Em. destruct (mc_row_post _ _ _ _ _ Lc A1 A2 Em) as [B1 B2]. split; cbn [fst snd]; lia.
      + eapply (bind_same (fun _ => True)); [split; [exact E2|intros; exact Logic.I]|]. intros [o f] _. reflexivity.
  Qed.

  (* ---- unpacking ---- *)
  Definition mdok (off0 : Z) (i : nat) (s : list Z * Z * Z * Z) : Prop :=
    let '(_, off, _, b) := s in 8 * off = 8 * off0 + 49 * Z.of_nat i + b /\ 0 <= b < 8.
  Lemma align_read b : 0 <= b < 8 -> let x := align8 (49 - b + 7) in 0 <= x / 8 <= 7 /\ 8 * (x / 8) = x /\ 0 <= b + x - 49 < 8.
  Proof.
    intros H. assert (D : b = 0 \/ b = 1 \/ b = 2 \/ b = 3 \/ b = 4 \/ b = 5 \/ b = 6 \/ b = 7) by lia.
    destruct D as [->|[->|[->|[->|[->|[->|[->| ->]]]]]]]; vm_compute; repeat split; discriminate.
  Qed.
  Lemma md_get_v s_c off0 i s : Forall isbyte s_c -> 0 <= off0 -> (i < 512)%nat -> off0 + 3136 <= zlen s_c -> mdok off0 i s ->
    fst (md_get_l M s_c i s) = md_get s_c s i /\ (forall s', md_get s_c s i = Ok s' -> mdok off0 (Datatypes.S i) s').
  Proof.
    destruct s as [[[acc off] buf] b]. intros Fb H0 Hi Hl [H1 H2]. unfold md_get_l, md_get. rewrite QBW_val. cbv zeta. destruct (align_read b H2) as (A1 & A2 & A3). set (rb := align8 (49 - b + 7)) in *.
    unfold subspan. replace ((0 <=? off) && (0 <=? rb / 8) && (off + rb / 8 <=? zlen s_c)) with true by lia. cbn [bind].
    rewrite (is_bind _ _ _ (from_le_v O _ (firstn_F _ _ _ (skipn_F _ _ _ Fb)))). set (w := from_le_bytes 8 _).
    unfold shl_chk. replace ((0 <=? b) && (b <? 64)) with true by lia. cbn [bind].
    repeat (rewrite fst_bind; cbn [zm m_shl m_shr m_op m_lit fst bind]). split; [reflexivity|]. intros s' E. injection E as <-. unfold mdok. lia.
  Qed.
  Lemma mask_decompress_v fuel n l d s_c : Forall isbyte s_c -> (1 <= d)%nat -> zlen s_c = Z.of_nat (d - 1) * Z.of_nat n + Z.of_nat l * 3136 ->
    fst (mask_decompress_l M fuel (8 * Z.of_nat n) l d s_c) = mask_decompress O fuel (8 * Z.of_nat n) l d s_c.
  Proof.
    intros Fb Hd Hlen. unfold mask_decompress_l, mask_decompress, md_rows. rewrite fst_bind, fst_for.
    assert (Ek : 8 * Z.of_nat n / 8 = Z.of_nat n) by (rewrite Z.mul_comm; apply Z.div_mul; discriminate).
    assert (En : kbytes (8 * Z.of_nat n) = n) by (unfold kbytes; rewrite Ek; apply Nat2Z.id).
    assert (Eo : (Z.of_nat d - 1) * (8 * Z.of_nat n) / 8 = Z.of_nat (d - 1) * Z.of_nat n).
    { rewrite Nat2Z.inj_sub by lia. replace ((Z.of_nat d - 1) * (8 * Z.of_nat n)) with ((Z.of_nat d - 1) * Z.of_nat n * 8) by ring. rewrite Z.div_mul by discriminate. reflexivity. }
    rewrite Eo, En, Ek. set (off0 := Z.of_nat (d - 1) * Z.of_nat n) in *. assert (Ho : 0 <= off0) by (apply Z.mul_nonneg_nonneg; lia).
    eapply bind_same.
    - split; [|intros a _; exact Logic.I].
      apply (foldM_idx2 (fun i (s : pvec * Z) => snd s = off0 + 3136 * Z.of_nat i)); [cbn [snd]; lia|].
      intros [s off] i Hi H. cbn [snd] in H. rewrite fst_bind, fst_for.
      destruct (foldM_idx2 (mdok off) (fun s0 j => fst (md_get_l M s_c j s0)) (md_get s_c) 512 0 ([], off, 0, 0)) as [E P].
      + split; lia.
      + intros st j Hj Hst. apply md_get_v; [exact Fb|lia|lia|lia|exact Hst].
      + change PN with 512%nat. change (m_lit M 0) with 0. rewrite E. destruct (foldM (md_get s_c) (seq 0 512) ([], off, 0, 0)) as [[[[row o] bu] bb]| |]; cbn [bind]; [|split; [reflexivity|discriminate]..].
        split; [reflexivity|]. intros s' Es. injection Es as <-. cbn [snd]. destruct (P _ eq_refl) as [P1 P2]. change (Z.of_nat (0 + 512)) with 512 in P1. lia.
    - intros [s off] _. rewrite fst_for.
      apply (foldM_inv (fun _ => True)); [exact Logic.I|]. intros s1 sidx Hi _. split; [|intros; exact Logic.I]. apply in_seq in Hi. rewrite fst_for.
      apply (foldM_inv (fun _ => True)); [exact Logic.I|]. intros s2 ridx _ _. split; [|intros; exact Logic.I]. rewrite fst_bind, sampleQ_v.
      change (map (m_lit M) (hdr_K sidx ridx)) with (map (fun z : Z => z) (hdr_K sidx ridx)). rewrite map_id.
      assert (Hb : (Z.of_nat sidx - 1) * Z.of_nat n + Z.of_nat n <= off0).
      { replace ((Z.of_nat sidx - 1) * Z.of_nat n + Z.of_nat n) with (Z.of_nat sidx * Z.of_nat n) by ring. apply Z.mul_le_mono_nonneg_r; lia. }
      assert (H0 : 0 <= (Z.of_nat sidx - 1) * Z.of_nat n) by (apply Z.mul_nonneg_nonneg; lia).
      unfold subspan. replace ((0 <=? (Z.of_nat sidx - 1) * Z.of_nat n) && (0 <=? Z.of_nat n) && ((Z.of_nat sidx - 1) * Z.of_nat n + Z.of_nat n <=? zlen s_c)) with true by (unfold zlen in *; lia). cbn [bind].
      replace (Z.to_nat ((Z.of_nat sidx - 1) * Z.of_nat n)) with ((sidx - 1) * n)%nat.
      + rewrite Nat2Z.id. destruct (sampleQ O fuel (hdr_K sidx ridx) _); reflexivity.
      + replace ((Z.of_nat sidx - 1) * Z.of_nat n) with (Z.of_nat ((sidx - 1) * n)); [symmetry; apply Nat2Z.id|]. rewrite Nat2Z.inj_mul, Nat2Z.inj_sub by lia. reflexivity.
  Qed.
End Vals.
