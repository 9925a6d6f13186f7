(* Property theorems about concurrent calls on one secret key object: raccoon128.hpp:60-100 (and the same
   lines of raccoon192.hpp, raccoon256.hpp), secret_key.hpp, prng.hpp:35-50. *)
From Coq Require Import ZArith List Bool Lia Arith.
From Coq.Init Require Import Byte.
From Verif Require Import ModelBase ModelField ModelUtils ModelPoly ModelVec ModelSerial ModelScheme ModelMore ModelConc.
From Verif Require Import Spec SpecScheme MoreProofs MaskedLemmas ParamProofs KeyLemmas ConcProofs ConcRefresh ExOracle PropPoly KeyExamples FuelProofs SignVerify ExGood ExSign PropMasked.
Import ListNotations.
Open Scope Z_scope.

(* the const member functions: all of them but refresh *)
Definition const_call (c : call) : bool := match c with call_refresh => false | _ => true end.
(* the result of a call that runs alone and gets the words ws from the random device *)
Definition alone (O : oracles) (shake128 : list Z -> nat -> byte) (fuel : nat) (P : params) (sk : skey) (c : call) (ws : list Z) : answer :=
  let tape := shake128 (concat (map word4 ws)) in
  match c with
  | call_sign msg buf => a_bytes (sk_sign O fuel P sk msg buf tape)
  | call_as_bytes buf => a_bytes ('(bytes, _) <- sk_to_bytes O fuel P sk buf (prng_new tape) ;; Ok bytes)
  | call_get_pkey => a_key (sk_pkey sk)
  | call_verify msg sig => a_bool (verify O fuel P (sk_pkey sk) msg sig)
  | call_refresh => a_done (_ <- sk_refresh O fuel P sk ;; Ok tt)
  end.
(* the number of words a call takes from the random device *)
Definition device_words (c : call) : nat := match c with call_sign _ _ | call_as_bytes _ => 8%nat | _ => 0%nat end.
(* the number of accesses to shared words and to the device *)
Definition accesses (P : params) (c : call) : nat :=
  let s := (p_l P * (p_d P * 512))%nat in
  let t := (p_k P * 512)%nat in
  let seed := Z.to_nat (p_kappa P / 8) in
  match c with
  | call_sign _ _ => s + t + seed + t + seed + 8
  | call_as_bytes _ => s + t + seed + 8
  | _ => seed + t
  end%nat.

Lemma ro_copy_row d r : reads_only (d * 512) (copy_row d r).
Proof.
  unfold copy_row. replace (d * 512)%nat with (length (seq 0 d) * 512)%nat by (rewrite seq_length; reflexivity). apply ro_pmap. intros j.
  replace 512%nat with (length (seq 0 PN) * 1)%nat by (rewrite seq_length; unfold PN; lia). apply ro_pmap. intros i. constructor. intros v. constructor.
Qed.
Lemma ro_copy_s P : reads_only (p_l P * (p_d P * 512)) (copy_s P).
Proof.
  unfold copy_s. replace (p_l P * (p_d P * 512))%nat with (length (seq 0 (p_l P)) * (p_d P * 512))%nat by (rewrite seq_length; reflexivity).
  apply ro_pmap, ro_copy_row.
Qed.
Lemma ro_copy_t P : reads_only (p_k P * 512) (copy_t P).
Proof.
  unfold copy_t. replace (p_k P * 512)%nat with (length (seq 0 (p_k P)) * 512)%nat by (rewrite seq_length; reflexivity). apply ro_pmap. intros r.
  apply (ro_mono (512 + 0)); [|lia]. apply ro_bind; [|intros p; constructor].
  replace 512%nat with (length (seq 0 PN) * 1)%nat by (rewrite seq_length; unfold PN; lia). apply ro_pmap. intros i. constructor. intros v. constructor.
Qed.
Lemma ro_copy_seed P : reads_only (Z.to_nat (p_kappa P / 8)) (copy_seed P).
Proof.
  unfold copy_seed. apply (ro_mono (length (seq 0 (Z.to_nat (p_kappa P / 8))) * 1)); [|rewrite seq_length; lia].
  apply ro_pmap. intros i. constructor. intros v. constructor.
Qed.
Lemma ro_copy_pkey P : reads_only (Z.to_nat (p_kappa P / 8) + p_k P * 512) (copy_pkey P).
Proof.
  unfold copy_pkey. apply ro_bind; [apply ro_copy_seed|]. intros seed. apply (ro_mono (p_k P * 512 + 0)); [|rewrite Nat.add_0_r; apply Nat.le_refl].
  apply ro_bind; [apply ro_copy_t|]. intros t. constructor.
Qed.
Lemma ro_new_prng shake128 fuel : reads_only 8 (new_prng shake128 fuel).
Proof.
  unfold new_prng. apply (ro_mono (8 + 0)); [|lia]. apply ro_bind; [|intros ws; constructor].
  apply (ro_mono (length (seq 0 8) * 1)); [|rewrite seq_length; lia]. apply ro_pmap. intros i. constructor. intros v. constructor.
Qed.
Lemma ro_prog O shake128 fuel P c : const_call c = true -> reads_only (accesses P c) (prog_of O shake128 fuel P c).
Proof.
  intros H. destruct c as [msg buf|buf| |msg sig|]; try discriminate; cbn [prog_of accesses].
  - unfold prog_sign, sign_copied.
    apply (ro_mono (p_l P * (p_d P * 512) + (p_k P * 512 + (Z.to_nat (p_kappa P / 8) + (p_k P * 512 + (Z.to_nat (p_kappa P / 8) + (8 + 0))))))).
    2:{ generalize (p_l P * (p_d P * 512))%nat. generalize (p_k P * 512)%nat. generalize (Z.to_nat (p_kappa P / 8)). intros. lia. }
    apply ro_bind; [apply ro_copy_s|intros s]. apply ro_bind; [apply ro_copy_t|intros t]. apply ro_bind; [apply ro_copy_seed|intros seed].
    apply ro_bind; [apply ro_copy_t|intros t2]. apply ro_bind; [apply ro_copy_seed|intros seed2]. apply ro_bind; [apply ro_new_prng|intros p]. constructor.
  - unfold prog_as_bytes.
    apply (ro_mono (8 + (Z.to_nat (p_kappa P / 8) + (p_k P * 512 + (p_l P * (p_d P * 512) + 0))))).
    2:{ generalize (p_l P * (p_d P * 512))%nat. generalize (p_k P * 512)%nat. generalize (Z.to_nat (p_kappa P / 8)). intros. lia. }
    apply ro_bind; [apply ro_new_prng|intros p]. apply ro_bind; [apply ro_copy_seed|intros seed]. apply ro_bind; [apply ro_copy_t|intros t].
    apply ro_bind; [apply ro_copy_s|intros s]. constructor.
  - apply (ro_mono (Z.to_nat (p_kappa P / 8) + p_k P * 512 + 0)); [|rewrite Nat.add_0_r; apply Nat.le_refl].
    apply ro_bind; [apply ro_copy_pkey|]. intros pk. constructor.
  - apply (ro_mono (Z.to_nat (p_kappa P / 8) + p_k P * 512 + 0)); [|rewrite Nat.add_0_r; apply Nat.le_refl].
    apply ro_bind; [apply ro_copy_pkey|]. intros pk. constructor.
Qed.

Section Values.
Context (O : oracles) (shake128 : list Z -> nat -> byte) (fuel : nat) (P : params) (sk : skey).
Hypothesis Hf : (9 <= fuel)%nat.
Hypothesis Vseed : length (pk_seed (sk_pkey sk)) = Z.to_nat (p_kappa P / 8).
Hypothesis Vt : public_vec (p_k P) (pk_t (sk_pkey sk)).
Hypothesis Vs : masked_vec49 (p_l P) (p_d P) (sk_s sk).
(* the memory seen from access number T on *)
Context (M : nat -> mem) (T : nat).
Hypothesis HM : forall s x, (T <= s)%nat -> M s x = key_mem sk x.

Lemma seen_reads {A B} (p : prog A) (f : A -> prog B) v t ws : (T <= t)%nat -> reads p (key_mem sk) v ->
  exists t', (T <= t')%nat /\ seen (pbind p f) M t ws = seen (f v) M t' ws.
Proof using HM.
  intros Ht H. destruct (H M t ws) as (t' & L & E); [intros s x Hs; apply HM; exact (Nat.le_trans _ _ _ Ht Hs)|].
  exists t'. split; [exact (Nat.le_trans _ _ _ Ht L)|]. rewrite seen_bind, E. reflexivity.
Qed.
Lemma seen_prng {B} (f : res prng -> prog B) t ws r : (T <= t)%nat -> seen (pbind (new_prng shake128 fuel) f) M t ws = Some r ->
  exists used rest t', (T <= t')%nat /\ ws = used ++ rest /\ length used = 8%nat /\
    seen (f (Ok (prng_new (shake128 (concat (map word4 used)))))) M t' rest = Some r.
Proof using Hf.
  intros Ht. unfold new_prng. rewrite seen_bind, seen_bind. intros E.
  destruct (seen (pmap (fun _ => dev1) (seq 0 8)) M t ws) as [[[vs t'] rest]|] eqn:E2; [|discriminate].
  pose proof (seen_later _ _ _ _ _ _ _ E2) as Lt.
  destruct (dev_words _ _ _ _ _ E2) as [H L]. rewrite seq_length in L. cbn [seen] in E.
  rewrite (prng_words shake128 fuel vs Hf L) in E. exists vs, rest, t'. split; [exact (Nat.le_trans _ _ _ Ht Lt)|]. split; [exact H|]. split; [exact L|]. exact E.
Qed.

(* signing with whatever shares were copied *)
Lemma sign_copied_value msg buf s t ws r t' rest : (T <= t)%nat -> seen (sign_copied O shake128 fuel P msg buf s) M t ws = Some (r, t', rest) ->
  exists used, ws = used ++ rest /\ length used = 8%nat /\
    r = a_bytes (sk_sign O fuel P (Skey (sk_pkey sk) s) msg buf (shake128 (concat (map word4 used)))).
Proof using Hf Vseed Vt HM.
  intros Ht E. unfold sign_copied in E.
  edestruct (@seen_reads pvec answer (copy_t P)) as (t2 & L2 & E2); [exact Ht|apply (reads_t P sk Vseed Vt)|]. rewrite E2 in E. clear E2. cbv beta in E.
  edestruct (@seen_reads (list Z) answer (copy_seed P)) as (t3 & L3 & E3); [exact L2|apply (reads_seed P sk Vseed)|]. rewrite E3 in E. clear E3. cbv beta in E.
  edestruct (@seen_reads pvec answer (copy_t P)) as (t4 & L4 & E4); [exact L3|apply (reads_t P sk Vseed Vt)|]. rewrite E4 in E. clear E4. cbv beta in E.
  edestruct (@seen_reads (list Z) answer (copy_seed P)) as (t5 & L5 & E5); [exact L4|apply (reads_seed P sk Vseed)|]. rewrite E5 in E. clear E5. cbv beta in E.
  destruct (seen_prng _ _ _ _ L5 E) as (used & rest' & t6 & L6 & Hw & L & E7). cbn [seen bind] in E7. injection E7 as <- _ <-.
  exists used. split; [exact Hw|]. split; [exact L|].
  assert (K : Pkey (pk_seed (sk_pkey sk)) (pk_t (sk_pkey sk)) = sk_pkey sk) by (destruct (sk_pkey sk); reflexivity).
  rewrite K. reflexivity.
Qed.
End Values.

Lemma alone_value O shake128 fuel P sk c ws r rest : (9 <= fuel)%nat -> length (pk_seed (sk_pkey sk)) = Z.to_nat (p_kappa P / 8) ->
  public_vec (p_k P) (pk_t (sk_pkey sk)) -> masked_vec49 (p_l P) (p_d P) (sk_s sk) ->
  const_call c = true -> value (key_mem sk) (prog_of O shake128 fuel P c) ws = Some (r, rest) ->
  exists used, ws = used ++ rest /\ length used = device_words c /\ r = alone O shake128 fuel P sk c used.
Proof.
  intros Hf Vseed Vt Vs H. unfold value. set (M := fun _ : nat => key_mem sk).
  assert (HM : forall s x, (0 <= s)%nat -> M s x = key_mem sk x) by (intros; reflexivity).
  destruct (seen (prog_of O shake128 fuel P c) M 0 ws) as [[[r' t'] rest']|] eqn:E; [|discriminate]. intros X. injection X as -> ->.
  destruct c as [msg buf|buf| |msg sig|]; try discriminate; cbn [prog_of device_words alone] in *.
  - unfold prog_sign in E.
    destruct (seen_reads sk M 0 HM (copy_s P) (sign_copied O shake128 fuel P msg buf) _ 0 ws (Nat.le_refl 0) (reads_s P sk Vseed Vs)) as (t1 & L1 & E1).
    rewrite E1 in E.
    destruct (sign_copied_value O shake128 fuel P sk Hf Vseed Vt M 0 HM msg buf _ _ _ _ _ _ L1 E) as (used & Hw & L & Er).
    exists used. split; [exact Hw|]. split; [exact L|]. rewrite Er.
    assert (K : Skey (sk_pkey sk) (sk_s sk) = sk) by (destruct sk; reflexivity). rewrite K. reflexivity.
  - unfold prog_as_bytes in E.
    destruct (seen_prng shake128 fuel Hf M 0 _ _ _ _ (Nat.le_refl 0) E) as (used & rest2 & t2 & L2 & Hw & L & E7). cbv beta in E7.
    edestruct (@seen_reads sk M 0 HM (list Z) answer (copy_seed P)) as (t3 & L3 & E3); [exact L2|apply (reads_seed P sk Vseed)|]. rewrite E3 in E7. clear E3. cbv beta in E7.
    edestruct (@seen_reads sk M 0 HM pvec answer (copy_t P)) as (t4 & L4 & E4); [exact L3|apply (reads_t P sk Vseed Vt)|]. rewrite E4 in E7. clear E4. cbv beta in E7.
    edestruct (@seen_reads sk M 0 HM pvec answer (copy_s P)) as (t5 & L5 & E5); [exact L4|apply (reads_s P sk Vseed Vs)|]. rewrite E5 in E7. clear E5. cbn [seen bind] in E7.
    injection E7 as <- _ <-. exists used. split; [exact Hw|]. split; [exact L|].
    assert (K : Skey (Pkey (pk_seed (sk_pkey sk)) (pk_t (sk_pkey sk))) (sk_s sk) = sk) by (destruct sk as [[? ?] ?]; reflexivity).
    rewrite K. reflexivity.
  - destruct (seen_reads sk M 0 HM (copy_pkey P) (fun pk => p_ret (a_key pk)) _ 0 ws (Nat.le_refl 0) (reads_pkey P sk Vseed Vt)) as (t1 & L1 & E1).
    rewrite E1 in E. cbn [seen] in E. injection E as <- _ <-. exists []. repeat split; reflexivity.
  - destruct (seen_reads sk M 0 HM (copy_pkey P) (fun pk => p_ret (a_bool (verify O fuel P pk msg sig))) _ 0 ws (Nat.le_refl 0) (reads_pkey P sk Vseed Vt)) as (t1 & L1 & E1).
    rewrite E1 in E. cbn [seen] in E. injection E as <- _ <-. exists []. repeat split; reflexivity.
Qed.

(* Any number of threads call const member functions of one secret key object; every access of every
   thread can be interleaved with those of the others in any way.  Then
   - the key object never changes;
   - no two threads (and no two requests of one thread) get the same word of the random device;
   - a thread that has finished returns what its call returns when it runs alone on this key with the
     device words that this thread has got;
   - a thread that has been scheduled as often as its call has accesses has finished: it never waits for
     another thread. *)
Theorem C77_const_calls_do_not_interfere : forall O shake128 fuel P sk calls dev sched, (9 <= fuel)%nat ->
  valid_public (Z.to_nat (p_kappa P / 8)) (p_k P) (pk_seed (sk_pkey sk)) (pk_t (sk_pkey sk)) ->
  masked_vec49 (p_l P) (p_d P) (sk_s sk) ->
  Forall (fun c => const_call c = true) calls ->
  let c := mc_run dev (mc_start O shake128 fuel P sk calls) sched in
  (forall x, mc_mem c x = key_mem sk x) /\
  NoDup (concat (map th_got (mc_threads c))) /\
  forall i cl, nth_error calls i = Some cl ->
    exists th, nth_error (mc_threads c) i = Some th /\
      (forall r, mc_answer th = Some r ->
         length (th_got th) = device_words cl /\ r = alone O shake128 fuel P sk cl (map dev (th_got th))) /\
      ((accesses P cl <= count_occ Nat.eq_dec sched i)%nat -> mc_answer th <> None).
Proof.
  intros O shake128 fuel P sk calls dev sched Hf (Vseed & _ & Vt) Vs FC c.
  assert (F0 : all_follow (key_mem sk) dev (map (accesses P) calls) (map (prog_of O shake128 fuel P) calls) []
            (mc_start O shake128 fuel P sk calls)).
  { split; [reflexivity|]. split; [cbn [mc_start mc_threads]; rewrite !map_length; reflexivity|].
    intros i p0 n Hp Hn. cbn [mc_start mc_threads]. rewrite nth_error_map in Hp, Hn. rewrite nth_error_map.
    destruct (nth_error calls i) as [cl|] eqn:E; [|discriminate]. cbn [option_map] in *. injection Hp as <-. injection Hn as <-.
    eexists. split; [reflexivity|]. split; cbn [th_prog th_got count_occ map app].
    - rewrite Nat.sub_0_r. apply ro_prog. rewrite Forall_forall in FC. apply FC. eapply nth_error_In, E.
    - intros ws. reflexivity. }
  assert (LN : length (map (accesses P) calls) = length (map (prog_of O shake128 fuel P) calls)) by (rewrite !map_length; reflexivity).
  pose proof (follow_run (key_mem sk) dev _ _ sched LN _ _ F0) as (Hm & Hl & FR). fold c in Hm, Hl, FR.
  split; [intros x; rewrite Hm; reflexivity|]. split.
  { apply (fresh_run dev sched (mc_start O shake128 fuel P sk calls)). split; cbn [mc_start mc_threads mc_next].
    - assert (Z0 : concat (map th_got (map (fun c => Thread (prog_of O shake128 fuel P c) []) calls)) = [])
        by (clear; induction calls as [|x l IH]; [reflexivity|exact IH]). rewrite Z0. constructor.
    - assert (Z0 : concat (map th_got (map (fun c => Thread (prog_of O shake128 fuel P c) []) calls)) = [])
        by (clear; induction calls as [|x l IH]; [reflexivity|exact IH]). rewrite Z0. constructor. }
  intros i cl E.
  destruct (FR i (prog_of O shake128 fuel P cl) (accesses P cl)) as (th & T & [RO V]);
    [rewrite nth_error_map, E; reflexivity|rewrite nth_error_map, E; reflexivity|].
  exists th. split; [exact T|]. split.
  - intros r A. unfold mc_answer in A. specialize (V []). rewrite app_nil_r in V.
    destruct (th_prog th) as [r'| | |] eqn:EP; try discriminate. injection A as ->.
    symmetry in V. unfold value in V at 2. cbn [seen] in V.
    assert (CC : const_call cl = true) by (rewrite Forall_forall in FC; apply FC; eapply nth_error_In, E).
    destruct (alone_value O shake128 fuel P sk cl _ _ _ Hf Vseed Vt Vs CC V) as (used & Hu & Lu & Er).
    rewrite app_nil_r in Hu. subst used. split; [|exact Er]. rewrite map_length in Lu. exact Lu.
  - cbn [app] in RO. intros L. unfold mc_answer. replace (accesses P cl - count_occ Nat.eq_dec sched i)%nat with 0%nat in RO by lia.
    inversion RO as [n r EN EP| |]. discriminate.
Qed.
Print Assumptions C77_const_calls_do_not_interfere.

(* Every signature that one of the threads returns is accepted by verify under the public key of the
   object, *)
Theorem C77_concurrent_signatures_verify : forall O shake128 fuel P sk calls dev sched, (9 <= fuel)%nat -> params_ok P = true ->
  valid_public (Z.to_nat (p_kappa P / 8)) (p_k P) (pk_seed (sk_pkey sk)) (pk_t (sk_pkey sk)) ->
  masked_vec49 (p_l P) (p_d P) (sk_s sk) ->
  Forall (fun c => const_call c = true) calls ->
  let c := mc_run dev (mc_start O shake128 fuel P sk calls) sched in
  forall i msg buf th sig, nth_error calls i = Some (call_sign msg buf) -> zlen buf = p_siglen P ->
    nth_error (mc_threads c) i = Some th -> mc_answer th = Some (a_bytes (Ok sig)) ->
    forall fuel', (fuel <= fuel')%nat -> verify O fuel' P (sk_pkey sk) msg sig = Ok true.
Proof.
  intros O shake128 fuel P sk calls dev sched Hf HP V Vs FC c i msg buf th sig E Lb T A f' Hf'.
  destruct (C77_const_calls_do_not_interfere O shake128 fuel P sk calls dev sched Hf V Vs FC) as (_ & _ & H).
  destruct (H i _ E) as (th' & T' & R & _). fold c in T'. rewrite T in T'. injection T' as <-.
  destruct (R _ A) as [_ Er]. cbn [alone] in Er. injection Er as Er. symmetry in Er.
  destruct (sign_verifies O fuel P sk msg buf _ sig HP V Vs Lb Er) as (_ & _ & _ & Hv).
  destruct (fuel_irrelevant O fuel f' Hf') as (_ & _ & _ & _ & _ & FV & _). apply FV; [exact Hv|discriminate].
Qed.
Print Assumptions C77_concurrent_signatures_verify.

(* refresh() in a call of its own, with no access of another thread in between, leaves the object that
   sk_refresh computes. *)
Theorem C77_refresh_alone : forall O shake128 fuel P e sk sk' dev, p_d P = (2 ^ e)%nat ->
  masked_vec49 (p_l P) (p_d P) (sk_s sk) -> sk_refresh O fuel P sk = Ok sk' ->
  exists n, let c := mc_run dev (mc_start O shake128 fuel P sk [call_refresh]) (repeat 0%nat n) in
    (forall x, mc_mem c x = key_mem sk' x) /\ map mc_answer (mc_threads c) = [Some (a_done (Ok tt))].
Proof.
  intros O shake128 fuel P e sk sk' dev Hd Vs E.
  destruct (refresh_exec O fuel P sk e sk' Hd Vs E) as (m' & EX & Hm).
  destruct (exec_run dev (prog_refresh O fuel P) (key_mem sk) 0%nat [Thread (prog_refresh O fuel P) []] 0%nat [] _ m' eq_refl EX) as [n R].
  exists n. cbv zeta. unfold mc_start. cbn [map prog_of]. rewrite R. cbn [mc_mem mc_threads set_thread map]. split; [exact Hm|reflexivity].
Qed.
Print Assumptions C77_refresh_alone.

(* refresh() is not const, and not safe while another thread signs: for every key object with at least two
   shares there is an interleaving in which the signing call copies share 0 of the first polynomial before
   the refresh and everything else after it.  It then signs with a polynomial that differs from the secret
   one by the difference of the old and the new share 0.  (A signature that it returns is still accepted.) *)
Theorem C77_refresh_race : forall O shake128 fuel P e sk sk' msg buf dev, (9 <= fuel)%nat -> p_d P = (2 ^ e)%nat -> (0 < p_l P)%nat ->
  valid_public (Z.to_nat (p_kappa P / 8)) (p_k P) (pk_seed (sk_pkey sk)) (pk_t (sk_pkey sk)) ->
  masked_vec49 (p_l P) (p_d P) (sk_s sk) -> sk_refresh O fuel P sk = Ok sk' ->
  exists sched torn, let c := mc_run dev (mc_start O shake128 fuel P sk [call_sign msg buf; call_refresh]) sched in
    (forall x, mc_mem c x = key_mem sk' x) /\
    (exists ws, map mc_answer (mc_threads c) =
       [Some (alone O shake128 fuel P (Skey (sk_pkey sk) torn) (call_sign msg buf) ws); Some (a_done (Ok tt))]) /\
    (params_ok P = true -> zlen buf = p_siglen P -> forall ws sig,
       alone O shake128 fuel P (Skey (sk_pkey sk) torn) (call_sign msg buf) ws = a_bytes (Ok sig) -> verify O fuel P (sk_pkey sk) msg sig = Ok true) /\
    nth 0 (nth 0 torn []) [] = nth 0 (nth 0 (sk_s sk) []) [] /\ tl (nth 0 torn []) = tl (nth 0 (sk_s sk') []) /\ tl torn = tl (sk_s sk') /\
    forall i, (i < 512)%nat -> coef (unmask (nth 0 torn [])) i =
      (coef (unmask (nth 0 (sk_s sk) [])) i + coef (nth 0 (nth 0 (sk_s sk) []) []) i - coef (nth 0 (nth 0 (sk_s sk') []) []) i) mod q.
Proof.
  intros O shake128 fuel P e sk sk' msg buf dev Hf Hd Hl (Vseed & Vb & Vt) Vs E.
  destruct (proj2 (refresh_preserves O fuel P sk e Hd Vs) sk' E) as (Epk & EU & Vs' & _).
  destruct (refresh_exec O fuel P sk e sk' Hd Vs E) as (m' & EX & Hm).
  assert (Hd0 : (0 < p_d P)%nat) by (rewrite Hd; pose proof (Nat.pow_nonzero 2 e ltac:(lia)); lia).
  set (p0 := prog_sign O shake128 fuel P msg buf). set (p1 := prog_refresh O fuel P).
  set (N := accesses P (call_sign msg buf)).
  set (M := fun s : nat => if (s <? 512)%nat then key_mem sk else m').
  assert (RO : reads_only N p0) by (apply (ro_prog O shake128 fuel P (call_sign msg buf)); reflexivity).
  (* 512 accesses of the signing thread *)
  destruct (run_seen dev M 512 (Machine (key_mem sk) 0 [Thread p0 []; Thread p1 []]) 0 (Thread p0 []) 0 N) as (th & got & nx & R1 & RO1 & G1 & D1);
    [reflexivity|exact RO| |].
  { intros s x _ Hs. unfold M. replace (s <? 512)%nat with true by (symmetry; apply Nat.ltb_lt; exact Hs). reflexivity. }
  cbn [mc_mem mc_threads set_thread th_got th_prog app] in *.
  (* the whole refresh *)
  destruct (exec_run dev p1 (key_mem sk) nx [th; Thread p1 []] 1%nat [] _ m' eq_refl EX) as [n R2]. cbn [set_thread] in R2.
  (* the rest of the signing thread *)
  destruct (run_seen dev M N (Machine m' nx [th; Thread (p_ret (a_done (Ok tt))) []]) 0 th 512 (N - 512)) as (th2 & got2 & nx2 & R3 & RO3 & G3 & D3);
    [reflexivity|exact RO1| |].
  { intros s x Hs _. unfold M. replace (s <? 512)%nat with false by (symmetry; apply Nat.ltb_ge; exact Hs). reflexivity. }
  cbn [mc_mem mc_threads set_thread] in R3.
  assert (EC : mc_run dev (mc_start O shake128 fuel P sk [call_sign msg buf; call_refresh]) (repeat 0%nat 512 ++ repeat 1%nat n ++ repeat 0%nat N)
               = Machine m' nx2 [th2; Thread (p_ret (a_done (Ok tt))) []]).
  { rewrite !run_app. unfold mc_start. cbn [map prog_of]. fold p0 p1.
    replace (mc_run dev (Machine (key_mem sk) 0 [Thread p0 []; Thread p1 []]) (repeat 0%nat 512)) with (Machine (key_mem sk) nx [th; Thread p1 []]) by (symmetry; exact R1).
    rewrite R2. exact R3. }
  replace (N - 512 - N)%nat with 0%nat in RO3 by (clear; lia).
  assert (F2 : exists r, th_prog th2 = p_ret r /\ forall ws, exists t', seen p0 M 0 (map dev (th_got th2) ++ ws) = Some (r, t', ws)).
  { inversion RO3 as [z r EN EP| |]. symmetry in EP. exists r. split; [reflexivity|]. intros ws. rewrite G3, map_app, <- app_assoc, G1.
    destruct D1 as [(r1 & Er1 & D1)|D1].
    - (* the signing thread finished in its first 512 accesses *)
      destruct D3 as [(r3 & Er3 & D3)|D3].
      + destruct (D3 ws) as [t3 E3]. rewrite Er1 in E3. cbn [seen] in E3. injection E3 as E31 E32 E33.
        rewrite E33. rewrite EP in Er3. injection Er3 as Er3. destruct (D1 ws) as [t1 E1]. exists t1. rewrite E1. congruence.
      + specialize (D3 ws). rewrite EP, Er1 in D3. cbn [seen] in D3. injection D3 as E31 E32 E33. rewrite <- E33. rewrite E31.
        destruct (D1 ws) as [t1 E1]. exists t1. exact E1.
    - rewrite <- (D1 (map dev got2 ++ ws)). destruct D3 as [(r3 & Er3 & D3)|D3].
      + destruct (D3 ws) as [t3 E3]. exists t3. rewrite EP in Er3. injection Er3 as Er3. refine (eq_trans E3 _). congruence.
      + exists (512 + N)%nat. refine (eq_trans (eq_sym (D3 ws)) _). rewrite EP. reflexivity. }
  destruct F2 as (r & EP & V). specialize (V []). rewrite app_nil_r in V. destruct V as [t' V].
  exists (repeat 0%nat 512 ++ repeat 1%nat n ++ repeat 0%nat N), (torn (sk_s sk) (sk_s sk')). cbv zeta. rewrite EC. cbn [mc_mem mc_threads map].
  split; [exact Hm|]. split.
  - exists (map dev (th_got th2)). unfold mc_answer at 1 2. cbn [th_prog]. rewrite EP. f_equal. f_equal.
    unfold p0, prog_sign in V. rewrite seen_bind in V.
    destruct (torn_copy P sk sk' M (map dev (th_got th2))) as (t1 & L1 & E1); [rewrite Epk; exact Vseed|exact Vs|exact Vs'|exact Hl|exact Hd0| | |].
    { intros s x Hs. unfold M. replace (s <? 512)%nat with true by (symmetry; apply Nat.ltb_lt; exact Hs). reflexivity. }
    { intros s x Hs. unfold M. replace (s <? 512)%nat with false by (symmetry; apply Nat.ltb_ge; exact Hs). apply Hm. }
    rewrite E1 in V.
    destruct (sign_copied_value O shake128 fuel P sk' Hf ltac:(rewrite Epk; exact Vseed) ltac:(rewrite Epk; exact Vt) M 512
                ltac:(intros s x Hs; unfold M; replace (s <? 512)%nat with false by (symmetry; apply Nat.ltb_ge; exact Hs); apply Hm)
                msg buf _ _ _ _ _ _ L1 V) as (used & Hu & Lu & Er).
    rewrite app_nil_r in Hu. subst used. rewrite Er, Epk. reflexivity.
  - split.
    { intros HP Lb ws sig Es. cbn [alone] in Es. injection Es as Es.
      destruct (sign_verifies O fuel P (Skey (sk_pkey sk) (torn (sk_s sk) (sk_s sk'))) msg buf _ sig HP (conj Vseed (conj Vb Vt))
                  (torn_shape P sk sk' Vs Vs' Hl Hd0) Lb Es) as (_ & _ & _ & Hv). exact Hv. }
    split; [reflexivity|]. split; [reflexivity|]. split; [reflexivity|]. apply (torn_unmask P e sk sk' Hd Vs Hl Vs' EU).
Qed.
Print Assumptions C77_refresh_race.

(* four calls on one key, scheduled in turn: all of them finish, and the signing call returns a signature *)
Example C77_nonvacuous : forall msg msg2 sig2 buf bufk shake128 dev, zlen buf = 11524 ->
  let P := raccoon128_params 2 in
  let calls := [call_sign msg buf; call_as_bytes bufk; call_verify msg2 sig2; call_get_pkey] in
  valid_public (Z.to_nat (p_kappa P / 8)) (p_k P) (pk_seed (sk_pkey ex_sk)) (pk_t (sk_pkey ex_sk)) /\
  masked_vec49 (p_l P) (p_d P) (sk_s ex_sk) /\ Forall (fun c => const_call c = true) calls /\
  let sched := concat (repeat (seq 0 4) (accesses P (call_sign msg buf))) in
  let c := mc_run dev (mc_start ex_G shake128 512 P ex_sk calls) sched in
  (forall i, (i < 4)%nat -> exists th, nth_error (mc_threads c) i = Some th /\ mc_answer th <> None) /\
  exists th sig, nth_error (mc_threads c) 0 = Some th /\ mc_answer th = Some (a_bytes (Ok sig)) /\ length (th_got th) = 8%nat.
Proof.
  intros msg msg2 sig2 buf bufk shake128 dev Lb P calls.
  assert (V : valid_public (Z.to_nat (p_kappa P / 8)) (p_k P) (pk_seed (sk_pkey ex_sk)) (pk_t (sk_pkey ex_sk))) by exact ex_sk_public.
  assert (M : masked_vec49 (p_l P) (p_d P) (sk_s ex_sk)) by (apply (masked_49 4 2); exact ex_sk_masked).
  assert (FC : Forall (fun c => const_call c = true) calls) by (repeat constructor).
  split; [exact V|]. split; [exact M|]. split; [exact FC|]. intros sched c.
  destruct (C77_const_calls_do_not_interfere ex_G shake128 512 P ex_sk calls dev sched ltac:(lia) V M FC) as (_ & _ & H). fold c in H.
  assert (CO : forall n i, (i < 4)%nat -> count_occ Nat.eq_dec (concat (repeat (seq 0 4) n)) i = n).
  { clear. induction n as [|n IH]; intros i Hi; [reflexivity|]. cbn [repeat concat]. rewrite count_occ_app, IH by exact Hi.
    destruct i as [|[|[|[|i]]]]; [reflexivity|reflexivity|reflexivity|reflexivity|exfalso; lia]. }
  assert (DONE : forall i cl, nth_error calls i = Some cl -> exists th, nth_error (mc_threads c) i = Some th /\ mc_answer th <> None /\
    (forall r, mc_answer th = Some r -> length (th_got th) = device_words cl /\ r = alone ex_G shake128 512 P ex_sk cl (map dev (th_got th)))).
  { intros i cl E. destruct (H i cl E) as (th & T & R & D). exists th. split; [exact T|]. split; [|exact R]. apply D.
    assert (Hi : (i < 4)%nat) by (change 4%nat with (length calls); apply nth_error_Some; rewrite E; discriminate).
    unfold sched. rewrite CO by exact Hi.
    unfold accesses. destruct i as [|[|[|[|i]]]]; [| | | |exfalso; clear - Hi; lia]; cbn [calls nth_error] in E; injection E as <-;
    generalize (p_l P * (p_d P * 512))%nat; generalize (p_k P * 512)%nat; generalize (Z.to_nat (p_kappa P / 8)); clear; intros; lia. }
  split.
  - intros i Hi. destruct (nth_error calls i) as [cl|] eqn:E; [|apply nth_error_None in E; change (length calls) with 4%nat in E; exfalso; clear - Hi E; lia].
    destruct (DONE i cl E) as (th & T & A & _). exists th. split; assumption.
  - destruct (DONE 0%nat (call_sign msg buf) eq_refl) as (th & T & A & R). destruct (mc_answer th) as [r|] eqn:EA; [|congruence].
    destruct (R r eq_refl) as [L Er]. cbn [alone device_words] in *.
    destruct (ex_sk_signs msg buf (shake128 (concat (map word4 (map dev (th_got th))))) Lb) as [sig Es]. fold P in Es. rewrite Es in Er.
    exists th, sig. rewrite EA, Er. split; [exact T|]. split; [reflexivity|exact L].
Qed.

(* a key object whose refresh changes share 0, so that the signing call of the race works with another
   polynomial *)
Example C77_race_nonvacuous : let sk := Skey (Pkey (repeat 200 16) (repeat [repeat 0 512] 5)) (sk_s ex_sk2) in
  p_d ex_P2 = (2 ^ 1)%nat /\ (0 < p_l ex_P2)%nat /\
  valid_public (Z.to_nat (p_kappa ex_P2 / 8)) (p_k ex_P2) (pk_seed (sk_pkey sk)) (pk_t (sk_pkey sk)) /\
  masked_vec49 (p_l ex_P2) (p_d ex_P2) (sk_s sk) /\
  exists sk', sk_refresh ex_O 512 ex_P2 sk = Ok sk' /\
    coef (nth 0 (nth 0 (sk_s sk) []) []) 1 = 101 /\ coef (nth 0 (nth 0 (sk_s sk') []) []) 1 = 102.
Proof.
  intros sk. split; [reflexivity|]. split; [cbn; lia|]. split; [apply const_public; [lia|split; [discriminate|reflexivity]|reflexivity]|].
  split; [apply C13_nonvacuous|].
  destruct (sk_refresh ex_O 512 ex_P2 sk) as [sk'| |] eqn:E.
  - exists sk'. split; [reflexivity|]. split; [reflexivity|].
    assert (X : match sk_refresh ex_O 512 ex_P2 sk with Ok sk' => nth 1 (nth 0 (nth 0 (sk_s sk') []) []) 0 | _ => 0 end = 102) by (vm_compute; reflexivity).
    rewrite E in X. exact X.
  - exfalso. assert (X : match sk_refresh ex_O 512 ex_P2 sk with UB => false | _ => true end = true) by (vm_compute; reflexivity).
    rewrite E in X. discriminate.
  - exfalso. assert (X : match sk_refresh ex_O 512 ex_P2 sk with OutOfFuel => false | _ => true end = true) by (vm_compute; reflexivity).
    rewrite E in X. discriminate.
Qed.
