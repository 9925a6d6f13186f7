(* The order of the stores made by the signature encoder. *)
From Coq Require Import ZArith Lia Bool List Arith.
From Coq Require Import ZifyBool ZifyNat.
From Verif Require Import ModelBase ModelU128 ModelField ModelUtils ModelPoly ModelVec ModelSerial ModelTrace.
From Verif Require Import Spec SpecScheme SpecTrace.
From Verif Require Import Words FieldProofs ArithLemmas BytesProofs PolyProofs PackProofs SkeyProofs SigEnc.
Import ListNotations.
Open Scope Z_scope.
Ltac Zify.zify_post_hook ::= idtac.

Lemma app_len_inv {A} : forall (a b c d : list A), length a = length b -> a ++ c = b ++ d -> a = b /\ c = d.
Proof.
  induction a as [|x a IH]; intros [|y b] c d L E; cbn [length] in L; try lia; [split; [reflexivity|exact E]|].
  cbn [app] in E. injection E as -> E. destruct (IH b c d ltac:(lia) E) as [-> ->]. split; reflexivity.
Qed.
(* ---------- forgetting the log ---------- *)
Definition drop {A B} (r : res (A * B)) : res A := '(a, _) <- r ;; Ok a.
Lemma flush_drop siglen st lg : drop (enc_flush_log siglen st lg) = enc_flush siglen st.
Proof.
  unfold drop, enc_flush_log, enc_flush. destruct (8 <=? e_bbo st); [|reflexivity]. cbv zeta. destruct (siglen <? _); [reflexivity|].
  destruct (put_le _ _ _ _) as [s| |]; [|reflexivity|reflexivity]. cbn [bind]. destruct (shr_chk _ _) as [b| |]; reflexivity.
Qed.
Lemma final_drop siglen st lg : drop (enc_final_log siglen st lg) = enc_final siglen st.
Proof.
  unfold drop, enc_final_log, enc_final. destruct (0 <? e_bbo st); [|reflexivity]. cbv zeta. destruct (siglen <? _); [reflexivity|].
  destruct (put_le _ _ _ _) as [s| |]; [|reflexivity|reflexivity]. cbn [bind]. destruct (shr_chk _ _) as [b| |]; reflexivity.
Qed.
Lemma loop_drop put siglen : forall xs st lg, drop (enc_loop_log put siglen xs st lg) = enc_loop put siglen xs st.
Proof.
  induction xs as [|x xs IH]; intros st lg; [reflexivity|]. cbn [enc_loop_log enc_loop]. rewrite <- (flush_drop siglen st lg).
  destruct (enc_flush_log siglen st lg) as [[[ok st1] lg1]| |]; [|reflexivity|reflexivity]. cbn [bind drop]. destruct ok; cbn [negb]; [|reflexivity].
  destruct (put st1 x) as [st2| |]; [|reflexivity|reflexivity]. cbn [bind]. apply IH.
Qed.
Lemma encode_drop c h z sig : drop (encode_sig_log c h z sig) = encode_sig c h z sig.
Proof.
  unfold encode_sig_log, encode_sig. cbv zeta. destruct (write_at sig 0 c) as [s| |]; [|reflexivity|reflexivity]. cbn [bind].
  rewrite <- (loop_drop enc_put_h (zlen sig) h _ (stores 0 c)). destruct (enc_loop_log enc_put_h _ h _ _) as [[[ok st] lg]| |]; [|reflexivity|reflexivity].
  cbn [bind drop]. destruct ok; cbn [negb]; [|reflexivity].
  rewrite <- (loop_drop enc_put_z (zlen sig) z st lg). destruct (enc_loop_log enc_put_z _ z _ _) as [[[ok st1] lg1]| |]; [|reflexivity|reflexivity].
  cbn [bind drop]. destruct ok; cbn [negb]; [|reflexivity].
  rewrite <- (final_drop (zlen sig) st1 lg1). destruct (enc_final_log _ st1 _) as [[[ok st2] lg2]| |]; [|reflexivity|reflexivity].
  cbn [bind drop]. destruct ok; cbn [negb]; [|reflexivity]. destruct (write_at _ _ _) as [s2| |]; reflexivity.
Qed.

(* ---------- replaying stores ---------- *)
Lemma set_nth_app a b v : forall x, set_nth (a ++ x :: b) (length a) v = a ++ v :: b.
Proof. induction a as [|y a IH]; intros x; [reflexivity|]. cbn [app length set_nth]. rewrite IH. reflexivity. Qed.
Lemma replay_app a b buf : replay (a ++ b) buf = replay b (replay a buf).
Proof. apply fold_left_app. Qed.
Lemma in_order_app a b : in_order (a ++ b) -> in_order a /\ map fst b = map Z.of_nat (seq (length a) (length b)).
Proof.
  unfold in_order. rewrite map_app, app_length, seq_app, map_app. intros E.
  apply app_len_inv in E; [exact E|]. rewrite !map_length, seq_length. reflexivity.
Qed.
Lemma in_order_firstn n lg : in_order lg -> in_order (firstn n lg).
Proof. intros H. rewrite <- (firstn_skipn n lg) in H. exact (proj1 (in_order_app _ _ H)). Qed.
Lemma replay_seq : forall lg pre buf, map fst lg = map Z.of_nat (seq (length pre) (length lg)) -> (length lg <= length buf)%nat ->
  replay lg (pre ++ buf) = pre ++ map snd lg ++ skipn (length lg) buf.
Proof.
  induction lg as [|[i v] lg IH]; intros pre buf E L; [reflexivity|]. destruct buf as [|x buf]; [cbn [length] in L; lia|].
  cbn [map fst length seq] in E. pose proof (f_equal (hd 0) E) as E1. pose proof (f_equal (@tl Z) E) as E2. cbn [hd tl] in E1, E2.
  unfold replay. cbn [fold_left fst snd]. rewrite E1, Nat2Z.id, set_nth_app. fold (replay lg (pre ++ v :: buf)).
  change (pre ++ v :: buf) with (pre ++ [v] ++ buf). rewrite app_assoc. rewrite IH.
  - cbn [length skipn map snd]. rewrite <- app_assoc. reflexivity.
  - rewrite app_length. cbn [length]. rewrite Nat.add_1_r. exact E2.
  - cbn [length] in L. lia.
Qed.
Lemma replay_in_order lg buf : in_order lg -> (length lg <= length buf)%nat -> replay lg buf = map snd lg ++ skipn (length lg) buf.
Proof. intros H L. exact (replay_seq lg [] buf H L). Qed.

(* ---------- invariant ---------- *)
Lemma stores_fst off v : map fst (stores off v) = map (fun i => off + Z.of_nat i) (seq 0 (length v)).
Proof.
  unfold stores. assert (L : length (map (fun i => off + Z.of_nat i) (seq 0 (length v))) = length v) by (rewrite map_length; apply seq_length).
  revert L. generalize (map (fun i => off + Z.of_nat i) (seq 0 (length v))). induction v as [|x v IH]; intros [|y l] L; try discriminate L; [reflexivity|].
  cbn [combine map fst]. rewrite IH; [reflexivity|]. cbn [length] in L. lia.
Qed.
Lemma stores_snd off v : map snd (stores off v) = v.
Proof.
  unfold stores. assert (L : length (map (fun i => off + Z.of_nat i) (seq 0 (length v))) = length v) by (rewrite map_length; apply seq_length).
  revert L. generalize (map (fun i => off + Z.of_nat i) (seq 0 (length v))). induction v as [|x v IH]; intros [|y l] L; try discriminate L; [reflexivity|].
  cbn [combine map snd]. rewrite IH; [reflexivity|]. cbn [length] in L. lia.
Qed.
Lemma stores_length off v : length (stores off v) = length v.
Proof. rewrite <- (stores_snd off v) at 2. rewrite map_length. reflexivity. Qed.
Lemma seq_plus_map n : forall m k, map (fun i => Z.of_nat n + Z.of_nat i) (seq k m) = map Z.of_nat (seq (n + k) m).
Proof.
  induction m as [|m IH]; intros k; [reflexivity|]. cbn [seq map]. rewrite IH, <- plus_n_Sm. f_equal. lia.
Qed.
Lemma stores_order lg off v : in_order lg -> off = zlen lg -> in_order (lg ++ stores off v).
Proof.
  unfold in_order. intros H ->. rewrite map_app, app_length, stores_length, seq_app, map_app, H. f_equal. rewrite stores_fst. unfold zlen.
  rewrite seq_plus_map, Nat.add_0_r. reflexivity.
Qed.
Definition log_ok (buf out : list Z) (lg : list store) : Prop :=
  in_order lg /\ (length lg <= length buf)%nat /\ out = map snd lg ++ skipn (length lg) buf.
Definition pinv (siglen : Z) (buf : list Z) (bs : list bool) (st : enc) (lg : list store) : Prop :=
  log_ok buf (e_sig st) lg /\ e_off st = zlen lg /\ (exists t, bits_of_bytes (map snd lg) ++ t = bs) /\ (einv siglen bs st \/ ebad st).
Lemma pinv_mk siglen buf bs st lg : log_ok buf (e_sig st) lg -> e_off st = zlen lg -> einv siglen bs st -> pinv siglen buf bs st lg.
Proof.
  intros L E I. split; [exact L|]. split; [exact E|]. split; [|left; exact I]. destruct I as (wr & rest & E1 & E2 & _ & _ & _ & _ & EB).
  destruct L as (_ & _ & EO). rewrite E1 in EO. assert (LW : length wr = length (map snd lg)) by (rewrite map_length; unfold zlen in *; lia).
  destruct (app_len_inv _ _ _ _ LW EO) as [-> _]. eexists. symmetry. exact EB.
Qed.
Lemma skipn_add {A} : forall n m (l : list A), skipn m (skipn n l) = skipn (n + m) l.
Proof. induction n as [|n IH]; intros m l; [reflexivity|]. destruct l as [|x l]; [cbn [skipn Nat.add]; apply skipn_nil|]. cbn [skipn Nat.add]. apply IH. Qed.
(* a put_le at the end of the log *)
Lemma put_le_log buf out lg n b out' : log_ok buf out lg -> 0 <= n <= 8 -> put_le out (zlen lg) n b = Ok out' ->
  log_ok buf out' (lg ++ put_le_stores (zlen lg) n b) /\ zlen (lg ++ put_le_stores (zlen lg) n b) = zlen lg + n.
Proof.
  intros (O1 & O2 & EO) Hn E. unfold put_le_stores. rewrite Nat.min_r by lia.
  assert (LV : length (map (fun i => shr64 b (8 * Z.of_nat i) mod 256) (seq 0 (Z.to_nat n))) = Z.to_nat n) by (rewrite map_length; apply seq_length).
  unfold put_le in E. destruct (subspan out (zlen lg) n) as [sp| |] eqn:ES; cbn [bind] in E; [|discriminate E|discriminate E].
  unfold subspan in ES. destruct ((0 <=? zlen lg) && (0 <=? n) && (zlen lg + n <=? zlen out)) eqn:C; [|discriminate ES].
  assert (ESP : sp = firstn (Z.to_nat n) (skipn (Z.to_nat (zlen lg)) out)) by congruence. clear ES.
  assert (LO : length out = length buf). { rewrite EO, app_length, map_length, skipn_length. lia. }
  assert (LL : (length lg + Z.to_nat n <= length buf)%nat) by (unfold zlen in *; lia).
  assert (LSP : length sp = Z.to_nat n) by (rewrite ESP, firstn_length, skipn_length; unfold zlen; lia).
  unfold to_le_bytes in E. rewrite LSP, Nat.min_r in E by lia. rewrite skipn_all2 in E by lia. rewrite app_nil_r in E.
  set (v := map (fun i => shr64 b (8 * Z.of_nat i) mod 256) (seq 0 (Z.to_nat n))) in *. clearbody v.
  unfold write_at in E. destruct (_ && _) in E; [|discriminate E]. assert (EO' : out' = firstn (Z.to_nat (zlen lg)) out ++ v ++ skipn (Z.to_nat (zlen lg) + length v) out) by congruence. clear E.
  split.
  - split; [apply stores_order; [exact O1|reflexivity]|]. rewrite app_length, stores_length, LV. split; [exact LL|].
    rewrite map_app, stores_snd, <- app_assoc, EO'. unfold zlen. rewrite Nat2Z.id. f_equal.
    + rewrite EO, firstn_app, map_length, Nat.sub_diag. cbn [firstn]. rewrite app_nil_r. apply firstn_all2. rewrite map_length. lia.
    + f_equal. rewrite EO, skipn_app, map_length. rewrite (skipn_all2 (map snd lg)) by (rewrite map_length; lia). cbn [app].
      rewrite skipn_add. f_equal. lia.
  - unfold zlen in *. rewrite app_length, stores_length, LV. lia.
Qed.

Lemma enc_put_h_keeps st x st' : enc_put_h st x = Ok st' -> e_sig st' = e_sig st /\ e_off st' = e_off st.
Proof.
  unfold enc_put_h. intros E. apply bind_ok_inv in E. destruct E as (a & _ & E). apply bind_ok_inv in E. destruct E as (o & _ & E). cbv zeta in E.
  destruct (0 <? x); [|destruct (x <? 0)]; repeat (apply bind_ok_inv in E; destruct E as (? & _ & E)); apply ok_inj in E; subst st'; split; reflexivity.
Qed.
Lemma enc_put_z_keeps st x st' : enc_put_z st x = Ok st' -> e_sig st' = e_sig st /\ e_off st' = e_off st.
Proof.
  unfold enc_put_z. intros E. apply bind_ok_inv in E. destruct E as (a & _ & E). cbv zeta in E. apply bind_ok_inv in E. destruct E as (v & _ & E). apply bind_ok_inv in E. destruct E as (o & _ & E).
  destruct (0 <? x); [|destruct (x <? 0)]; repeat (apply bind_ok_inv in E; destruct E as (? & _ & E)); apply ok_inj in E; subst st'; split; reflexivity.
Qed.
Lemma flush_log siglen buf bs st lg : pinv siglen buf bs st lg ->
  match enc_flush_log siglen st lg with
  | Ok (true, st', lg') => pinv siglen buf bs st' lg' /\ einv siglen bs st' /\ e_bbo st' < 8
  | Ok (false, st', lg') => st' = st /\ lg' = lg
  | _ => True
  end.
Proof.
  intros (L & EO & T & I). destruct I as [I|B].
  - destruct (enc_flush_ok siglen bs st I) as [[E _]|(st1 & E & I1 & B1 & _)]; rewrite <- (flush_drop siglen st lg) in E; unfold drop in E.
    + unfold enc_flush_log in *. destruct (8 <=? e_bbo st); [|exact Logic.I || (cbn [bind] in E; discriminate E)]. cbv zeta in *. destruct (siglen <? _); [split; reflexivity|].
      destruct (put_le _ _ _ _) as [s| |]; cbn [bind] in *; try exact Logic.I. destruct (shr_chk _ _) as [b| |]; cbn [bind] in *; try exact Logic.I. discriminate E.
    + destruct (enc_flush_log siglen st lg) as [[[ok st2] lg2]| |] eqn:E2; cbn [bind] in E; [|exact Logic.I|exact Logic.I].
      assert (Eok : ok = true /\ st2 = st1) by (apply ok_inj in E; split; congruence). destruct Eok as [-> ->].
      split; [|split; assumption]. apply pinv_mk; [| |exact I1]; unfold enc_flush_log in E2; destruct (8 <=? e_bbo st) eqn:C.
      * cbv zeta in E2. destruct (siglen <? _); [discriminate E2|]. apply bind_ok_inv in E2. destruct E2 as (s & EP & E2). apply bind_ok_inv in E2. destruct E2 as (b & _ & E2). apply ok_inj in E2.
        injection E2 as <- <-. cbn [e_sig]. rewrite EO in EP |- *. 
        assert (B8 : 0 <= align8 (e_bbo st) / 8 <= 8). { destruct I as (wr & rest & _ & _ & _ & _ & BB & _). destruct (align_div (e_bbo st)) as [_ ->]; [change (2 ^ 40) with 1099511627776; lia|]. pose proof (div8_bounds (e_bbo st) ltac:(lia)). lia. }
        exact (proj1 (put_le_log _ _ _ _ _ _ L B8 EP)).
      * apply ok_inj in E2. injection E2 as <- <-. exact L.
      * cbv zeta in E2. destruct (siglen <? _); [discriminate E2|]. apply bind_ok_inv in E2. destruct E2 as (s & EP & E2). apply bind_ok_inv in E2. destruct E2 as (b & _ & E2). apply ok_inj in E2.
        injection E2 as <- <-. cbn [e_off]. rewrite EO in EP |- *.
        assert (B8 : 0 <= align8 (e_bbo st) / 8 <= 8). { destruct I as (wr & rest & _ & _ & _ & _ & BB & _). destruct (align_div (e_bbo st)) as [_ ->]; [change (2 ^ 40) with 1099511627776; lia|]. pose proof (div8_bounds (e_bbo st) ltac:(lia)). lia. }
        symmetry. exact (proj2 (put_le_log _ _ _ _ _ _ L B8 EP)).
      * apply ok_inj in E2. injection E2 as <- <-. exact EO.
  - pose proof (enc_flush_bad siglen st B) as E. rewrite <- (flush_drop siglen st lg) in E. unfold drop, enc_flush_log in *. unfold ebad in B. replace (8 <=? e_bbo st) with true in * by lia. cbv zeta in *.
    destruct (siglen <? _); [split; reflexivity|]. destruct (put_le _ _ _ _) as [s| |]; cbn [bind] in *; try exact Logic.I. destruct (shr_chk _ _) as [b| |]; cbn [bind] in *; try exact Logic.I.
    destruct E as [E|E]; discriminate E.
Qed.
(* what holds when the encoder stops with [out] in the buffer, bs being all code bits *)
Definition stopped (buf out : list Z) (bs : list bool) (lg : list store) : Prop :=
  log_ok buf out lg /\ exists t, bits_of_bytes (map snd lg) ++ t = bs.
Section Loop.
Variables (put : enc -> Z -> res enc) (code : Z -> list bool).
Hypothesis PS : put_spec put code.
Hypothesis PK : forall st x st', put st x = Ok st' -> e_sig st' = e_sig st /\ e_off st' = e_off st.
Lemma loop_log siglen buf : forall xs bs st lg, pinv siglen buf bs st lg ->
  match enc_loop_log put siglen xs st lg with
  | Ok (true, st', lg') => pinv siglen buf (bs ++ codes_of code xs) st' lg'
  | Ok (false, st', lg') => stopped buf (e_sig st') (bs ++ codes_of code xs) lg'
  | _ => True
  end.
Proof.
  induction xs as [|x xs IH]; intros bs st lg I.
  - cbn [enc_loop_log]. unfold codes_of. cbn [map concat]. rewrite app_nil_r. exact I.
  - cbn [enc_loop_log]. rewrite codes_of_cons. pose proof (flush_log siglen buf bs st lg I) as F.
    destruct (enc_flush_log siglen st lg) as [[[ok st1] lg1]| |]; cbn [bind]; [|exact Logic.I|exact Logic.I]. destruct ok; cbn [negb].
    + destruct F as ((L1 & O1 & (t & T1) & _) & I1 & B1). pose proof (PS siglen bs st1 x I1 B1) as P.
      assert (ST2 : forall st2, put st1 x = Ok st2 -> (einv siglen (bs ++ code x) st2 \/ ebad st2) -> pinv siglen buf (bs ++ code x) st2 lg1).
      { intros st2 E2 C. destruct (PK _ _ _ E2) as [K1 K2]. split; [rewrite K1; exact L1|]. split; [rewrite K2; exact O1|]. split; [|exact C].
        exists (t ++ code x). rewrite app_assoc, T1. reflexivity. }
      assert (GO : forall st2, put st1 x = Ok st2 -> (einv siglen (bs ++ code x) st2 \/ ebad st2) ->
        match enc_loop_log put siglen xs st2 lg1 with
        | Ok (true, st', lg') => pinv siglen buf (bs ++ code x ++ codes_of code xs) st' lg'
        | Ok (false, st', lg') => stopped buf (e_sig st') (bs ++ code x ++ codes_of code xs) lg'
        | _ => True end).
      { intros st2 E2 C. rewrite app_assoc. exact (IH _ _ _ (ST2 st2 E2 C)). }
      destruct (_ <=? 63).
      * destruct P as (st2 & E2 & I2 & _). specialize (GO st2 E2 (or_introl I2)). rewrite E2. exact GO.
      * destruct P as [->|(st2 & E2 & B2)]; [exact Logic.I|]. specialize (GO st2 E2 (or_intror B2)). rewrite E2. exact GO.
    + destruct F as [-> ->]. destruct I as (L & _ & (t & T) & _). split; [exact L|]. exists (t ++ code x ++ codes_of code xs). rewrite app_assoc, T. reflexivity.
Qed.
End Loop.
Lemma final_log siglen buf bs st lg : pinv siglen buf bs st lg ->
  match enc_final_log siglen st lg with
  | Ok (true, st', lg') => log_ok buf (e_sig st') lg' /\ e_off st' = zlen lg' /\ exists n, bits_of_bytes (map snd lg') = bs ++ repeat false n
  | Ok (false, st', lg') => st' = st /\ lg' = lg
  | _ => True
  end.
Proof.
  intros (L & EO & T & I). destruct I as [I|B].
  - destruct (Z.eq_dec (e_bbo st) 0) as [E0|N0].
    + unfold enc_final_log. rewrite E0. change (0 <? 0) with false. cbv iota. split; [exact L|]. split; [exact EO|]. exists 0%nat. cbn [repeat]. rewrite app_nil_r.
      destruct I as (wr & rest & E1 & E2 & _ & _ & _ & _ & EB). rewrite E0 in EB. cbn [Z.to_nat bits_of] in EB. rewrite app_nil_r in EB. rewrite EB. f_equal.
      destruct L as (_ & _ & EO'). rewrite E1 in EO'. assert (LW : length wr = length (map snd lg)) by (rewrite map_length; unfold zlen in *; lia).
      symmetry. exact (proj1 (app_len_inv _ _ _ _ LW EO')).
    + assert (Hb : 0 < e_bbo st) by (destruct I as (wr & rest & _ & _ & _ & _ & BB & _); lia).
      pose proof (enc_final_ok siglen bs st I Hb) as FN. rewrite <- (final_drop siglen st lg) in FN.
      assert (KEY : forall st' lg', enc_final_log siglen st lg = Ok (true, st', lg') -> log_ok buf (e_sig st') lg' /\ e_off st' = zlen lg').
      { intros st' lg' E2. unfold enc_final_log in E2. replace (0 <? e_bbo st) with true in E2 by lia. cbv zeta in E2. destruct (siglen <? _); [discriminate E2|].
        apply bind_ok_inv in E2. destruct E2 as (s & EP & E2). apply bind_ok_inv in E2. destruct E2 as (b & EQ & E2). apply ok_inj in E2. injection E2 as <- <-. cbn [e_sig e_off].
        rewrite EO in EP |- *.
        assert (B8 : 0 <= align8 (e_bbo st + 7) / 8 <= 8). { destruct I as (wr & rest & _ & _ & _ & _ & BB & _). destruct (align_div (e_bbo st + 7)) as [_ ->]; [change (2 ^ 40) with 1099511627776; lia|]. pose proof (div8_bounds (e_bbo st + 7) ltac:(lia)). lia. }
        pose proof (put_le_log _ _ _ _ _ _ L B8 EP) as [P1 P2]. split; [exact P1|symmetry; exact P2]. }
      destruct (enc_final_log siglen st lg) as [[[ok st2] lg2]| |] eqn:E2; [|exact Logic.I|exact Logic.I]. unfold drop in FN. cbn [bind] in FN.
      destruct ok.
      * destruct (KEY _ _ eq_refl) as [K1 K2]. split; [exact K1|]. split; [exact K2|].
        destruct (e_bbo st <=? 56); [|exfalso; apply (proj2 FN st2); reflexivity].
        destruct FN as [[FN _]|(st3 & wr & rest & n & FN & E3 & E4 & _ & _ & _ & FB)]; [discriminate (f_equal (fun r => match r with Ok (b, _) => b | _ => true end) FN)|].
        assert (E5 : st2 = st3) by (apply ok_inj in FN; congruence). subst st3. exists n. rewrite <- FB. f_equal.
        destruct K1 as (_ & _ & EO'). rewrite E3 in EO'. assert (LW : length wr = length (map snd lg2)) by (rewrite map_length; unfold zlen in *; lia).
        symmetry. exact (proj1 (app_len_inv _ _ _ _ LW EO')).
      * unfold enc_final_log in E2. destruct (0 <? e_bbo st); [|discriminate E2]. cbv zeta in E2. destruct (siglen <? _); [split; congruence|].
        apply bind_ok_inv in E2. destruct E2 as (s & EP & E2). apply bind_ok_inv in E2. destruct E2 as (b & EQ & E2). discriminate E2.
  - destruct (enc_final_bad siglen st B) as [_ NT]. rewrite <- (final_drop siglen st lg) in NT.
    destruct (enc_final_log siglen st lg) as [[[ok st2] lg2]| |] eqn:E2; [|exact Logic.I|exact Logic.I]. destruct ok; [exfalso; apply (NT st2); reflexivity|].
    unfold enc_final_log in E2. destruct (0 <? e_bbo st); [|discriminate E2]. cbv zeta in E2. destruct (siglen <? _); [split; congruence|].
    apply bind_ok_inv in E2. destruct E2 as (s & EP & E2). apply bind_ok_inv in E2. destruct E2 as (b & EQ & E2). discriminate E2.
Qed.
(* the stores of one encoding *)
Lemma encode_log c h z buf ok out lg : Forall is_byte c -> zlen c <= zlen buf -> encode_sig_log c h z buf = Ok (ok, out, lg) ->
  log_ok buf out lg /\ begins_encoding c h z (map snd lg) /\ (ok = true -> length lg = length buf).
Proof.
  intros Bc Lc E. unfold encode_sig_log in E. cbv zeta in E.
  assert (W0 : write_at buf 0 c = Ok (c ++ skipn (length c) buf)).
  { unfold write_at. cbn [Z.add]. replace ((0 <=? 0) && _) with true by lia. reflexivity. }
  rewrite W0 in E. cbn [bind] in E.
  assert (P0 : pinv (zlen buf) buf (bits_of_bytes c) (Enc (c ++ skipn (length c) buf) (zlen c) 0 0) (stores 0 c)).
  { apply pinv_mk; cbn [e_sig e_off].
    - split; [|rewrite stores_length, stores_snd; split; [unfold zlen in *; lia|reflexivity]].
      change (stores 0 c) with ([] ++ stores (zlen (@nil (Z * Z))) c). apply stores_order; reflexivity.
    - unfold zlen. rewrite stores_length. reflexivity.
    - exists c, (skipn (length c) buf). cbn [e_sig e_off e_buf e_bbo]. repeat apply conj; try reflexivity; try assumption; try lia.
      + unfold zlen in *. rewrite skipn_length. lia.
      + cbn [Z.to_nat bits_of]. rewrite app_nil_r. reflexivity. }
  pose proof (loop_log enc_put_h code_h enc_put_h_spec enc_put_h_keeps (zlen buf) buf h _ _ _ P0) as P1.
  destruct (enc_loop_log enc_put_h (zlen buf) h _ _) as [[[ok1 st1] lg1]| |]; cbn [bind] in E; [|discriminate E|discriminate E].
  assert (ST : forall bs out lg t, stopped buf out bs lg -> bits_of_bytes c ++ sig_code h z = bs ++ t -> log_ok buf out lg /\ begins_encoding c h z (map snd lg)).
  { intros bs out0 lg0 t [L [u U]] EB. split; [exact L|]. exists (u ++ t), 0%nat. cbn [repeat]. rewrite app_nil_r, EB, app_assoc, U. reflexivity. }
  assert (EC : sig_code h z = codes_of code_h h ++ codes_of code_z z) by reflexivity.
  destruct ok1; cbn [negb] in E.
  2:{ assert (X : false = ok /\ e_sig st1 = out /\ lg1 = lg) by (apply ok_inj in E; split; [|split]; congruence). destruct X as (<- & <- & <-).
      destruct (ST _ _ _ (codes_of code_z z) P1) as [A1 A2]; [rewrite EC, app_assoc; reflexivity|]. split; [exact A1|]. split; [exact A2|discriminate]. }
  pose proof (loop_log enc_put_z code_z enc_put_z_spec enc_put_z_keeps (zlen buf) buf z _ _ _ P1) as P2. rewrite <- app_assoc, <- EC in P2.
  destruct (enc_loop_log enc_put_z (zlen buf) z _ _) as [[[ok2 st2] lg2]| |]; cbn [bind] in E; [|discriminate E|discriminate E].
  destruct ok2; cbn [negb] in E.
  2:{ assert (X : false = ok /\ e_sig st2 = out /\ lg2 = lg) by (apply ok_inj in E; split; [|split]; congruence). destruct X as (<- & <- & <-).
      destruct (ST _ _ _ [] P2) as [A1 A2]; [rewrite app_nil_r; reflexivity|]. split; [exact A1|]. split; [exact A2|discriminate]. }
  pose proof (final_log (zlen buf) buf _ st2 lg2 P2) as P3.
  destruct (enc_final_log (zlen buf) st2 lg2) as [[[ok3 st3] lg3]| |]; cbn [bind] in E; [|discriminate E|discriminate E].
  destruct ok3; cbn [negb] in E.
  2:{ assert (X : false = ok /\ e_sig st3 = out /\ lg3 = lg) by (apply ok_inj in E; split; [|split]; congruence). destruct X as (<- & <- & <-). destruct P3 as [-> ->].
      destruct P2 as (A1 & _ & A2 & _). destruct (ST _ _ _ [] (conj A1 A2)) as [A3 A4]; [rewrite app_nil_r; reflexivity|]. split; [exact A3|]. split; [exact A4|discriminate]. }
  destruct P3 as ((O1 & O2 & O3) & EO & n & EB). apply bind_ok_inv in E. destruct E as (s & EW & E).
  assert (X : true = ok /\ s = out /\ lg3 ++ stores (e_off st3) (repeat 0 (Z.to_nat (zlen buf - e_off st3))) = lg) by (apply ok_inj in E; split; [|split]; congruence). clear E. destruct X as (<- & <- & <-).
  assert (LR : Z.to_nat (zlen buf - e_off st3) = (length buf - length lg3)%nat) by (rewrite EO; unfold zlen; lia).
  rewrite LR in *. rewrite EO in *. set (m := (length buf - length lg3)%nat) in *.
  assert (LT : length (lg3 ++ stores (zlen lg3) (repeat 0 m)) = length buf) by (rewrite app_length, stores_length, repeat_length; unfold m; lia).
  split; [split; [apply stores_order; [exact O1|reflexivity]|split; [lia|]]|split; [|intros _; exact LT]].
  - rewrite LT, skipn_all, app_nil_r, map_app, stores_snd. unfold write_at in EW. destruct (_ && _) in EW; [|discriminate EW].
    apply ok_inj in EW. rewrite <- EW. unfold zlen. rewrite Nat2Z.id, repeat_length. rewrite O3 at 1 2.
    rewrite firstn_app, map_length, Nat.sub_diag. cbn [firstn]. rewrite app_nil_r. rewrite firstn_all2 by (rewrite map_length; lia).
    f_equal. rewrite skipn_all2 by (rewrite app_length, map_length, skipn_length; unfold m; lia). apply app_nil_r.
  - exists [], (n + 8 * m)%nat. rewrite app_nil_r, map_app, stores_snd, bits_of_bytes_app, EB, bits_of_bytes_zero, repeat_app, <- !app_assoc. reflexivity.
Qed.
