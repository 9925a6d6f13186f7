(* The signature encoder: exact condition for undefined behaviour. *)
From Coq Require Import ZArith Lia Bool List Arith.
From Coq Require Import ZifyBool ZifyNat.
From Verif Require Import ModelBase ModelU128 ModelField ModelUtils ModelPoly ModelVec ModelSerial.
From Verif Require Import Spec SpecScheme SpecEnc.
From Verif Require Import Words FieldProofs ArithLemmas BytesProofs PolyProofs PackProofs SkeyProofs SigEnc.
Import ListNotations.
Open Scope Z_scope.
Ltac Zify.zify_post_hook ::= idtac.

Definition put_w (st : enc) (w : word) : res enc := if fst w then enc_put_h st (snd w) else enc_put_z st (snd w).
Definition wlen (w : word) : Z := Z.of_nat (length (code_word w)).
Definition wcodes (ws : list word) : list bool := concat (map code_word ws).
Fixpoint loop_w (siglen : Z) (ws : list word) (st : enc) : res (bool * enc) :=
  match ws with
  | [] => Ok (true, st)
  | w :: ws' =>
      '(ok, st) <- enc_flush siglen st ;;
      if negb ok then Ok (false, st) else st <- put_w st w ;; loop_w siglen ws' st
  end.
Lemma loop_w_app siglen a b : forall st, loop_w siglen (a ++ b) st =
  ('(ok, st) <- loop_w siglen a st ;; if negb ok then Ok (false, st) else loop_w siglen b st).
Proof.
  induction a as [|x a IH]; intros st; [reflexivity|]. cbn [app loop_w].
  destruct (enc_flush siglen st) as [[ok st1]| |]; [|reflexivity|reflexivity]. cbn [bind]. destruct ok; [cbn [negb]|reflexivity].
  destruct (put_w st1 x) as [st2| |]; [|reflexivity|reflexivity]. cbn [bind]. apply IH.
Qed.
Lemma loop_w_h siglen : forall h st, loop_w siglen (map (pair true) h) st = enc_loop enc_put_h siglen h st.
Proof.
  induction h as [|x h IH]; intros st; [reflexivity|]. cbn [map loop_w enc_loop].
  destruct (enc_flush siglen st) as [[ok st1]| |]; [|reflexivity|reflexivity]. cbn [bind]. destruct ok; [cbn [negb]|reflexivity].
  unfold put_w. cbn [fst snd]. destruct (enc_put_h st1 x) as [st2| |]; [|reflexivity|reflexivity]. cbn [bind]. apply IH.
Qed.
Lemma loop_w_z siglen : forall h st, loop_w siglen (map (pair false) h) st = enc_loop enc_put_z siglen h st.
Proof.
  induction h as [|x h IH]; intros st; [reflexivity|]. cbn [map loop_w enc_loop].
  destruct (enc_flush siglen st) as [[ok st1]| |]; [|reflexivity|reflexivity]. cbn [bind]. destruct ok; [cbn [negb]|reflexivity].
  unfold put_w. cbn [fst snd]. destruct (enc_put_z st1 x) as [st2| |]; [|reflexivity|reflexivity]. cbn [bind]. apply IH.
Qed.
(* the encoder after the challenge hash has been copied *)
Definition enc_tail (siglen : Z) (ws : list word) (st : enc) : res (bool * list Z) :=
  '(ok, st) <- loop_w siglen ws st ;;
  if negb ok then Ok (false, e_sig st)
  else '(ok, st) <- enc_final siglen st ;;
       if negb ok then Ok (false, e_sig st)
       else sig <- write_at (e_sig st) (e_off st) (repeat 0 (Z.to_nat (siglen - e_off st))) ;; Ok (true, sig).
Lemma encode_tail c h z sig : encode_sig c h z sig =
  (s <- write_at sig 0 c ;; enc_tail (zlen sig) (words h z) (Enc s (zlen c) 0 0)).
Proof.
  unfold encode_sig. cbv zeta. destruct (write_at sig 0 c) as [s| |]; [|reflexivity|reflexivity]. cbn [bind].
  unfold enc_tail, words. rewrite loop_w_app, loop_w_h.
  destruct (enc_loop enc_put_h (zlen sig) h _) as [[ok st]| |]; [|reflexivity|reflexivity]. cbn [bind]. destruct ok; cbn [negb]; [|reflexivity].
  rewrite loop_w_z. reflexivity.
Qed.

Lemma put_w_spec siglen bs st w : einv siglen bs st -> e_bbo st < 8 -> e_bbo st + wlen w <= 63 ->
  exists st', put_w st w = Ok st' /\ einv siglen (bs ++ code_word w) st'.
Proof.
  intros I H L. destruct w as [[|] x]; unfold put_w, wlen, code_word in *; cbn [fst snd] in *.
  - pose proof (enc_put_h_spec siglen bs st x I H) as P. unfold clen in P. replace (_ <=? 63) with true in P by lia.
    destruct P as (st' & E & J & _). exists st'. split; assumption.
  - pose proof (enc_put_z_spec siglen bs st x I H) as P. unfold clen in P. replace (_ <=? 63) with true in P by lia.
    destruct P as (st' & E & J & _). exists st'. split; assumption.
Qed.
Definition too_long_b (w : word) : bool := if fst w then 64 <=? Z.abs (snd w) else 2 ^ 46 <=? Z.abs (snd w).
Lemma too_long_iff w : too_long w <-> too_long_b w = true.
Proof. destruct w as [[|] x]; unfold too_long, too_long_b; cbn [fst snd]; lia. Qed.
Lemma shl_chk_UB a n : 64 <= n -> shl_chk a n = UB.
Proof. intros H. unfold shl_chk. replace ((0 <=? n) && (n <? 64)) with false by lia. reflexivity. Qed.
Lemma shr40 x : Z.shiftr x 40 = x / 2 ^ 40.
Proof. apply Z.shiftr_div_pow2. lia. Qed.
Lemma put_w_over st w : 0 <= e_bbo st < 8 -> 64 <= e_bbo st + wlen w ->
  if too_long_b w then put_w st w = UB
  else exists st', put_w st w = Ok st' /\ e_bbo st' = e_bbo st + wlen w /\ e_off st' = e_off st /\ e_bbo st' < 2 ^ 30.
Proof.
  intros H L. destruct w as [[|] x]; unfold put_w, wlen, too_long_b, code_word in *; cbn [fst snd] in *.
  - fold (clen code_h x) in *. rewrite clen_h in *. destruct (64 <=? Z.abs x) eqn:C.
    + unfold enc_put_h. destruct (abs_chk_cases x) as [[-> _]| ->]; [reflexivity|]. cbn [bind]. rewrite shl_chk_UB by lia. reflexivity.
    + destruct (x =? 0) eqn:E0; [exfalso; lia|]. unfold enc_put_h. destruct (abs_chk_cases x) as [[_ Hx]| ->]; [unfold two63 in Hx; exfalso; lia|]. cbn [bind].
      rewrite !(shl_chk_Ok _ (Z.abs x)) by lia. cbn [bind]. change (2 ^ 30) with 1073741824.
      destruct (0 <? x) eqn:E1; [|destruct (x <? 0) eqn:E2; [|lia]]; rewrite shl_chk_Ok by lia; cbn [bind]; eexists; (split; [reflexivity|]); cbn [e_bbo e_off]; (split; [lia|]); (split; [reflexivity|lia]).
  - fold (clen code_z x) in *. rewrite clen_z in *. unfold enc_put_z.
    assert (D0 : 0 <= Z.abs x / 2 ^ 40) by (apply Z.div_pos; [lia|reflexivity]).
    destruct (2 ^ 46 <=? Z.abs x) eqn:C.
    + destruct (abs_chk_cases x) as [[-> _]| ->]; [reflexivity|]. cbn [bind]. rewrite shr40.
      assert (64 <= Z.abs x / 2 ^ 40) by (apply Z.div_le_lower_bound; [reflexivity|]; change (2 ^ 40 * 64) with (2 ^ 46); lia).
      rewrite (shl_chk_Ok _ (e_bbo st)) by lia. cbn [bind]. rewrite shl_chk_UB by lia. reflexivity.
    + destruct (x =? 0) eqn:E0; [exfalso; lia|]. destruct (abs_chk_cases x) as [[_ Hx]| ->].
      { exfalso. rewrite Hx in C. revert C. vm_compute. discriminate. }
      cbn [bind]. rewrite !shr40.
      assert (Z.abs x / 2 ^ 40 < 64) by (apply Z.div_lt_upper_bound; [reflexivity|]; change (2 ^ 40 * 64) with (2 ^ 46); lia).
      set (b := Z.abs x / 2 ^ 40) in *. clearbody b. change (2 ^ 30) with 1073741824.
      rewrite (shl_chk_Ok _ (e_bbo st)) by lia. cbn [bind]. rewrite !(shl_chk_Ok _ b) by lia. cbn [bind].
      destruct (0 <? x) eqn:E1; [|destruct (x <? 0) eqn:E2; [|lia]]; rewrite shl_chk_Ok by lia; cbn [bind]; eexists; (split; [reflexivity|]); cbn [e_bbo e_off]; (split; [lia|]); (split; [reflexivity|lia]).
Qed.
Lemma put_le_not_fuel l o n v : put_le l o n v <> OutOfFuel.
Proof.
  unfold put_le. destruct (subspan _ _ _) as [sp| |] eqn:E; [|discriminate|unfold subspan in E; destruct (_ && _); discriminate].
  cbn [bind]. destruct (write_at _ _ _) as [sp'| |] eqn:E'; [discriminate|discriminate|unfold write_at in E'; destruct (_ && _); discriminate].
Qed.
Lemma flush_over siglen st : 64 <= e_bbo st < 2 ^ 30 ->
  enc_flush siglen st = if siglen <? e_off st + e_bbo st / 8 then Ok (false, st) else UB.
Proof.
  intros B. unfold enc_flush. replace (8 <=? e_bbo st) with true by lia.
  destruct (align_div (e_bbo st)) as [A1 A2]; [change (2 ^ 40) with 1099511627776; change (2 ^ 30) with 1073741824 in B; lia|]. rewrite A2, A1.
  pose proof (div8_bounds (e_bbo st) ltac:(lia)) as D. destruct (siglen <? _); [reflexivity|].
  destruct (put_le _ _ _ _) as [s| |] eqn:E; [|reflexivity|exfalso; exact (put_le_not_fuel _ _ _ _ E)]. cbn [bind].
  unfold shr_chk. replace ((0 <=? _) && (_ <? 64)) with false by lia. reflexivity.
Qed.
Lemma final_over siglen st : 57 <= e_bbo st < 2 ^ 30 ->
  enc_final siglen st = if siglen <? e_off st + (e_bbo st + 7) / 8 then Ok (false, st) else UB.
Proof.
  intros B. unfold enc_final. replace (0 <? e_bbo st) with true by lia.
  destruct (align_div (e_bbo st + 7)) as [A1 A2]; [change (2 ^ 40) with 1099511627776; change (2 ^ 30) with 1073741824 in B; lia|]. rewrite A2, A1.
  pose proof (div8_bounds (e_bbo st + 7) ltac:(lia)) as D. destruct (siglen <? _); [reflexivity|].
  destruct (put_le _ _ _ _) as [s| |] eqn:E; [|reflexivity|exfalso; exact (put_le_not_fuel _ _ _ _ E)]. cbn [bind].
  unfold shr_chk. replace ((0 <=? _) && (_ <? 64)) with false by lia. reflexivity.
Qed.
Lemma div8_add o b : (8 * o + b) / 8 = o + b / 8.
Proof. rewrite (Z.mul_comm 8), Z.add_comm, Z.div_add by lia. lia. Qed.
Lemma flush_exact siglen bs st : einv siglen bs st ->
  (enc_flush siglen st = Ok (false, st) /\ siglen < zlen bs / 8) \/
  (exists st', enc_flush siglen st = Ok (true, st') /\ zlen bs / 8 <= siglen /\ einv siglen bs st' /\ e_bbo st' < 8 /\ e_bbo st' = zlen bs mod 8 /\ e_off st' = zlen bs / 8).
Proof.
  intros I. pose proof (einv_len _ _ _ I) as EL. destruct (enc_flush_ok siglen bs st I) as [[E L]|(st' & E & I' & B' & M')].
  - left. split; [exact E|]. revert E. unfold enc_flush. destruct (8 <=? e_bbo st) eqn:C; [|discriminate].
    destruct I as (wr & rest & _ & _ & _ & _ & B & _).
    destruct (align_div (e_bbo st)) as [A1 A2]; [change (2 ^ 40) with 1099511627776; lia|]. rewrite A2.
    destruct (siglen <? _) eqn:S; [intros _; rewrite EL, div8_add; lia|].
    intros E. destruct (bind_ok_inv _ _ _ E) as (s & _ & E2). destruct (bind_ok_inv _ _ _ E2) as (b & _ & E3). discriminate.
  - right. exists st'. pose proof (einv_len _ _ _ I') as EL'. destruct I' as (wr & rest & I1 & I2 & I3 & I4 & I5 & I6 & I7).
    pose proof (zlen_nonneg rest). pose proof (zlen_nonneg wr).
    assert (D : zlen bs / 8 = e_off st') by (rewrite EL', div8_add, (Z.div_small (e_bbo st')) by lia; lia).
    split; [exact E|]. split; [lia|]. split; [exists wr, rest; repeat apply conj; assumption || lia|]. split; [exact B'|]. split; [exact M'|lia].
Qed.
Lemma wcodes_app a b : wcodes (a ++ b) = wcodes a ++ wcodes b.
Proof. unfold wcodes. rewrite map_app, concat_app. reflexivity. Qed.
Lemma wcodes_1 w : wcodes [w] = code_word w.
Proof. unfold wcodes. cbn [map concat]. apply app_nil_r. Qed.
Lemma wlen_pos w : 1 <= wlen w.
Proof.
  destruct w as [[|] x]; unfold wlen, code_word; cbn [fst snd].
  - fold (clen code_h x). rewrite clen_h. destruct (x =? 0); lia.
  - fold (clen code_z x). pose proof (clen_z_pos x). lia.
Qed.

(* a prefix of words that fits *)
Definition wfits (pos : Z) (ws : list word) : Prop := forall a x b, ws = a ++ x :: b -> (pos + zlen (wcodes a)) mod 8 + wlen x <= 63.
Lemma wfits_cons pos w ws : wfits pos (w :: ws) -> pos mod 8 + wlen w <= 63 /\ wfits (pos + wlen w) ws.
Proof.
  intros H. split.
  - specialize (H [] w ws eq_refl). replace (pos + zlen (wcodes [])) with pos in H by (unfold wcodes, zlen; cbn; lia). exact H.
  - intros a x b E. specialize (H (w :: a) x b ltac:(rewrite E; reflexivity)).
    replace (pos + wlen w + zlen (wcodes a)) with (pos + zlen (wcodes (w :: a))); [exact H|].
    change (w :: a) with ([w] ++ a). rewrite wcodes_app, wcodes_1, zlen_app. unfold wlen, zlen. lia.
Qed.
Lemma loop_w_fit siglen : forall ws bs st, einv siglen bs st -> wfits (zlen bs) ws ->
  (exists st', loop_w siglen ws st = Ok (false, st') /\ siglen < zlen (bs ++ wcodes ws) / 8) \/
  (exists st', loop_w siglen ws st = Ok (true, st') /\ einv siglen (bs ++ wcodes ws) st').
Proof.
  induction ws as [|w ws IH]; intros bs st I W.
  - right. exists st. split; [reflexivity|]. unfold wcodes. cbn [map concat]. rewrite app_nil_r. exact I.
  - destruct (wfits_cons _ _ _ W) as [W1 W2]. cbn [loop_w].
    change (w :: ws) with ([w] ++ ws). rewrite wcodes_app, wcodes_1, app_assoc.
    destruct (flush_exact siglen bs st I) as [[-> L]|(st1 & -> & L & I1 & B1 & M1 & O1)]; cbn [bind negb].
    + left. exists st. split; [reflexivity|]. eapply Z.lt_le_trans; [exact L|]. apply Z.div_le_mono; [lia|]. rewrite !zlen_app.
      pose proof (zlen_nonneg (wcodes ws)). pose proof (zlen_nonneg (code_word w)). lia.
    + destruct (put_w_spec siglen bs st1 w I1 B1 ltac:(rewrite M1; exact W1)) as (st2 & -> & I2). cbn [bind].
      apply IH; [exact I2|]. rewrite zlen_app. exact W2.
Qed.
(* number of waiting bits after a fitting prefix and one more fitting word *)
Lemma loop_w_last siglen ws w bs st st' : einv siglen bs st -> wfits (zlen bs) (ws ++ [w]) ->
  loop_w siglen (ws ++ [w]) st = Ok (true, st') ->
  e_bbo st' = (zlen bs + zlen (wcodes ws)) mod 8 + wlen w /\ e_off st' = (zlen bs + zlen (wcodes ws)) / 8 /\ einv siglen (bs ++ wcodes (ws ++ [w])) st' /\
  (zlen bs + zlen (wcodes ws)) / 8 <= siglen.
Proof.
  intros I W. assert (W1 : wfits (zlen bs) ws) by (intros a x b E; apply (W a x (b ++ [w])); rewrite E, <- app_assoc; reflexivity).
  rewrite loop_w_app. destruct (loop_w_fit siglen ws bs st I W1) as [(s & -> & _)|(s & -> & I1)]; cbn [bind negb]; [discriminate|].
  cbn [loop_w]. destruct (flush_exact siglen _ s I1) as [[-> L]|(st1 & -> & L & I2 & B1 & M1 & O1)]; cbn [bind negb]; [discriminate|].
  specialize (W ws w [] eq_refl). rewrite zlen_app in *.
  pose proof I2 as (wr & rest & J1 & J2 & J3 & J4 & J5 & J6 & J7).
  destruct (put_w_spec siglen _ st1 w I2 B1 ltac:(rewrite M1; exact W)) as (st2 & E & I3). rewrite E. cbn [bind]. intros H. inversion H; subst st2. clear H.
  pose proof (einv_len _ _ _ I3) as EL. rewrite !zlen_app in EL. change (zlen (code_word w)) with (wlen w) in EL.
  rewrite wcodes_app, wcodes_1, app_assoc. split; [|split; [|split; [exact I3|exact L]]].
  - revert E EL. destruct w as [[|] x]; unfold put_w, wlen, code_word in *; cbn [fst snd] in *; intros E EL.
    + pose proof (enc_put_h_spec siglen _ st1 x I2 B1) as P. unfold clen in P. rewrite M1 in P. replace (_ <=? 63) with true in P by lia.
      destruct P as (s' & E' & _ & K). rewrite E in E'. inversion E'; subst s'. exact K.
    + pose proof (enc_put_z_spec siglen _ st1 x I2 B1) as P. unfold clen in P. rewrite M1 in P. replace (_ <=? 63) with true in P by lia.
      destruct P as (s' & E' & _ & K). rewrite E in E'. inversion E'; subst s'. exact K.
  - assert (K : e_bbo st' = (zlen bs + zlen (wcodes ws)) mod 8 + wlen w).
    { revert E EL. destruct w as [[|] x]; unfold put_w, wlen, code_word in *; cbn [fst snd] in *; intros E EL.
      + pose proof (enc_put_h_spec siglen _ st1 x I2 B1) as P. unfold clen in P. rewrite M1 in P. replace (_ <=? 63) with true in P by lia.
        destruct P as (s' & E' & _ & K). rewrite E in E'. inversion E'; subst s'. exact K.
      + pose proof (enc_put_z_spec siglen _ st1 x I2 B1) as P. unfold clen in P. rewrite M1 in P. replace (_ <=? 63) with true in P by lia.
        destruct P as (s' & E' & _ & K). rewrite E in E'. inversion E'; subst s'. exact K. }
    pose proof (Z.div_mod (zlen bs + zlen (wcodes ws)) 8 ltac:(lia)). lia.
Qed.
(* the first word that does not fit *)
Lemma first_unfit : forall ws pos, wfits pos ws \/ exists a w b, ws = a ++ w :: b /\ wfits pos a /\ 64 <= (pos + zlen (wcodes a)) mod 8 + wlen w.
Proof.
  induction ws as [|w ws IH]; intros pos.
  - left. intros a x b E. destruct a; discriminate.
  - assert (Z0 : zlen (wcodes []) = 0) by reflexivity.
    destruct (Z_le_gt_dec (pos mod 8 + wlen w) 63) as [H|H].
    + assert (CONS : forall ws', wfits (pos + wlen w) ws' -> wfits pos (w :: ws')).
      { intros ws' F a x b E. destruct a as [|y a]; [injection E as <- <-; rewrite Z0, Z.add_0_r; exact H|]. injection E as <- E.
        specialize (F a x b E). change (w :: a) with ([w] ++ a). rewrite wcodes_app, wcodes_1, zlen_app.
        replace (pos + (zlen (code_word w) + zlen (wcodes a))) with (pos + wlen w + zlen (wcodes a)) by (unfold wlen, zlen; lia). exact F. }
      destruct (IH (pos + wlen w)) as [F|(a & x & b & E & F & L)]; [left; apply CONS; exact F|].
      right. exists (w :: a), x, b. split; [rewrite E; reflexivity|]. split; [apply CONS; exact F|].
      change (w :: a) with ([w] ++ a). rewrite wcodes_app, wcodes_1, zlen_app.
      replace (pos + (zlen (code_word w) + zlen (wcodes a))) with (pos + wlen w + zlen (wcodes a)) by (unfold wlen, zlen; lia). exact L.
    + right. exists [], w, ws. split; [reflexivity|]. split; [intros a x b E; destruct a; discriminate|]. rewrite Z0, Z.add_0_r. lia.
Qed.
(* it is unique *)
Lemma unfit_unique pos (a b a' b' : list word) w w' : a ++ w :: b = a' ++ w' :: b' -> wfits pos a -> wfits pos a' ->
  64 <= (pos + zlen (wcodes a)) mod 8 + wlen w -> 64 <= (pos + zlen (wcodes a')) mod 8 + wlen w' -> a = a' /\ w = w' /\ b = b'.
Proof.
  intros E F F' L L'.
  assert (KEY : forall (a a' b b' : list word) w w', a ++ w :: b = a' ++ w' :: b' ->
     (a = a' /\ w = w' /\ b = b') \/ (exists c, a' = a ++ w :: c) \/ (exists c, a = a' ++ w' :: c)).
  { clear. induction a as [|y a IH]; intros a' b b' w w' E.
    - destruct a' as [|y' a']; cbn [app] in E; injection E as E1 E2; [left; repeat split; assumption|right; left; exists a'; rewrite E1; reflexivity].
    - destruct a' as [|y' a']; cbn [app] in E; injection E as E1 E2; [right; right; exists a; rewrite E1; reflexivity|].
      subst y'. destruct (IH _ _ _ _ _ E2) as [(-> & -> & ->)|[(c & ->)|(c & ->)]]; [left; repeat split|right; left; exists c; reflexivity|right; right; exists c; reflexivity]. }
  destruct (KEY _ _ _ _ _ _ E) as [K|[(c & K)|(c & K)]]; [exact K| |].
  - specialize (F' a w c K). lia.
  - specialize (F a' w' c K). lia.
Qed.

(* the exact condition, in the terms of the loop *)
Definition wover (siglen pos : Z) (all : list word) : Prop := exists ws w ws', all = ws ++ w :: ws' /\ wfits pos ws /\
  (pos + zlen (wcodes ws)) / 8 <= siglen /\
  let n := (pos + zlen (wcodes ws)) mod 8 + wlen w in let e := pos + zlen (wcodes (ws ++ [w])) in
  ((64 <= n /\ too_long w) \/ (64 <= n /\ ws' <> [] /\ e / 8 <= siglen) \/ (57 <= n /\ ws' = [] /\ (e + 7) / 8 <= siglen)).
Lemma wfits_app_l pos a b : wfits pos (a ++ b) -> wfits pos a.
Proof. intros W c x d E. apply (W c x (d ++ b)). rewrite E, <- app_assoc. reflexivity. Qed.
Lemma loop_false_tail siglen ws ws' st st' : loop_w siglen ws st = Ok (false, st') -> loop_w siglen (ws ++ ws') st = Ok (false, st').
Proof. intros E. rewrite loop_w_app, E. reflexivity. Qed.
Lemma write_at_not_fuel (l : list Z) o b : write_at l o b <> OutOfFuel.
Proof. unfold write_at. destruct (_ && _); discriminate. Qed.
Definition decided (r : res (bool * list Z)) (U : Prop) : Prop := (r = UB /\ U) \/ (exists v, r = Ok v /\ ~ U).
Lemma pad_ok siglen wr rest : zlen wr + zlen rest = siglen -> exists s : list Z, write_at (wr ++ rest) (zlen wr) (repeat 0 (Z.to_nat (siglen - zlen wr))) = Ok s.
Proof.
  intros H. replace (wr ++ rest) with (wr ++ rest ++ []) by (rewrite app_nil_r; reflexivity).
  rewrite write_at_app; [eexists; reflexivity|reflexivity|]. unfold zlen in *. rewrite repeat_length. lia.
Qed.
Lemma end_div pos l n : (pos + l) / 8 + ((pos + l) mod 8 + n) / 8 = (pos + (l + n)) / 8.
Proof.
  rewrite <- div8_add. f_equal. pose proof (Z.div_mod (pos + l) 8 ltac:(lia)). lia.
Qed.
Lemma end_div7 pos l n : (pos + l) / 8 + ((pos + l) mod 8 + n + 7) / 8 = (pos + (l + n) + 7) / 8.
Proof.
  rewrite <- div8_add. f_equal. pose proof (Z.div_mod (pos + l) 8 ltac:(lia)). lia.
Qed.
Lemma enc_tail_exact siglen bs ws st : einv siglen bs st -> e_bbo st = 0 -> decided (enc_tail siglen ws st) (wover siglen (zlen bs) ws).
Proof.
  intros I B0. set (pos := zlen bs). unfold enc_tail.
  destruct (first_unfit ws pos) as [F|(a & w & b & E & F & L)].
  - (* every word leaves at most 63 bits *)
    destruct ws as [|w0 ws0 _] using rev_ind.
    { cbn [loop_w bind negb]. pose proof I as (wr & rest & J1 & J2 & J3 & J4 & J5 & J6 & J7).
      assert (NU : ~ wover siglen pos []) by (intros (a & x & b & E & _); destruct a; discriminate).
      unfold enc_final. replace (0 <? e_bbo st) with false by lia. cbn [bind negb]. rewrite J1, J2.
      destruct (pad_ok siglen wr rest J3) as (s & ->). right. eexists. split; [reflexivity|exact NU]. }
    assert (UEQ : wover siglen pos (ws0 ++ [w0]) <-> (pos + zlen (wcodes ws0)) / 8 <= siglen /\ 57 <= (pos + zlen (wcodes ws0)) mod 8 + wlen w0 /\
                 (pos + zlen (wcodes (ws0 ++ [w0])) + 7) / 8 <= siglen).
    { split.
      - intros (a & x & b & E & Fa & K1 & K2). cbv zeta in K2.
        assert (b = []).
        { destruct K2 as [K2|[K2|K2]]; [exfalso; specialize (F a x b E); lia|exfalso; specialize (F a x b E); lia|]. tauto. }
        subst b. apply app_inj_tail in E. destruct E as [<- <-]. split; [exact K1|]. specialize (F ws0 w0 [] eq_refl). split; [lia|].
        destruct K2 as [K2|[K2|K2]]; [lia|lia|tauto].
      - intros (K1 & K2 & K3). exists ws0, w0, []. split; [reflexivity|]. split; [exact (wfits_app_l _ _ _ F)|]. split; [exact K1|]. cbv zeta.
        right. right. split; [exact K2|]. split; [reflexivity|exact K3]. }
    destruct (loop_w_fit siglen (ws0 ++ [w0]) bs st I F) as [(s & E & L)|(s & E & I1)]; rewrite E; cbn [bind negb].
    + right. eexists. split; [reflexivity|]. rewrite UEQ. intros (_ & _ & K). revert L K. rewrite zlen_app. fold pos.
      set (y := pos + zlen (wcodes (ws0 ++ [w0]))). clearbody y. clear. intros L K.
      pose proof (Z.div_le_mono y (y + 7) 8 ltac:(lia) ltac:(lia)). lia.
    + destruct (loop_w_last siglen ws0 w0 bs st s I F E) as (K1 & K2 & _ & K4). fold pos in K1, K2, K4.
      pose proof (Z.mod_pos_bound (pos + zlen (wcodes ws0)) 8 ltac:(lia)) as MB. pose proof (wlen_pos w0) as WP.
      assert (B63 : e_bbo s <= 63) by (rewrite K1; exact (F ws0 w0 [] eq_refl)).
      destruct (Z_le_gt_dec 57 (e_bbo s)) as [H57|H57].
      * rewrite final_over by (change (2 ^ 30) with 1073741824; lia).
        rewrite K2, K1, end_div7. replace (zlen (wcodes ws0) + wlen w0) with (zlen (wcodes (ws0 ++ [w0]))) by (rewrite wcodes_app, wcodes_1, zlen_app; reflexivity).
        destruct (siglen <? _) eqn:S; cbn [bind negb].
        -- right. eexists. split; [reflexivity|]. rewrite UEQ. lia.
        -- left. split; [reflexivity|]. rewrite UEQ. lia.
      * assert (NU : ~ wover siglen pos (ws0 ++ [w0])) by (rewrite UEQ; lia).
        pose proof (enc_final_ok siglen _ s I1 ltac:(lia)) as FN. replace (_ <=? 56) with true in FN by lia.
        destruct FN as [[-> _]|(s' & wr & rest & n & -> & E1 & E2 & _ & E3 & _)]; cbn [bind negb].
        -- right. eexists. split; [reflexivity|exact NU].
        -- rewrite E1, E2. destruct (pad_ok siglen wr rest E3) as (s2 & ->). right. eexists. split; [reflexivity|exact NU].
  - (* word w overflows *)
    assert (UEQ : wover siglen pos ws <-> (pos + zlen (wcodes a)) / 8 <= siglen /\
              (too_long w \/ (b <> [] /\ (pos + zlen (wcodes (a ++ [w]))) / 8 <= siglen) \/ (b = [] /\ (pos + zlen (wcodes (a ++ [w])) + 7) / 8 <= siglen))).
    { split.
      - intros (a' & x & b' & E' & Fa & K1 & K2). cbv zeta in K2.
        assert (S : a = a' /\ w = x /\ b = b').
        { destruct (Z_le_gt_dec 64 ((pos + zlen (wcodes a')) mod 8 + wlen x)) as [H|H].
          - rewrite E in E'. exact (unfit_unique pos a b a' b' w x E' F Fa L H).
          - exfalso. destruct K2 as [K2|[K2|(K2 & -> & _)]]; [lia|lia|].
            rewrite E in E'. destruct b as [|b0 b] using rev_ind.
            + apply app_inj_tail in E'. destruct E' as [-> ->]. lia.
            + rewrite app_comm_cons, app_assoc in E'. apply app_inj_tail in E'. destruct E' as [<- _]. specialize (Fa a w b eq_refl). lia. }
        destruct S as (<- & <- & <-). split; [exact K1|]. tauto.
      - intros (K1 & K2). exists a, w, b. split; [exact E|]. split; [exact F|]. split; [exact K1|]. cbv zeta.
        destruct K2 as [K2|[K2|K2]]; [left; tauto|right; left; tauto|right; right]. split; [lia|exact K2]. }
    rewrite E. rewrite loop_w_app.
    destruct (loop_w_fit siglen a bs st I F) as [(s & -> & L1)|(s & -> & I1)]; cbn [bind negb].
    { right. eexists. split; [reflexivity|]. rewrite <- E, UEQ. rewrite zlen_app in L1. fold pos in L1. lia. }
    cbn [loop_w]. destruct (flush_exact siglen _ s I1) as [[-> L1]|(s1 & -> & L1 & I2 & B1 & M1 & O1)]; cbn [bind negb].
    { right. eexists. split; [reflexivity|]. rewrite <- E, UEQ. rewrite zlen_app in L1. fold pos in L1. lia. }
    rewrite zlen_app in L1, M1, O1. fold pos in L1, M1, O1.
    pose proof (Z.mod_pos_bound (pos + zlen (wcodes a)) 8 ltac:(lia)) as MB.
    pose proof (put_w_over s1 w ltac:(lia) ltac:(lia)) as P. destruct (too_long_b w) eqn:T.
    { rewrite P. left. split; [reflexivity|]. rewrite <- E, UEQ, too_long_iff. split; [lia|left; exact T]. }
    destruct P as (s2 & -> & P1 & P2 & P3). cbn [bind].
    assert (NT : ~ too_long w) by (rewrite too_long_iff, T; discriminate).
    assert (EC : zlen (wcodes (a ++ [w])) = zlen (wcodes a) + wlen w) by (rewrite wcodes_app, wcodes_1, zlen_app; reflexivity). rewrite EC in UEQ.
    destruct b as [|b0 b].
    + cbn [loop_w bind negb]. rewrite final_over by lia. rewrite P1, P2, M1, O1, end_div7.
      destruct (siglen <? _) eqn:S; cbn [bind negb].
      * right. eexists. split; [reflexivity|]. rewrite <- E, UEQ. intros (_ & [K|[[K _]|[_ K]]]); [tauto|tauto|lia].
      * left. split; [reflexivity|]. rewrite <- E, UEQ. split; [lia|right; right; split; [reflexivity|lia]].
    + cbn [loop_w]. rewrite flush_over by lia. rewrite P1, P2, M1, O1, end_div.
      destruct (siglen <? _) eqn:S; cbn [bind negb].
      * right. eexists. split; [reflexivity|]. rewrite <- E, UEQ. intros (_ & [K|[[_ K]|[K _]]]); [tauto|lia|discriminate].
      * left. split; [reflexivity|]. rewrite <- E, UEQ. split; [lia|right; left; split; [discriminate|lia]].
Qed.
Lemma wover_spec len cl h z : wover len (8 * cl) (words h z) <-> overrun_encoding len cl h z.
Proof. reflexivity. Qed.
Lemma encode_ub_exact c h z sig : Forall is_byte c -> zlen c <= zlen sig ->
  decided (encode_sig c h z sig) (overrun_encoding (zlen sig) (zlen c) h z).
Proof.
  intros Fc Lc. rewrite encode_tail.
  assert (Sp : exists pre post, sig = pre ++ post /\ zlen pre = zlen c).
  { exists (firstn (length c) sig), (skipn (length c) sig). rewrite firstn_skipn. split; [reflexivity|]. unfold zlen in *. rewrite firstn_length. lia. }
  destruct Sp as (pre & post & Es & Lp).
  assert (W0 : write_at sig 0 c = Ok (c ++ post)).
  { rewrite Es. change (pre ++ post) with ([] ++ pre ++ post). rewrite write_at_app; [reflexivity|reflexivity|unfold zlen in *; lia]. }
  rewrite W0. cbn [bind]. set (siglen := zlen sig) in *.
  assert (Lpost : zlen c + zlen post = siglen) by (unfold siglen; rewrite Es, zlen_app, Lp; reflexivity). clearbody siglen.
  set (B0 := bits_of_bytes c). assert (LB0 : zlen B0 = 8 * zlen c) by (unfold B0, zlen; rewrite bits_of_bytes_length; lia).
  assert (I0 : einv siglen B0 (Enc (c ++ post) (zlen c) 0 0)).
  { exists c, post. cbn [e_sig e_off e_buf e_bbo]. repeat apply conj; try reflexivity; try assumption; try lia. cbn [Z.to_nat bits_of]. rewrite app_nil_r. reflexivity. }
  change (overrun_encoding siglen (zlen c) h z) with (wover siglen (8 * zlen c) (words h z)). rewrite <- LB0. exact (enc_tail_exact siglen B0 (words h z) _ I0 eq_refl).
Qed.
