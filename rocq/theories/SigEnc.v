(* Signature encoder: exact behaviour. *)
From Coq Require Import ZArith Lia Bool List Arith.
From Coq Require Import ZifyBool ZifyNat.
From Verif Require Import ModelBase ModelU128 ModelField ModelUtils ModelPoly ModelVec ModelSerial.
From Verif Require Import Spec SpecScheme.
From Verif Require Import Words FieldProofs ArithLemmas BytesProofs PolyProofs PackProofs SkeyProofs.
Import ListNotations.
Open Scope Z_scope.
Ltac Zify.zify_post_hook ::= idtac.

Definition clen (code : Z -> list bool) (x : Z) : Z := Z.of_nat (length (code x)).
Lemma clen_h x : clen code_h x = if x =? 0 then 1 else Z.abs x + 2.
Proof.
  unfold clen, code_h. rewrite !app_length, repeat_length. cbn [length]. destruct (x =? 0) eqn:E; cbn [length]; lia.
Qed.
Lemma clen_z x : clen code_z x = 40 + (if x =? 0 then 1 else Z.abs x / 2 ^ 40 + 2).
Proof.
  unfold clen, code_z. rewrite !app_length, repeat_length, bits_of_length. cbn [length].
  assert (0 <= Z.abs x / 2 ^ 40) by (apply Z.div_pos; [lia|reflexivity]).
  destruct (x =? 0) eqn:E; cbn [length]; [|lia]. replace x with 0 by lia. cbn. reflexivity.
Qed.
Lemma bits_value_ones n : bits_value (repeat true n) = 2 ^ Z.of_nat n - 1.
Proof.
  induction n as [|n IH]; [reflexivity|]. cbn [repeat bits_value]. rewrite IH. rewrite Nat2Z.inj_succ, Z.pow_succ_r by lia. cbn [Z.b2z]. lia.
Qed.
(* unary part with sign *)
Definition unary (n : Z) (tl : list bool) : list bool := repeat true (Z.to_nat n) ++ [false] ++ tl.
Lemma unary_value n tl : 0 <= n -> bits_value (unary n tl) = 2 ^ n - 1 + 2 ^ n * (2 * bits_value tl).
Proof.
  intros H. unfold unary. rewrite bits_value_app, bits_value_ones. unfold zlen. rewrite repeat_length, Z2Nat.id by lia.
  cbn [app bits_value Z.b2z]. ring.
Qed.
Lemma unary_length n tl : 0 <= n -> zlen (unary n tl) = n + 1 + zlen tl.
Proof. intros H. unfold unary, zlen. rewrite !app_length, repeat_length. cbn [length]. lia. Qed.
Lemma push_bits b o l : 0 <= o -> o + zlen l <= 64 -> 0 <= b < 2 ^ o ->
  let v := Z.lor b ((bits_value l * 2 ^ o) mod two64) in
  0 <= v < 2 ^ (o + zlen l) /\ bits_of (Z.to_nat (o + zlen l)) v = bits_of (Z.to_nat o) b ++ l.
Proof.
  intros Ho Hl Hb. pose proof (bits_value_range l) as R. pose proof (zlen_nonneg l) as N.
  destruct (buf_push b o (bits_value l) (zlen l) Ho N Hl Hb) as (P1 & P2 & P3).
  rewrite (Z.mod_small (bits_value l)) in P1, P2, P3 by exact R. cbv zeta. rewrite P1. split; [exact P2|]. rewrite P3.
  f_equal. unfold zlen. rewrite Nat2Z.id. apply bits_of_bits_value.
Qed.

(* exact state: [bs] are all bits so far; broken state: the buffer has overflowed *)
Definition einv (siglen : Z) (bs : list bool) (st : enc) : Prop :=
  exists wr rest, e_sig st = wr ++ rest /\ e_off st = zlen wr /\ zlen wr + zlen rest = siglen /\ Forall is_byte wr /\
    0 <= e_bbo st <= 63 /\ 0 <= e_buf st < 2 ^ e_bbo st /\ bs = bits_of_bytes wr ++ bits_of (Z.to_nat (e_bbo st)) (e_buf st).
Definition ebad (st : enc) : Prop := 64 <= e_bbo st < 2 ^ 30.
(* positions: after a flush the buffer holds the bits beyond the last full byte *)
Lemma einv_len siglen bs st : einv siglen bs st -> zlen bs = 8 * e_off st + e_bbo st.
Proof.
  intros (wr & rest & _ & E & _ & _ & B & _ & ->). rewrite zlen_app. unfold zlen at 1 2. rewrite bits_of_bytes_length, bits_of_length.
  rewrite E. unfold zlen. lia.
Qed.
Lemma align_div x : 0 <= x < 2 ^ 40 -> align8 x = 8 * (x / 8) /\ align8 x / 8 = x / 8.
Proof.
  intros H. assert (E : align8 x = 8 * (x / 8)) by (apply align8_spec; unfold is64, two64; change (2 ^ 40) with 1099511627776 in H; lia).
  split; [exact E|]. rewrite E, (Z.mul_comm 8), Z.div_mul by lia. reflexivity.
Qed.
Lemma enc_flush_ok siglen bs st : einv siglen bs st ->
  (enc_flush siglen st = Ok (false, st) /\ 8 * siglen < zlen bs) \/
  (exists st', enc_flush siglen st = Ok (true, st') /\ einv siglen bs st' /\ e_bbo st' < 8 /\ e_bbo st' = zlen bs mod 8).
Proof.
  intros I. pose proof (einv_len _ _ _ I) as EL. destruct I as (wr & rest & E1 & E2 & E3 & F & B & BB & EB).
  unfold enc_flush. destruct (8 <=? e_bbo st) eqn:C.
  - destruct (align_div (e_bbo st)) as [A1 A2]; [change (2 ^ 40) with 1099511627776; lia|]. rewrite A2.
    pose proof (div8_bounds (e_bbo st) ltac:(lia)) as D. set (nb := e_bbo st / 8) in *.
    destruct (siglen <? e_off st + nb) eqn:S; [left; split; [reflexivity|lia]|right].
    rewrite E1. rewrite put_le_app by lia. cbn [bind]. rewrite A1. rewrite shr_chk_Ok by lia. cbn [bind].
    eexists. split; [reflexivity|].
    destruct (buf_pop (e_buf st) (e_bbo st) (8 * nb)) as [P1 P2]; [lia|exact BB|].
    cbn [e_bbo]. split; [|split; [lia|]].
    + exists (wr ++ le_bytes (Z.to_nat nb) (e_buf st)), (skipn (Z.to_nat nb) rest). cbn [e_sig e_off e_buf e_bbo].
      assert (L : zlen (le_bytes (Z.to_nat nb) (e_buf st)) = nb) by (unfold zlen; rewrite le_bytes_length; lia).
      assert (L2 : zlen (skipn (Z.to_nat nb) rest) = zlen rest - nb) by (unfold zlen in *; rewrite skipn_length; lia).
      rewrite !zlen_app, L, L2. repeat apply conj; try lia.
      * rewrite <- !app_assoc. reflexivity.
      * apply Forall_app. split; [exact F|apply le_bytes_byte].
      * rewrite EB, P1, bits_of_bytes_app, bits_of_le_bytes, <- app_assoc. f_equal. f_equal. f_equal. lia.
    + rewrite EL. replace (8 * e_off st + e_bbo st) with (e_bbo st - 8 * nb + (e_off st + nb) * 8) by ring.
      rewrite Z.mod_add by lia. rewrite Z.mod_small by lia. reflexivity.
  - right. exists st. split; [reflexivity|]. split; [exists wr, rest; repeat apply conj; assumption || lia|]. split; [lia|].
    rewrite EL. rewrite Z.add_comm, Z.mul_comm, Z.mod_add by lia. rewrite Z.mod_small by lia. reflexivity.
Qed.
Lemma enc_flush_bad siglen st : ebad st -> enc_flush siglen st = Ok (false, st) \/ enc_flush siglen st = UB.
Proof.
  intros B. unfold ebad in B. unfold enc_flush. replace (8 <=? e_bbo st) with true by lia.
  destruct (align_div (e_bbo st)) as [A1 A2]; [change (2 ^ 40) with 1099511627776; change (2 ^ 30) with 1073741824 in B; lia|]. rewrite A2.
  pose proof (div8_bounds (e_bbo st) ltac:(lia)) as D.
  destruct (siglen <? _); [left; reflexivity|right]. unfold put_le. destruct (subspan _ _ _) as [sp| |] eqn:E; [|reflexivity|unfold subspan in E; destruct (_ && _); discriminate].
  cbn [bind]. destruct (write_at _ _ _) as [sp'| |] eqn:E'; [|reflexivity|unfold write_at in E'; destruct (_ && _); discriminate].
  cbn [bind]. rewrite A1. unfold shr_chk. replace ((0 <=? _) && (_ <? 64)) with false by lia. reflexivity.
Qed.

(* what the two put functions have in common *)
Definition put_spec (put : enc -> Z -> res enc) (code : Z -> list bool) : Prop :=
  forall siglen bs st x, einv siglen bs st -> e_bbo st < 8 ->
    if e_bbo st + clen code x <=? 63
    then exists st', put st x = Ok st' /\ einv siglen (bs ++ code x) st' /\ e_bbo st' = e_bbo st + clen code x
    else put st x = UB \/ exists st', put st x = Ok st' /\ ebad st'.

Lemma shl_chk_cases a n : shl_chk a n = UB \/ (0 <= n < 64 /\ shl_chk a n = Ok ((a * 2 ^ n) mod two64)).
Proof.
  unfold shl_chk. destruct ((0 <=? n) && (n <? 64)) eqn:E; [right|left; reflexivity]. split; [lia|]. rewrite shl64_spec by lia. reflexivity.
Qed.
Lemma abs_chk_cases x : abs_chk x = UB /\ x = - two63 \/ abs_chk x = Ok (Z.abs x).
Proof. unfold abs_chk. destruct (x =? - two63) eqn:E; [left; split; [reflexivity|lia]|right; reflexivity]. Qed.
Lemma code_h_eq x : code_h x = unary (Z.abs x) (if x =? 0 then [] else [x <? 0]).
Proof. reflexivity. Qed.
Lemma einv_push siglen bs st l : einv siglen bs st -> e_bbo st + zlen l <= 63 ->
  einv siglen (bs ++ l) (Enc (e_sig st) (e_off st) (Z.lor (e_buf st) ((bits_value l * 2 ^ e_bbo st) mod two64)) (e_bbo st + zlen l)).
Proof.
  intros (wr & rest & E1 & E2 & E3 & F & B & BB & EB) H. pose proof (zlen_nonneg l).
  destruct (push_bits (e_buf st) (e_bbo st) l) as [P1 P2]; [lia|lia|exact BB|].
  exists wr, rest. cbn [e_sig e_off e_buf e_bbo]. repeat apply conj; try assumption; try lia; try apply P1.
  rewrite EB, P2, app_assoc. reflexivity.
Qed.
Lemma sub_one n : 0 <= n < 64 -> sub64 ((1 * 2 ^ n) mod two64) 1 = 2 ^ n - 1.
Proof.
  intros H. assert (0 < 2 ^ n) by (apply Z.pow_pos_nonneg; lia).
  assert (2 ^ n < two64) by (rewrite two64_pow; apply Z.pow_lt_mono_r; lia).
  rewrite Z.mul_1_l, Z.mod_small by lia. unfold sub64. apply u64_small. unfold is64. lia.
Qed.
Lemma neg_word n : 0 <= n <= 61 -> Z.lor ((2 * 2 ^ n) mod two64) (2 ^ n - 1) = 2 ^ n - 1 + 2 ^ n * 2.
Proof.
  intros H. assert (0 < 2 ^ n) by (apply Z.pow_pos_nonneg; lia).
  assert (2 ^ (n + 1) < two64) by (rewrite two64_pow; apply Z.pow_lt_mono_r; lia). rewrite Z.pow_add_r in * by lia.
  rewrite Z.mod_small by lia. rewrite lor_disjoint' by lia. lia.
Qed.
Lemma zero_word n : Z.lor ((0 * 2 ^ n) mod two64) (2 ^ n - 1) = 2 ^ n - 1.
Proof. rewrite Z.mul_0_l. reflexivity. Qed.
Lemma enc_put_h_spec : put_spec enc_put_h code_h.
Proof.
  intros siglen bs st x I Hb. pose proof I as (wr & rest & _ & _ & _ & _ & B & _).
  rewrite clen_h. destruct (_ <=? 63) eqn:C.
  - unfold enc_put_h. destruct (abs_chk_cases x) as [[_ Hx]| ->].
    { exfalso. destruct (x =? 0) eqn:E; unfold two63 in Hx; lia. }
    cbn [bind]. destruct (x =? 0) eqn:E0.
    + assert (x = 0) by lia. subst x. cbn [Z.abs]. rewrite shl_chk_Ok by lia. cbn [bind Z.ltb Z.compare].
      rewrite shl_chk_Ok by lia. cbn [bind]. eexists. split; [reflexivity|]. split; [|reflexivity].
      apply (einv_push siglen bs st [false] I). unfold zlen. cbn [length]. lia.
    + rewrite !shl_chk_Ok by lia. cbn [bind]. rewrite sub_one by lia. rewrite zero_word, neg_word by lia. rewrite code_h_eq, E0.
      pose proof (einv_push siglen bs st (unary (Z.abs x) [x <? 0]) I) as P. rewrite unary_length, unary_value in P by lia.
      unfold zlen in P. cbn [length bits_value] in P. replace (Z.abs x + 1 + Z.of_nat 1) with (Z.abs x + 2) in P by lia.
      specialize (P ltac:(lia)).
      destruct (0 <? x) eqn:E1; [|destruct (x <? 0) eqn:E2; [|lia]]; rewrite shl_chk_Ok by lia; cbn [bind]; eexists; (split; [reflexivity|]); (split; [|reflexivity]).
      * replace (x <? 0) with false in * by lia. cbn [Z.b2z] in P. rewrite Z.mul_0_r, Z.add_0_r in P. exact P.
      * cbn [Z.b2z] in P. replace (2 * (1 + 2 * 0)) with 2 in P by lia. exact P.
  - destruct (x =? 0) eqn:E0; [exfalso; lia|]. unfold enc_put_h. destruct (abs_chk_cases x) as [[-> _]| ->]; [left; reflexivity|]. cbn [bind].
    destruct (shl_chk_cases 1 (Z.abs x)) as [-> |[R ->]]; [left; reflexivity|]. cbn [bind]. rewrite !(shl_chk_Ok _ (Z.abs x)) by lia. cbn [bind].
    right. assert (BAD : forall s o b, ebad (Enc s o b (e_bbo st + (Z.abs x + 2)))) by (intros; unfold ebad; cbn [e_bbo]; change (2 ^ 30) with 1073741824; lia).
    destruct (0 <? x) eqn:E1; [|destruct (x <? 0) eqn:E2; [|lia]]; rewrite shl_chk_Ok by lia; cbn [bind]; eexists; (split; [reflexivity|]); apply BAD.
Qed.
Lemma code_z_eq x : code_z x = bits_of 40 (Z.abs x) ++ unary (Z.abs x / 2 ^ 40) (if x =? 0 then [] else [x <? 0]).
Proof. reflexivity. Qed.
Lemma enc_put_z_spec : put_spec enc_put_z code_z.
Proof.
  intros siglen bs st x I Hb. pose proof I as (wr & rest & _ & _ & _ & _ & B & _).
  rewrite clen_z. set (b := Z.abs x / 2 ^ 40).
  assert (Nb : 0 <= b) by (apply Z.div_pos; [lia|reflexivity]).
  assert (SH : Z.shiftr (Z.abs x) 40 = b) by (rewrite Z.shiftr_div_pow2 by lia; reflexivity).
  set (st1 := Enc (e_sig st) (e_off st) (Z.lor (e_buf st) ((bits_value (bits_of 40 (Z.abs x)) * 2 ^ e_bbo st) mod two64)) (e_bbo st + 40)).
  assert (I1 : einv siglen (bs ++ bits_of 40 (Z.abs x)) st1).
  { apply (einv_push siglen bs st (bits_of 40 (Z.abs x)) I). unfold zlen. rewrite bits_of_length. lia. }
  assert (V40 : Z.land (Z.abs x) (2 ^ 40 - 1) = bits_value (bits_of 40 (Z.abs x))).
  { rewrite (land_mask _ 40) by (reflexivity || lia). rewrite bits_value_bits_of. reflexivity. }
  assert (PUT : abs_chk x = Ok (Z.abs x) -> enc_put_z st x =
    (one <- shl_chk 1 b ;;
     (if 0 <? x then
        s <- shl_chk 0 b ;; v <- shl_chk (Z.lor s (sub64 one 1)) (e_bbo st1) ;;
        Ok (Enc (e_sig st1) (e_off st1) (Z.lor (e_buf st1) v) (e_bbo st1 + (b + 2)))
      else if x <? 0 then
        s <- shl_chk 2 b ;; v <- shl_chk (Z.lor s (sub64 one 1)) (e_bbo st1) ;;
        Ok (Enc (e_sig st1) (e_off st1) (Z.lor (e_buf st1) v) (e_bbo st1 + (b + 2)))
      else Ok (Enc (e_sig st1) (e_off st1) (e_buf st1) (e_bbo st1 + 1))))).
  { intros EA. unfold enc_put_z. rewrite EA. cbn [bind]. rewrite shl_chk_Ok by lia. cbn [bind]. rewrite SH, V40. reflexivity. }
  assert (Eb1 : e_bbo st1 = e_bbo st + 40) by reflexivity.
  destruct (_ <=? 63) eqn:C.
  - destruct (abs_chk_cases x) as [[_ Hx]|EA].
    { exfalso. assert (Ebx : b = 2 ^ 23) by (unfold b; rewrite Hx; reflexivity). destruct (x =? 0) eqn:E; [unfold two63 in Hx; lia|]. rewrite Ebx in C. change (2 ^ 23) with 8388608 in C. lia. }
    rewrite (PUT EA). clear PUT. rewrite code_z_eq. fold b. rewrite app_assoc. clearbody st1.
    destruct (x =? 0) eqn:E0.
    + assert (x = 0) by lia. subst x. change (0 <? 0) with false. cbv iota. change b with 0. rewrite shl_chk_Ok by lia. cbn [bind].
      eexists. split; [reflexivity|]. split; [|cbn [e_bbo]; lia].
      pose proof (einv_push _ _ st1 [false] I1 ltac:(unfold zlen; cbn [length]; lia)) as P.
      cbn [bits_value Z.b2z] in P. change (0 + 2 * 0) with 0 in P. rewrite Z.mul_0_l in P. change (0 mod two64) with 0 in P. rewrite Z.lor_0_r in P. exact P.
    + rewrite !shl_chk_Ok by lia. cbn [bind]. rewrite sub_one by lia. rewrite zero_word, neg_word by lia.
      pose proof (einv_push _ _ st1 (unary b [x <? 0]) I1) as P. rewrite unary_length, unary_value in P by lia.
      unfold zlen in P. cbn [length bits_value] in P. replace (b + 1 + Z.of_nat 1) with (b + 2) in P by lia.
      specialize (P ltac:(lia)).
      destruct (0 <? x) eqn:E1; [|destruct (x <? 0) eqn:E2; [|lia]]; rewrite shl_chk_Ok by lia; cbn [bind]; eexists; (split; [reflexivity|]); (split; [|cbn [e_bbo]; lia]).
      * replace (x <? 0) with false in * by lia. cbn [Z.b2z] in P. rewrite Z.mul_0_r, Z.add_0_r in P. exact P.
      * cbn [Z.b2z] in P. replace (2 * (1 + 2 * 0)) with 2 in P by lia. exact P.
  - destruct (x =? 0) eqn:E0; [exfalso; lia|]. destruct (abs_chk_cases x) as [[EA _]|EA]; [left; unfold enc_put_z; rewrite EA; reflexivity|].
    rewrite (PUT EA). clear PUT. clearbody st1.
    destruct (shl_chk_cases 1 b) as [-> |[R ->]]; [left; reflexivity|]. cbn [bind]. rewrite !(shl_chk_Ok _ b) by lia. cbn [bind].
    right. assert (BAD : forall s o b0, ebad (Enc s o b0 (e_bbo st1 + (b + 2)))) by (intros; unfold ebad; cbn [e_bbo]; change (2 ^ 30) with 1073741824; lia).
    destruct (0 <? x) eqn:E1; [|destruct (x <? 0) eqn:E2; [|lia]]; rewrite shl_chk_Ok by lia; cbn [bind]; eexists; (split; [reflexivity|]); apply BAD.
Qed.

(* ---------- loops ---------- *)
Definition codes_of (code : Z -> list bool) (xs : list Z) : list bool := concat (map code xs).
Lemma codes_of_cons code x xs : codes_of code (x :: xs) = code x ++ codes_of code xs.
Proof. reflexivity. Qed.
Lemma codes_of_app code a b : codes_of code (a ++ b) = codes_of code a ++ codes_of code b.
Proof. unfold codes_of. rewrite map_app, concat_app. reflexivity. Qed.
Lemma all_in_window_app code lim pos a b : all_in_window code lim pos (a ++ b) <->
  all_in_window code lim pos a /\ all_in_window code lim (pos + zlen (codes_of code a)) b.
Proof.
  revert pos. induction a as [|x a IH]; intros pos; cbn [app all_in_window].
  - unfold codes_of. cbn. rewrite Z.add_0_r. tauto.
  - rewrite IH, codes_of_cons, zlen_app. unfold zlen. rewrite Z.add_assoc. tauto.
Qed.
Lemma all_in_window_shift code lim k : forall xs pos, all_in_window code lim (pos + 8 * k) xs <-> all_in_window code lim pos xs.
Proof.
  induction xs as [|x xs IH]; intros pos; cbn [all_in_window]; [tauto|]. unfold in_window.
  rewrite (Z.mul_comm 8), Z.mod_add by lia. replace (pos + k * 8 + Z.of_nat (length (code x))) with (pos + Z.of_nat (length (code x)) + 8 * k) by ring.
  rewrite IH. tauto.
Qed.
Lemma all_in_window_dec code lim : forall xs pos, {all_in_window code lim pos xs} + {~ all_in_window code lim pos xs}.
Proof.
  induction xs as [|x xs IH]; intros pos; cbn [all_in_window]; [left; exact I|]. unfold in_window.
  destruct (Z_le_gt_dec (pos mod 8 + Z.of_nat (length (code x))) lim) as [H|H]; [|right; lia].
  destruct (IH (pos + Z.of_nat (length (code x)))) as [K|K]; [left; split; assumption|right; tauto].
Qed.
Lemma enc_loop_app put siglen a b : forall st, enc_loop put siglen (a ++ b) st =
  ('(ok, st) <- enc_loop put siglen a st ;; if negb ok then Ok (false, st) else enc_loop put siglen b st).
Proof.
  induction a as [|x a IH]; intros st; [reflexivity|]. cbn [app enc_loop].
  destruct (enc_flush siglen st) as [[ok st1]| |]; [|reflexivity|reflexivity]. cbn [bind]. destruct ok; [cbn [negb]|reflexivity].
  destruct (put st1 x) as [st2| |]; [|reflexivity|reflexivity]. cbn [bind]. apply IH.
Qed.
Definition not_true (r : res (bool * enc)) : Prop :=
  match r with Ok (true, st) => ebad st | OutOfFuel => False | _ => True end.
Lemma enc_loop_bad put siglen xs st : ebad st -> not_true (enc_loop put siglen xs st).
Proof.
  intros B. destruct xs as [|x xs]; [exact B|]. cbn [enc_loop].
  destruct (enc_flush_bad siglen st B) as [-> | ->]; exact I.
Qed.
Section Loop.
Variables (put : enc -> Z -> res enc) (code : Z -> list bool).
Hypothesis PS : put_spec put code.
Lemma enc_loop_ok siglen : forall xs bs st, einv siglen bs st ->
  (all_in_window code 63 (zlen bs) xs ->
     (exists st', enc_loop put siglen xs st = Ok (true, st') /\ einv siglen (bs ++ codes_of code xs) st') \/
     (exists st', enc_loop put siglen xs st = Ok (false, st') /\ 8 * siglen < zlen bs + zlen (codes_of code xs))) /\
  (~ all_in_window code 63 (zlen bs) xs -> not_true (enc_loop put siglen xs st)).
Proof.
  induction xs as [|x xs IH]; intros bs st I.
  - cbn [enc_loop all_in_window]. split; [intros _|tauto]. left. exists st. split; [reflexivity|].
    unfold codes_of. cbn [map concat]. rewrite app_nil_r. exact I.
  - cbn [enc_loop all_in_window]. unfold in_window. rewrite codes_of_cons, zlen_app. fold (clen code x).
    assert (C0 : 0 <= clen code x) by (unfold clen; lia). pose proof (zlen_nonneg (codes_of code xs)) as N.
    change (zlen (code x)) with (clen code x).
    destruct (enc_flush_ok siglen bs st I) as [[-> L]|(st1 & -> & I1 & B1 & E1)]; cbn [bind negb].
    + split; [|intros _; exact Logic.I]. intros _. right. exists st. split; [reflexivity|]. lia.
    + pose proof (PS siglen bs st1 x I1 B1) as P. rewrite E1 in P. destruct (_ <=? 63) eqn:C.
      * destruct P as (st2 & -> & I2 & _). cbn [bind]. specialize (IH _ _ I2). rewrite zlen_app in IH.
        change (zlen (code x)) with (clen code x) in IH. destruct IH as [H1 H2]. split.
        -- intros [_ W]. destruct (H1 W) as [(st' & E & J)|(st' & E & J)]; [left|right]; exists st'; (split; [exact E|]).
           ++ rewrite <- app_assoc in J. exact J.
           ++ lia.
        -- intros W. apply H2. intros W2. apply W. split; [lia|exact W2].
      * split; [intros [W _]; lia|]. intros _. destruct P as [-> |(st2 & -> & B2)]; [exact Logic.I|]. cbn [bind]. apply enc_loop_bad. exact B2.
Qed.
(* a single code word: the number of buffered bits afterwards *)
Lemma enc_loop_1 siglen x bs st st' : einv siglen bs st -> zlen bs mod 8 + clen code x <= 63 ->
  enc_loop put siglen [x] st = Ok (true, st') -> einv siglen (bs ++ code x) st' /\ e_bbo st' = zlen bs mod 8 + clen code x.
Proof.
  intros I W. cbn [enc_loop].
  destruct (enc_flush_ok siglen bs st I) as [[-> L]|(st1 & -> & I1 & B1 & E1)]; cbn [bind negb]; [discriminate|].
  pose proof (PS siglen bs st1 x I1 B1) as P. rewrite E1 in P. replace (_ <=? 63) with true in P by lia.
  destruct P as (st2 & -> & I2 & E2). cbn [bind]. intros H. inversion H; subst. split; assumption.
Qed.
End Loop.
Lemma enc_final_ok siglen bs st : einv siglen bs st -> 0 < e_bbo st ->
  if e_bbo st <=? 56 then
    (enc_final siglen st = Ok (false, st) /\ 8 * siglen < zlen bs) \/
    (exists st' wr rest n, enc_final siglen st = Ok (true, st') /\ e_sig st' = wr ++ rest /\ e_off st' = zlen wr /\ zlen bs <= 8 * siglen /\
       zlen wr + zlen rest = siglen /\ Forall is_byte wr /\ bits_of_bytes wr = bs ++ repeat false n)
  else not_true (enc_final siglen st) /\ forall st', enc_final siglen st <> Ok (true, st').
Proof.
  intros I Hb. pose proof (einv_len _ _ _ I) as EL. destruct I as (wr & rest & E1 & E2 & E3 & F & B & BB & EB).
  unfold enc_final. replace (0 <? e_bbo st) with true by lia.
  destruct (align_div (e_bbo st + 7)) as [A1 A2]; [change (2 ^ 40) with 1099511627776; lia|]. rewrite A2.
  pose proof (div8_bounds (e_bbo st + 7) ltac:(lia)) as D. set (nb := (e_bbo st + 7) / 8) in *. rewrite A1.
  destruct (e_bbo st <=? 56) eqn:C.
  - destruct (siglen <? e_off st + nb) eqn:S; [left; split; [reflexivity|lia]|right].
    rewrite E1. rewrite put_le_app by lia. cbn [bind]. rewrite shr_chk_Ok by lia. cbn [bind].
    exists (Enc (wr ++ le_bytes (Z.to_nat nb) (e_buf st) ++ skipn (Z.to_nat nb) rest) (e_off st + nb) (e_buf st / 2 ^ (8 * nb)) (e_bbo st - 8 * nb)),
      (wr ++ le_bytes (Z.to_nat nb) (e_buf st)), (skipn (Z.to_nat nb) rest), (Z.to_nat (8 * nb - e_bbo st)).
    assert (L : zlen (le_bytes (Z.to_nat nb) (e_buf st)) = nb) by (unfold zlen; rewrite le_bytes_length; lia).
    assert (L2 : zlen (skipn (Z.to_nat nb) rest) = zlen rest - nb) by (unfold zlen in *; rewrite skipn_length; lia).
    rewrite !zlen_app, L, L2. cbn [e_sig e_off]. repeat apply conj; try lia.
    + reflexivity.
    + rewrite <- !app_assoc. reflexivity.
    + apply Forall_app. split; [exact F|apply le_bytes_byte].
    + rewrite bits_of_bytes_app, bits_of_le_bytes, EB, <- app_assoc. f_equal.
      replace (8 * Z.to_nat nb)%nat with (Z.to_nat (e_bbo st) + Z.to_nat (8 * nb - e_bbo st))%nat by lia.
      rewrite bits_of_app, Z2Nat.id by lia. f_equal. rewrite Z.div_small by exact BB. apply bits_of_0.
  - destruct (siglen <? e_off st + nb) eqn:S; [split; [exact Logic.I|discriminate]|].
    rewrite E1. rewrite put_le_app by lia. cbn [bind].
    unfold shr_chk. replace ((0 <=? _) && (_ <? 64)) with false by lia. split; [exact Logic.I|discriminate].
Qed.
Lemma enc_final_bad siglen st : ebad st -> not_true (enc_final siglen st) /\ forall st', enc_final siglen st <> Ok (true, st').
Proof.
  intros B. unfold ebad in B. unfold enc_final. replace (0 <? e_bbo st) with true by lia.
  destruct (align_div (e_bbo st + 7)) as [A1 A2]; [change (2 ^ 40) with 1099511627776; change (2 ^ 30) with 1073741824 in B; lia|]. rewrite A2.
  pose proof (div8_bounds (e_bbo st + 7) ltac:(lia)) as D.
  destruct (siglen <? _); [split; [exact Logic.I|discriminate]|]. unfold put_le. destruct (subspan _ _ _) as [sp| |] eqn:E; [|split; [exact Logic.I|discriminate]|unfold subspan in E; destruct (_ && _); discriminate].
  cbn [bind]. destruct (write_at _ _ _) as [sp'| |] eqn:E'; [|split; [exact Logic.I|discriminate]|unfold write_at in E'; destruct (_ && _); discriminate].
  cbn [bind]. rewrite A1. unfold shr_chk. replace ((0 <=? _) && (_ <? 64)) with false by lia. split; [exact Logic.I|discriminate].
Qed.

Definition enc_failed (r : res (bool * list Z)) : Prop :=
  match r with Ok (true, _) => False | OutOfFuel => False | _ => True end.
Lemma sig_code_app h zs x : sig_code h (zs ++ [x]) = (codes_of code_h h ++ codes_of code_z zs) ++ code_z x.
Proof.
  unfold sig_code. fold (codes_of code_h h). fold (codes_of code_z (zs ++ [x])). rewrite codes_of_app. unfold codes_of at 3. cbn [map concat].
  rewrite app_nil_r, app_assoc. reflexivity.
Qed.
Lemma clen_z_pos x : 41 <= clen code_z x.
Proof. rewrite clen_z. assert (0 <= Z.abs x / 2 ^ 40) by (apply Z.div_pos; [lia|reflexivity]). destruct (x =? 0); lia. Qed.
Lemma encode_sig_spec c h zs x sig : Forall is_byte c -> zlen c <= zlen sig ->
  (buffer_fits h (zs ++ [x]) ->
     if 8 * zlen c + zlen (sig_code h (zs ++ [x])) <=? 8 * zlen sig
     then exists bytes, encode_sig c h (zs ++ [x]) sig = Ok (true, bytes) /\ zlen bytes = zlen sig /\ Forall is_byte bytes /\
          signature_code c h (zs ++ [x]) bytes
     else exists out, encode_sig c h (zs ++ [x]) sig = Ok (false, out)) /\
  (~ buffer_fits h (zs ++ [x]) -> enc_failed (encode_sig c h (zs ++ [x]) sig)).
Proof.
  intros Fc Lc. unfold encode_sig. cbv zeta.
  assert (Sp : exists pre post, sig = pre ++ post /\ zlen pre = zlen c).
  { exists (firstn (length c) sig), (skipn (length c) sig). rewrite firstn_skipn. split; [reflexivity|]. unfold zlen in *. rewrite firstn_length. lia. }
  destruct Sp as (pre & post & Es & Lp).
  assert (W0 : write_at sig 0 c = Ok (c ++ post)).
  { rewrite Es. change (pre ++ post) with ([] ++ pre ++ post). rewrite write_at_app; [reflexivity|reflexivity|unfold zlen in *; lia]. }
  rewrite W0. cbn [bind]. set (siglen := zlen sig) in *.
  assert (Lpost : zlen c + zlen post = siglen) by (unfold siglen; rewrite Es, zlen_app, Lp; reflexivity). clearbody siglen.
  set (B0 := bits_of_bytes c). assert (LB0 : zlen B0 = 8 * zlen c) by (unfold B0, zlen; rewrite bits_of_bytes_length; lia).
  assert (I0 : einv siglen B0 (Enc (c ++ post) (zlen c) 0 0)).
  { exists c, post. cbn [e_sig e_off e_buf e_bbo]. repeat apply conj; try reflexivity; try assumption; try lia. cbn [Z.to_nat bits_of]. rewrite app_nil_r. reflexivity. }
  destruct (enc_loop_ok enc_put_h code_h enc_put_h_spec siglen h B0 _ I0) as [H1 H2].
  rewrite sig_code_app. rewrite !zlen_app. change (zlen (code_z x)) with (clen code_z x).
  pose proof (clen_z_pos x) as CX. pose proof (zlen_nonneg (codes_of code_h h)) as N1. pose proof (zlen_nonneg (codes_of code_z zs)) as N2.
  set (lh := zlen (codes_of code_h h)) in *. set (lz := zlen (codes_of code_z zs)) in *.
  assert (BF : buffer_fits h (zs ++ [x]) <-> all_in_window code_h 63 (zlen B0) h /\ all_in_window code_z 63 (zlen B0 + lh) (zs ++ [x]) /\ (zlen B0 + lh + lz) mod 8 + clen code_z x <= 56).
  { unfold buffer_fits. fold (codes_of code_h h). change (Z.of_nat (length (codes_of code_h h))) with lh.
    replace (zlen B0) with (0 + 8 * zlen c) by lia. rewrite all_in_window_shift.
    replace (0 + 8 * zlen c + lh) with (lh + 8 * zlen c) by ring. rewrite all_in_window_shift.
    assert (EQ : forall zs0, Z.of_nat (length (sig_code h zs0)) = lh + zlen (codes_of code_z zs0)).
    { intros zs0. unfold sig_code. rewrite app_length, Nat2Z.inj_add. reflexivity. }
    replace ((lh + 8 * zlen c + lz) mod 8) with ((lh + lz) mod 8) by (replace (lh + 8 * zlen c + lz) with (lh + lz + zlen c * 8) by ring; rewrite Z.mod_add by lia; reflexivity).
    split; intros (K1 & K2 & K3); (split; [exact K1|]); (split; [exact K2|]).
    - destruct K3 as (zs' & x' & E & K). apply app_inj_tail in E. destruct E as [<- <-]. unfold in_window in K. rewrite EQ in K. exact K.
    - exists zs, x. split; [reflexivity|]. unfold in_window. rewrite EQ. exact K3. }
  rewrite BF. clear BF.
  destruct (all_in_window_dec code_h 63 h (zlen B0)) as [Wh|Wh].
  2:{ split; [tauto|]. intros _. specialize (H2 Wh). destruct (enc_loop enc_put_h siglen h _) as [[[|] st]| |]; [|exact I|exact I|contradiction].
      cbn [bind negb not_true] in *. pose proof (enc_loop_bad enc_put_z siglen (zs ++ [x]) st H2) as NT.
      destruct (enc_loop enc_put_z siglen (zs ++ [x]) st) as [[[|] st1]| |]; [|exact I|exact I|contradiction].
      cbn [bind negb not_true] in *. destruct (enc_final_bad siglen st1 NT) as [K1 K2].
      destruct (enc_final siglen st1) as [[[|] st2]| |]; [exfalso; apply (K2 st2); reflexivity|exact I|exact I|contradiction]. }
  destruct (H1 Wh) as [(st1 & -> & I1)|(st1 & -> & L1)]; cbn [bind negb].
  2:{ split; [|intros _; exact I]. intros _. fold lh in L1. replace (_ <=? _) with false by lia. eexists. reflexivity. }
  destruct (enc_loop_ok enc_put_z code_z enc_put_z_spec siglen (zs ++ [x]) _ _ I1) as [H3 H4].
  rewrite zlen_app in H3, H4. fold lh in H3, H4. rewrite codes_of_app, zlen_app in H3. fold lz in H3.
  assert (EX : codes_of code_z [x] = code_z x) by (unfold codes_of; cbn [map concat]; apply app_nil_r). rewrite EX in H3. change (zlen (code_z x)) with (clen code_z x) in H3.
  destruct (all_in_window_dec code_z 63 (zs ++ [x]) (zlen B0 + lh)) as [Wz|Wz].
  2:{ split; [tauto|]. intros _. specialize (H4 Wz).
      destruct (enc_loop enc_put_z siglen (zs ++ [x]) st1) as [[[|] st2]| |]; [|exact I|exact I|contradiction].
      cbn [bind negb not_true] in *. destruct (enc_final_bad siglen st2 H4) as [K1 K2].
      destruct (enc_final siglen st2) as [[[|] st3]| |]; [exfalso; apply (K2 st3); reflexivity|exact I|exact I|contradiction]. }
  destruct (H3 Wz) as [(st2 & EL & I2)|(st2 & -> & L2)]; cbn [bind negb].
  2:{ split; [|intros _; exact I]. intros _. replace (_ <=? _) with false by lia. eexists. reflexivity. }
  rewrite EL. cbn [bind negb].
  (* number of buffered bits *)
  assert (EB : e_bbo st2 = (zlen B0 + lh + lz) mod 8 + clen code_z x).
  { rewrite enc_loop_app in EL. rewrite all_in_window_app in Wz. destruct Wz as [Wz1 Wz2]. fold lz in Wz2. cbn [all_in_window] in Wz2.
    destruct (enc_loop_ok enc_put_z code_z enc_put_z_spec siglen zs _ _ I1) as [H5 _]. rewrite zlen_app in H5. fold lh in H5.
    destruct (H5 Wz1) as [(st3 & E3 & I3)|(st3 & E3 & _)]; rewrite E3 in EL; cbn [bind negb] in EL; [|discriminate].
    destruct (enc_loop_1 enc_put_z code_z enc_put_z_spec siglen x _ _ st2 I3) as [_ E4]; [|exact EL|].
    - rewrite !zlen_app. apply (proj1 Wz2).
    - rewrite E4. rewrite !zlen_app. reflexivity. }
  pose proof (Z.mod_pos_bound (zlen B0 + lh + lz) 8 ltac:(lia)) as MB.
  pose proof (enc_final_ok siglen _ st2 I2 ltac:(lia)) as FN. rewrite EB in FN.
  rewrite !zlen_app in FN. change (zlen (code_z x)) with (clen code_z x) in FN. fold lh lz in FN.
  destruct (_ <=? 56) eqn:C56.
  - split; [|intros K; exfalso; apply K; split; [exact Wh|]; split; [exact Wz|lia]]. intros _.
    destruct FN as [[-> L3]|(st3 & wr & rest & n & -> & E1 & E2 & L3 & Lw & Fw & Bw)]; cbn [bind negb].
    + replace (_ <=? _) with false by lia. eexists. reflexivity.
    + replace (_ <=? _) with true by lia. rewrite E1, E2.
      assert (LR : length rest = Z.to_nat (siglen - zlen wr)) by (unfold zlen in *; lia).
      replace (wr ++ rest) with (wr ++ rest ++ []) by (rewrite app_nil_r; reflexivity).
      rewrite write_at_app; [|reflexivity|unfold zlen in *; rewrite repeat_length; lia]. cbn [bind]. rewrite app_nil_r. eexists. split; [reflexivity|].
      split; [rewrite zlen_app; unfold zlen in *; rewrite repeat_length; lia|]. split.
      * apply Forall_app. split; [exact Fw|]. apply Forall_forall. intros y Hy. apply repeat_spec in Hy. subst y. split; [discriminate|reflexivity].
      * exists (n + 8 * Z.to_nat (siglen - zlen wr))%nat. rewrite bits_of_bytes_app, bits_of_bytes_zero, Bw, sig_code_app.
        rewrite repeat_app, <- !app_assoc. reflexivity.
  - destruct FN as [FN1 FN2]. split; [intros (_ & _ & K); lia|]. intros _.
    destruct (enc_final siglen st2) as [[[|] st3]| |]; [exfalso; apply (FN2 st3); reflexivity|exact I|exact I|contradiction].
Qed.

(* the destination keeps its length, also when encoding fails *)
Lemma put_le_len out off n v r : put_le out off n v = Ok r -> zlen r = zlen out.
Proof.
  unfold put_le. destruct (subspan out off n) as [sp| |] eqn:E; cbn [bind]; try discriminate.
  intros W. unfold write_at in W. destruct (_ && _) eqn:C in W; [|discriminate]. inversion W.
  unfold zlen in *. rewrite !app_length, firstn_length, skipn_length. lia.
Qed.
Lemma write_at_len {A} (out : list A) off v r : write_at out off v = Ok r -> zlen r = zlen out.
Proof.
  intros W. unfold write_at in W. destruct (_ && _) eqn:C in W; [|discriminate]. inversion W.
  unfold zlen in *. rewrite !app_length, firstn_length, skipn_length. lia.
Qed.
Lemma enc_flush_len siglen st b st' : enc_flush siglen st = Ok (b, st') -> zlen (e_sig st') = zlen (e_sig st).
Proof.
  unfold enc_flush. destruct (8 <=? e_bbo st); [|intros H; inversion H; reflexivity]. cbv zeta.
  destruct (siglen <? _); [intros H; inversion H; reflexivity|].
  destruct (put_le _ _ _ _) as [s| |] eqn:E; cbn [bind]; try discriminate. destruct (shr_chk _ _) as [v| |]; cbn [bind]; try discriminate.
  intros H; inversion H. cbn [e_sig]. apply put_le_len in E. exact E.
Qed.
Lemma enc_final_len siglen st b st' : enc_final siglen st = Ok (b, st') -> zlen (e_sig st') = zlen (e_sig st).
Proof.
  unfold enc_final. destruct (0 <? e_bbo st); [|intros H; inversion H; reflexivity]. cbv zeta.
  destruct (siglen <? _); [intros H; inversion H; reflexivity|].
  destruct (put_le _ _ _ _) as [s| |] eqn:E; cbn [bind]; try discriminate. destruct (shr_chk _ _) as [v| |]; cbn [bind]; try discriminate.
  intros H; inversion H. cbn [e_sig]. apply put_le_len in E. exact E.
Qed.
Lemma bind_ok_inv {A B} (m : res A) (f : A -> res B) r : bind m f = Ok r -> exists a, m = Ok a /\ f a = Ok r.
Proof. destruct m; cbn [bind]; intros H; [eexists; split; [reflexivity|exact H]|discriminate H|discriminate H]. Qed.
Lemma ok_inj {A} (a b : A) : Ok a = Ok b -> a = b.
Proof. congruence. Qed.
Ltac killbind H := repeat (match type of H with
  | bind ?m _ = Ok _ => let E := fresh "E" in let a := fresh "a" in apply bind_ok_inv in H; destruct H as (a & E & H); clear E
  | (if ?c then _ else _) = Ok _ => destruct c
  end).
Lemma enc_put_h_sig st x st' : enc_put_h st x = Ok st' -> e_sig st' = e_sig st.
Proof. unfold enc_put_h. cbv zeta. intros H. killbind H; apply ok_inj in H; rewrite <- H; reflexivity. Qed.
Lemma enc_put_z_sig st x st' : enc_put_z st x = Ok st' -> e_sig st' = e_sig st.
Proof. unfold enc_put_z. cbv zeta. intros H. killbind H; apply ok_inj in H; rewrite <- H; reflexivity. Qed.
Lemma enc_loop_len put siglen : (forall st x st', put st x = Ok st' -> e_sig st' = e_sig st) ->
  forall xs st b st', enc_loop put siglen xs st = Ok (b, st') -> zlen (e_sig st') = zlen (e_sig st).
Proof.
  intros HP. induction xs as [|x xs IH]; intros st b st' H; cbn [enc_loop] in H; [inversion H; reflexivity|].
  destruct (enc_flush siglen st) as [[ok st1]| |] eqn:E; cbn [bind] in H; try discriminate H. apply enc_flush_len in E.
  destruct (negb ok); [inversion H; subst; exact E|]. destruct (put st1 x) as [st2| |] eqn:E2; cbn [bind] in H; try discriminate H.
  apply HP in E2. apply IH in H. rewrite H, E2. exact E.
Qed.
Lemma encode_sig_len c h z sig b out : encode_sig c h z sig = Ok (b, out) -> zlen out = zlen sig.
Proof.
  unfold encode_sig. cbv zeta. intros H. destruct (write_at sig 0 c) as [s0| |] eqn:E0; cbn [bind] in H; try discriminate H.
  apply write_at_len in E0.
  destruct (enc_loop enc_put_h _ _ _) as [[ok1 st1]| |] eqn:E1; cbn [bind] in H; try discriminate H.
  apply (enc_loop_len _ _ enc_put_h_sig) in E1. cbn [e_sig] in E1.
  destruct (negb ok1); [inversion H; congruence|].
  destruct (enc_loop enc_put_z _ _ _) as [[ok2 st2]| |] eqn:E2; cbn [bind] in H; try discriminate H.
  apply (enc_loop_len _ _ enc_put_z_sig) in E2. destruct (negb ok2); [inversion H; congruence|].
  destruct (enc_final _ _) as [[ok3 st3]| |] eqn:E3; cbn [bind] in H; try discriminate H.
  apply enc_final_len in E3. destruct (negb ok3); [inversion H; congruence|].
  destruct (write_at (e_sig st3) _ _) as [s1| |] eqn:E4; cbn [bind] in H; try discriminate H. apply write_at_len in E4. inversion H; congruence.
Qed.
