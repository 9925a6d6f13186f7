(* Memory safety of signature encoding and decoding in the model ModelMem.v, and its agreement with
   ModelSerial.v on executions without undefined behaviour. *)
From Coq Require Import ZArith Lia Bool List Arith.
From Coq Require Import ZifyBool ZifyNat.
From Verif Require Import ModelBase ModelUtils ModelSerial ModelMem.
From Verif Require Import Spec.
From Verif Require Import Words BytesProofs PackProofs SigEnc.
Import ListNotations.
Open Scope Z_scope.
Ltac Zify.zify_post_hook ::= idtac.

Lemma always_bind {A B} (m : prog A) : forall (f : A -> prog B) R S, always m S -> (forall a, S a -> always (f a) R) -> always (pbind m f) R.
Proof.
  induction m as [a| | |k IH]; intros f R S H1 H2; cbn [pbind always] in *; [apply H2, H1|exact H1|exact Logic.I|].
  intros v. apply (IH v f R S); [apply H1|exact H2].
Qed.
Lemma always_mono {A} (m : prog A) : forall (R S : A -> Prop), always m R -> (forall a, R a -> S a) -> always m S.
Proof. induction m as [a| | |k IH]; intros R S H1 H2; cbn [always] in *; [apply H2, H1|exact H1|exact Logic.I|]. intros v. apply (IH v R S); [apply H1|exact H2]. Qed.
Lemma always_safe {A} (m : prog A) : forall R, always m R -> safe m.
Proof. induction m as [a| | |k IH]; intros R H; cbn [always safe] in *; [exact Logic.I|exact H|exact Logic.I|]. intros v. apply (IH v R), H. Qed.
Lemma u64_is x : is64 (u64 x).
Proof. unfold is64, u64. apply Z.mod_pos_bound. reflexivity. Qed.
Lemma any_word_always : always any_word is64.
Proof. intros v. apply u64_is. Qed.
Lemma shl_any_always a n : always (shl_any a n) is64.
Proof. unfold shl_any. destruct (_ && _); [apply u64_is|apply any_word_always]. Qed.
Lemma shr_any_always a n : is64 a -> always (shr_any a n) is64.
Proof.
  intros Ha. unfold shr_any. destruct (_ && _) eqn:E; [|apply any_word_always]. cbn [always]. unfold shr64. unfold is64 in *. rewrite Z.shiftr_div_pow2 by lia.
  assert (0 < 2 ^ n) by (apply Z.pow_pos_nonneg; lia). split; [apply Z.div_pos; lia|]. apply Z.le_lt_trans with a; [|lia]. apply Z.div_le_upper_bound; [assumption|]. nia.
Qed.
Lemma is64_lor a b : is64 a -> is64 b -> is64 (Z.lor a b).
Proof.
  unfold is64, two64. change 18446744073709551616 with (2 ^ 64). intros Ha Hb. split; [apply Z.lor_nonneg; lia|].
  destruct (Z.eq_dec (Z.lor a b) 0) as [->|N]; [reflexivity|]. assert (0 <= Z.lor a b) by (apply Z.lor_nonneg; lia).
  apply Z.log2_lt_pow2; [lia|]. rewrite Z.log2_lor by lia. apply Z.max_lub_lt.
  - destruct (Z.eq_dec a 0) as [->|]; [reflexivity|]. apply Z.log2_lt_pow2; lia.
  - destruct (Z.eq_dec b 0) as [->|]; [reflexivity|]. apply Z.log2_lt_pow2; lia.
Qed.
Lemma align8_le x : is64 x -> 0 <= align8 x <= x /\ align8 x / 8 = x / 8 /\ 0 <= align8 x / 8 < 2 ^ 61.
Proof.
  intros H. rewrite align8_spec by exact H. unfold is64, two64 in H. rewrite (Z.mul_comm 8), Z.div_mul by lia.
  pose proof (Z.div_mod x 8). pose proof (Z.mod_pos_bound x 8). change (2 ^ 61) with 2305843009213693952. lia.
Qed.

(* ---------- encoder ---------- *)
Definition minv (siglen : Z) (st : enc) : Prop := zlen (e_sig st) = siglen /\ 0 <= e_off st <= siglen /\ is64 (e_bbo st) /\ is64 (e_buf st).
Lemma put_mem_always out off n v : 0 <= off -> 0 <= n -> off + n <= zlen out -> always (put_mem out off n v) (fun o => zlen o = zlen out).
Proof.
  intros H1 H2 H3. unfold put_mem. assert (E : exists o, put_le out off n v = Ok o).
  { unfold put_le. rewrite subspan_Ok by assumption. cbn [bind]. set (sp := firstn _ _). unfold write_at.
    assert (L : zlen (to_le_bytes v sp) = n).
    { unfold to_le_bytes, zlen. rewrite app_length, map_length, seq_length, skipn_length. unfold sp. rewrite firstn_length, skipn_length. unfold zlen in H3. lia. }
    rewrite L. destruct (_ && _) eqn:X; [eexists; reflexivity|exfalso; lia]. }
  destruct E as [o E]. rewrite E. cbn [always]. exact (put_le_len _ _ _ _ _ E).
Qed.
Lemma write_mem_always l off v : 0 <= off -> off + zlen v <= zlen l -> always (write_mem l off v) (fun o => zlen o = zlen l).
Proof.
  intros H1 H2. unfold write_mem. destruct (write_at l off v) as [o| |] eqn:E; [cbn [always]; exact (write_at_len _ _ _ _ E)|..]; exfalso; unfold write_at in E;
    destruct ((0 <=? off) && (off + zlen v <=? zlen l)) eqn:X; try discriminate E; lia.
Qed.
Lemma read_mem_always l off n : 0 <= off -> 0 <= n -> off + n <= zlen l -> always (read_mem l off n) (fun o => zlen o = n).
Proof.
  intros H1 H2 H3. unfold read_mem. rewrite subspan_Ok by assumption. cbn [always]. unfold zlen in *. rewrite firstn_length, skipn_length. lia.
Qed.
Lemma enc_flush_mem_ok siglen st : siglen < 2 ^ 60 -> minv siglen st -> always (enc_flush_mem siglen st) (fun r => minv siglen (snd r)).
Proof.
  intros HL (I1 & I2 & I3 & I4). unfold enc_flush_mem. destruct (8 <=? e_bbo st) eqn:E8; [|cbn [always snd]; repeat split; assumption || apply I2 || apply I3 || apply I4].
  destruct (align8_le _ I3) as (A1 & A2 & A3). cbv zeta. set (wb := align8 (e_bbo st) / 8) in *.
  assert (Ea : add64 (e_off st) wb = e_off st + wb).
  { unfold add64, u64. apply Z.mod_small. change (2 ^ 60) with 1152921504606846976 in HL. change (2 ^ 61) with 2305843009213693952 in A3. unfold two64. lia. }
  rewrite Ea. destruct (siglen <? e_off st + wb) eqn:Ef; [cbn [always snd]; repeat split; assumption || apply I2 || apply I3 || apply I4|].
  destruct A3 as [A3 _]. eapply always_bind; [apply put_mem_always; [apply I2|exact A3|rewrite I1; apply Z.ltb_ge; exact Ef]|]. intros sig Ls. cbv beta in Ls. eapply always_bind; [apply shr_any_always, I4|]. intros buf Hb. cbn [always snd].
  split; [cbn [e_sig]; congruence|]. split; [cbn [e_off]; apply Z.ltb_ge in Ef; lia|]. split; [apply u64_is|exact Hb].
Qed.
Lemma enc_final_mem_ok siglen st : siglen < 2 ^ 60 -> minv siglen st -> always (enc_final_mem siglen st) (fun r => minv siglen (snd r)).
Proof.
  intros HL (I1 & I2 & I3 & I4). unfold enc_final_mem. destruct (0 <? e_bbo st) eqn:E8; [|cbn [always snd]; repeat split; assumption || apply I2 || apply I3 || apply I4].
  destruct (align8_le (add64 (e_bbo st) 7) (u64_is _)) as (A1 & A2 & A3). cbv zeta. set (wb := align8 (add64 (e_bbo st) 7) / 8) in *.
  assert (Ea : add64 (e_off st) wb = e_off st + wb).
  { unfold add64 at 1, u64. apply Z.mod_small. change (2 ^ 60) with 1152921504606846976 in HL. change (2 ^ 61) with 2305843009213693952 in A3. unfold two64. lia. }
  rewrite Ea. destruct (siglen <? e_off st + wb) eqn:Ef; [cbn [always snd]; repeat split; assumption || apply I2 || apply I3 || apply I4|].
  destruct A3 as [A3 _]. eapply always_bind; [apply put_mem_always; [apply I2|exact A3|rewrite I1; apply Z.ltb_ge; exact Ef]|]. intros sig Ls. cbv beta in Ls. eapply always_bind; [apply shr_any_always, I4|]. intros buf Hb. cbn [always snd].
  split; [cbn [e_sig]; congruence|]. split; [cbn [e_off]; apply Z.ltb_ge in Ef; lia|]. split; [apply u64_is|exact Hb].
Qed.
Ltac anyb := eapply always_bind; [first [apply shl_any_always|apply any_word_always]|intros ? ?].
Ltac fin I1 I2 I4 := cbn [always]; split; [exact I1|]; split; [exact I2|]; split; [apply u64_is|]; cbn [e_buf]; repeat (apply is64_lor); assumption.
Lemma enc_put_h_mem_ok siglen st x : minv siglen st -> always (enc_put_h_mem st x) (minv siglen).
Proof.
  intros (I1 & I2 & I3 & I4). unfold enc_put_h_mem. eapply always_bind with (S := fun _ => True).
  { unfold abs_any. destruct (_ =? _); [eapply always_mono; [apply any_word_always|]; auto|exact Logic.I]. }
  intros ax _. anyb. cbv zeta. destruct (0 <? x); [anyb; anyb; fin I1 I2 I4|]. destruct (x <? 0); [anyb; anyb; fin I1 I2 I4|]. anyb. fin I1 I2 I4.
Qed.
Lemma enc_put_z_mem_ok siglen st x : minv siglen st -> always (enc_put_z_mem st x) (minv siglen).
Proof.
  intros (I1 & I2 & I3 & I4). unfold enc_put_z_mem. eapply always_bind with (S := fun _ => True).
  { destruct (_ =? _); [anyb; anyb; exact Logic.I|exact Logic.I]. }
  intros (a & b) _. anyb. cbv zeta. anyb. destruct (0 <? x); [anyb; anyb; fin I1 I2 I4|]. destruct (x <? 0); [anyb; anyb; fin I1 I2 I4|]. fin I1 I2 I4.
Qed.
Lemma enc_loop_mem_ok put siglen xs : siglen < 2 ^ 60 -> (forall st x, minv siglen st -> always (put st x) (minv siglen)) ->
  forall n i st, (i + n <= length xs)%nat -> minv siglen st -> always (enc_loop_mem put siglen xs n i st) (fun r => minv siglen (snd r)).
Proof.
  intros HL Hp. induction n as [|n IH]; intros i st Hi Hs; cbn [enc_loop_mem]; [exact Hs|].
  eapply always_bind; [apply enc_flush_mem_ok; assumption|]. intros (ok & st1) H1. cbn [snd] in H1. destruct (negb ok); [exact H1|].
  eapply always_bind with (S := fun _ => True).
  { unfold get_mem. destruct (nth_error xs i) eqn:E; [exact Logic.I|]. apply nth_error_None in E. exfalso. lia. }
  intros x _. eapply always_bind; [apply Hp, H1|]. intros st2 H2. apply IH; [lia|exact H2].
Qed.
Lemma encode_mem_ok cl nh nz c h z sig : zlen c = cl -> length h = nh -> length z = nz -> cl <= zlen sig < 2 ^ 60 ->
  always (encode_sig_mem cl nh nz c h z sig) (fun r => zlen (snd r) = zlen sig).
Proof.
  intros Lc Lh Lz HL. unfold encode_sig_mem. assert (C0 : 0 <= cl) by (rewrite <- Lc; apply Zle_0_nat).
  eapply always_bind; [apply read_mem_always; lia|]. intros c' Lc'. cbv beta in Lc'. eapply always_bind; [apply write_mem_always; lia|]. intros sg Lsg. cbv beta in Lsg.
  eapply always_bind; [apply (enc_loop_mem_ok enc_put_h_mem (zlen sig) h); [lia|intros; apply enc_put_h_mem_ok; assumption|lia|]|].
  { split; [exact Lsg|]. split; [cbn [e_off]; lia|]. split; split; cbn; lia || reflexivity. }
  intros (ok & st) H1. cbn [snd] in H1. destruct (negb ok); [cbn [always snd]; apply H1|].
  eapply always_bind; [apply (enc_loop_mem_ok enc_put_z_mem (zlen sig) z); [lia|intros; apply enc_put_z_mem_ok; assumption|lia|exact H1]|].
  intros (ok2 & st2) H2. cbn [snd] in H2. destruct (negb ok2); [cbn [always snd]; apply H2|].
  eapply always_bind; [apply enc_final_mem_ok; [lia|exact H2]|]. intros (ok3 & st3) H3. cbn [snd] in H3. destruct (negb ok3); [cbn [always snd]; apply H3|].
  destruct H3 as (J1 & J2 & J3 & J4).
  assert (Es : sub64 (zlen sig) (e_off st3) = zlen sig - e_off st3).
  { unfold sub64, u64. apply Z.mod_small. change (2 ^ 60) with 1152921504606846976 in HL. unfold two64. lia. }
  rewrite Es. eapply always_bind; [apply write_mem_always; [lia|unfold zlen at 1; rewrite repeat_length; lia]|]. intros o Lo. cbv beta in Lo. cbn [always snd]. lia.
Qed.

(* ---------- decoder ---------- *)
Definition dinv (sig : list Z) (st : dec) : Prop := 0 <= d_off st <= zlen sig /\ is64 (d_bbo st) /\ is64 (d_buf st).
Lemma get_bit_mem_ok w i : always (get_bit_mem w i) (fun _ => True).
Proof. unfold get_bit_mem, shr_any. destruct (_ && _); cbn [pbind always]; [exact Logic.I|]. intros v. exact Logic.I. Qed.
Lemma count_ones_mem_ok : forall fuel buffer bbo i, always (count_ones_mem fuel buffer bbo i) (fun _ => True).
Proof.
  induction fuel as [|f IH]; intros buffer bbo i; cbn [count_ones_mem]; destruct (i <? bbo); try exact Logic.I;
    (eapply always_bind; [apply get_bit_mem_ok|]; intros b _; destruct (b =? 1); [|exact Logic.I]); [exact Logic.I|apply IH].
Qed.
Lemma counter_any_ok n : always (counter_any n) (fun _ => True).
Proof. unfold counter_any. destruct (_ <? _); [exact Logic.I|]. intros v. exact Logic.I. Qed.
Lemma hint_coeff_mem_ok fuel buffer bbo : always (hint_coeff_mem fuel buffer bbo) (fun _ => True).
Proof.
  unfold hint_coeff_mem. eapply always_bind; [apply count_ones_mem_ok|]. intros i _. eapply always_bind; [apply counter_any_ok|]. intros v _.
  destruct (i =? bbo); [exact Logic.I|]. cbv zeta. destruct (0 <? v); [|exact Logic.I]. eapply always_bind; [apply get_bit_mem_ok|]. intros b _. exact Logic.I.
Qed.
Lemma response_coeff_mem_ok fuel buffer bbo a : always (response_coeff_mem fuel buffer bbo a) (fun _ => True).
Proof.
  unfold response_coeff_mem. eapply always_bind; [apply count_ones_mem_ok|]. intros i _. eapply always_bind; [apply counter_any_ok|]. intros v _.
  destruct (i =? bbo); [exact Logic.I|]. cbv zeta. eapply always_bind with (S := fun _ => True); [destruct (v <? _); [exact Logic.I|intros w; exact Logic.I]|].
  intros r _. destruct (0 <? r); [|exact Logic.I]. eapply always_bind; [apply get_bit_mem_ok|]. intros b _. exact Logic.I.
Qed.
Lemma refill_mem_ok sig st : zlen sig < 2 ^ 60 -> 0 <= d_off st < zlen sig ->
  always (dec_refill_mem sig st) (fun r => d_off (fst r) = d_off st /\ 0 <= snd r /\ d_off st + snd r <= zlen sig).
Proof.
  intros HL Ho. unfold dec_refill_mem. cbv zeta. destruct (align8_le (sub64 64 (d_bbo st)) (u64_is _)) as (A1 & A2 & A3).
  assert (Es : sub64 (zlen sig) (d_off st) = zlen sig - d_off st).
  { unfold sub64 at 1, u64. apply Z.mod_small. change (2 ^ 60) with 1152921504606846976 in HL. unfold two64. lia. }
  rewrite Es. set (n := Z.min _ _). assert (Hn : 0 <= n <= zlen sig - d_off st) by (unfold n; lia). clearbody n.
  eapply always_bind; [apply read_mem_always; lia|]. intros sp _. eapply always_bind; [apply shl_any_always|]. intros w _. cbn [always fst snd d_off]. lia.
Qed.
Lemma add_off a b L : L < 2 ^ 60 -> 0 <= a -> 0 <= b -> a + b <= L -> add64 a b = a + b.
Proof. intros HL Ha Hb H. unfold add64, u64. apply Z.mod_small. change (2 ^ 60) with 1152921504606846976 in HL. unfold two64. lia. Qed.
Definition dpost (sig h : list Z) (r : bool * dec * list Z * nat) : Prop :=
  let '(_, st, h', idx) := r in 0 <= d_off st <= zlen sig /\ zlen h' = zlen h.
Lemma dec_h_mem_ok sig : zlen sig < 2 ^ 60 -> forall fuel st h idx, 0 <= d_off st <= zlen sig ->
  always (dec_h_loop_mem sig fuel st h idx) (dpost sig h).
Proof.
  intros HL. induction fuel as [|f IH]; intros st h idx Ho; cbn [dec_h_loop_mem]; destruct ((zlen sig <=? d_off st) || (length h <=? idx)%nat) eqn:E;
    try (cbn [always dpost]; lia); try exact Logic.I.
  apply orb_false_elim in E. destruct E as [E1 E2]. apply Nat.leb_gt in E2.
  eapply always_bind; [apply refill_mem_ok; lia|]. intros (st1 & n) (P1 & P2 & P3). cbn [fst snd] in P1, P2, P3.
  eapply always_bind; [apply hint_coeff_mem_ok|]. intros (co & cons) _. destruct (0 <? cons); [|cbn [always dpost]; lia].
  eapply always_bind; [apply write_mem_always; [lia|unfold zlen; cbn [length]; lia]|]. intros h1 Lh1. cbv beta in Lh1.
  eapply always_bind with (S := fun _ => True); [unfold shr_any; destruct (_ && _); [exact Logic.I|intros v; exact Logic.I]|]. intros buf _.
  eapply always_mono; [apply IH|].
  - cbn [d_off]. rewrite (add_off _ _ (zlen sig)) by lia. lia.
  - intros (((b & s2) & h2) & i2) (Q1 & Q2). cbn [dpost]. lia.
Qed.
Lemma dec_z_mem_ok sig : zlen sig < 2 ^ 60 -> forall fuel st h idx, 0 <= d_off st <= zlen sig ->
  always (dec_z_loop_mem sig fuel st h idx) (dpost sig h).
Proof.
  intros HL. induction fuel as [|f IH]; intros st h idx Ho; cbn [dec_z_loop_mem]; destruct ((zlen sig <=? d_off st) || (length h <=? idx)%nat) eqn:E;
    try (cbn [always dpost]; lia); try exact Logic.I.
  apply orb_false_elim in E. destruct E as [E1 E2]. apply Nat.leb_gt in E2.
  eapply always_bind; [apply refill_mem_ok; lia|]. intros (st1 & n) (P1 & P2 & P3). cbn [fst snd] in P1, P2, P3.
  destruct (40 <? d_bbo st1).
  2:{ eapply always_mono; [apply IH|]; [cbn [d_off]; rewrite (add_off _ _ (zlen sig)) by lia; lia|]. intros (((b & s2) & h2) & i2) (Q1 & Q2). cbn [dpost]. lia. }
  cbv zeta. eapply always_bind; [apply response_coeff_mem_ok|]. intros (co & cons) _. destruct (0 <? cons); [|cbn [always dpost]; lia].
  eapply always_bind; [apply write_mem_always; [lia|unfold zlen; cbn [length]; lia]|]. intros h1 Lh1. cbv beta in Lh1.
  eapply always_bind with (S := fun _ => True); [unfold shr_any; destruct (_ && _); [exact Logic.I|intros v; exact Logic.I]|]. intros buf _.
  eapply always_mono; [apply IH|].
  - cbn [d_off]. rewrite (add_off _ _ (zlen sig)) by lia. lia.
  - intros (((b & s2) & h2) & i2) (Q1 & Q2). cbn [dpost]. lia.
Qed.
Lemma decode_mem_ok fuel sig c h z : zlen c <= zlen sig < 2 ^ 60 ->
  always (decode_sig_mem fuel sig c h z) (fun '(_, c', h', z') => zlen c' = zlen c /\ zlen h' = zlen h /\ zlen z' = zlen z).
Proof.
  intros HL. unfold decode_sig_mem. assert (C0 : 0 <= zlen c) by apply Zle_0_nat.
  eapply always_bind; [apply read_mem_always; lia|]. intros c1 Lc1. cbv beta in Lc1. eapply always_bind; [apply write_mem_always; lia|]. intros c2 Lc2. cbv beta in Lc2.
  eapply always_bind; [apply dec_h_mem_ok; [lia|cbn [d_off]; lia]|]. intros (((ok & st) & h1) & i1) (H1 & H2). cbn [dpost] in H1, H2.
  destruct (negb ok); [cbn [always]; lia|]. destruct (_ || _); [cbn [always]; lia|].
  eapply always_bind; [apply dec_z_mem_ok; lia|]. intros (((ok2 & st2) & z1) & i2) (H3 & H4). cbn [dpost] in H3, H4.
  destruct (negb ok2); [cbn [always]; lia|]. destruct (negb _); [cbn [always]; lia|].
  eapply always_bind with (S := fun _ => True).
  { destruct (0 <? d_bbo st2); [|exact Logic.I]. eapply always_bind; [apply shl_any_always|]. intros one _.
    eapply always_bind with (S := fun _ => True); [unfold shr_any; destruct (_ && _); [exact Logic.I|intros v; exact Logic.I]|]. intros _ _. exact Logic.I. }
  intros pad _. destruct (negb pad); [cbn [always]; lia|].
  assert (Es : sub64 (zlen sig) (d_off st2) = zlen sig - d_off st2).
  { unfold sub64, u64. apply Z.mod_small. change (2 ^ 60) with 1152921504606846976 in HL. unfold two64. lia. }
  rewrite Es. eapply always_bind; [apply read_mem_always; lia|]. intros rest _. cbn [always]. lia.
Qed.

(* ---------- agreement with ModelSerial.v ---------- *)
Lemma shl_agree a n v : shl_chk a n = Ok v -> shl_any a n = Ret v /\ 0 <= n < 64.
Proof. unfold shl_chk, shl_any. destruct (_ && _) eqn:E; intros H; [|discriminate H]. apply ok_inj in H. subst v. split; [reflexivity|lia]. Qed.
Lemma shr_agree a n v : shr_chk a n = Ok v -> shr_any a n = Ret v /\ 0 <= n < 64.
Proof. unfold shr_chk, shr_any. destruct (_ && _) eqn:E; intros H; [|discriminate H]. apply ok_inj in H. subst v. split; [reflexivity|lia]. Qed.
Lemma abs_agree x v : abs_chk x = Ok v -> abs_any x = Ret v /\ v = Z.abs x /\ (x =? - two63) = false.
Proof. unfold abs_chk, abs_any. destruct (_ =? _) eqn:E; intros H; [discriminate H|]. apply ok_inj in H. subst v. auto. Qed.
Lemma put_agree out off n v r : put_le out off n v = Ok r -> put_mem out off n v = Ret r.
Proof. unfold put_mem. intros ->. reflexivity. Qed.
Definition sinv (siglen : Z) (st : enc) : Prop := 0 <= e_off st <= siglen /\ 0 <= e_bbo st < 1000.
Lemma small_add a b : 0 <= a < 2 ^ 61 -> 0 <= b < 2 ^ 61 -> add64 a b = a + b.
Proof. change (2 ^ 61) with 2305843009213693952. intros. unfold add64, u64, two64. apply Z.mod_small. lia. Qed.
Lemma small_sub a b : 0 <= a < 2 ^ 61 -> 0 <= b <= a -> sub64 a b = a - b.
Proof. change (2 ^ 61) with 2305843009213693952. intros. unfold sub64, u64, two64. apply Z.mod_small. lia. Qed.
Lemma small61 x : 0 <= x < 4000 -> 0 <= x < 2 ^ 61.
Proof. change (2 ^ 61) with 2305843009213693952. lia. Qed.
Lemma align_small x : 0 <= x < 4000 -> 0 <= align8 x <= x /\ x < align8 x + 8 /\ align8 x / 8 = x / 8 /\ 0 <= align8 x / 8 < 4000.
Proof.
  intros H. assert (I : is64 x) by (unfold is64, two64; lia). rewrite align8_spec by exact I. rewrite (Z.mul_comm 8), Z.div_mul by lia.
  pose proof (Z.div_mod x 8). pose proof (Z.mod_pos_bound x 8). lia.
Qed.
Lemma flush_agree siglen st r : siglen < 2 ^ 60 -> sinv siglen st -> enc_flush siglen st = Ok r -> enc_flush_mem siglen st = Ret r /\ sinv siglen (snd r).
Proof.
  intros HL (I1 & I2) H. unfold enc_flush in H. unfold enc_flush_mem. destruct (8 <=? e_bbo st) eqn:E8; [|apply ok_inj in H; subst r; split; [reflexivity|split; assumption]].
  cbv zeta in *. destruct (align_small (e_bbo st) ltac:(lia)) as (A1 & A2 & A3 & A4). set (wb := align8 (e_bbo st) / 8) in *. set (al := align8 (e_bbo st)) in *.
  assert (HL' : siglen < 1152921504606846976) by exact HL.
  rewrite small_add; [|change (2 ^ 61) with 2305843009213693952; lia|apply small61; exact A4].
  destruct (siglen <? e_off st + wb) eqn:Ef; [apply ok_inj in H; subst r; split; [reflexivity|split; assumption]|].
  apply bind_ok_inv in H. destruct H as (sg & Hs & H). apply bind_ok_inv in H. destruct H as (bf & Hb & H). apply ok_inj in H. subst r.
  rewrite (put_agree _ _ _ _ _ Hs). cbn [pbind]. rewrite (proj1 (shr_agree _ _ _ Hb)). cbn [pbind].
  rewrite small_sub; [|apply small61; lia|lia]. split; [reflexivity|]. split; cbn [snd e_off e_bbo]; lia.
Qed.
Lemma final_agree siglen st r : siglen < 2 ^ 60 -> sinv siglen st -> enc_final siglen st = Ok r ->
  (fst r = true -> e_off (snd r) <= siglen) /\ 0 <= e_off (snd r) /\
  exists st', enc_final_mem siglen st = Ret (fst r, st') /\ e_sig st' = e_sig (snd r) /\ e_off st' = e_off (snd r).
Proof.
  intros HL (I1 & I2) H. unfold enc_final in H. unfold enc_final_mem.
  destruct (0 <? e_bbo st) eqn:E8; [|apply ok_inj in H; subst r; cbn [fst snd]; split; [lia|]; split; [lia|]; exists st; auto].
  cbv zeta in *. rewrite (small_add (e_bbo st) 7) by (apply small61; lia).
  destruct (align_small (e_bbo st + 7) ltac:(lia)) as (A1 & A2 & A3 & A4). set (wb := align8 (e_bbo st + 7) / 8) in *. set (al := align8 (e_bbo st + 7)) in *.
  assert (HL' : siglen < 1152921504606846976) by exact HL.
  rewrite small_add; [|change (2 ^ 61) with 2305843009213693952; lia|apply small61; exact A4].
  destruct (siglen <? e_off st + wb) eqn:Ef; [apply ok_inj in H; subst r; cbn [fst snd]; split; [lia|]; split; [lia|]; exists st; auto|].
  apply bind_ok_inv in H. destruct H as (sg & Hs & H). apply bind_ok_inv in H. destruct H as (bf & Hb & H). apply ok_inj in H. subst r.
  rewrite (put_agree _ _ _ _ _ Hs). cbn [pbind]. rewrite (proj1 (shr_agree _ _ _ Hb)). cbn [pbind fst snd e_off e_sig].
  split; [lia|]. split; [lia|]. eexists. split; [reflexivity|]. split; reflexivity.
Qed.
Lemma put_h_agree siglen st x r : sinv siglen st -> enc_put_h st x = Ok r -> enc_put_h_mem st x = Ret r /\ sinv siglen r.
Proof.
  intros (I1 & I2) H. unfold enc_put_h in H. unfold enc_put_h_mem.
  apply bind_ok_inv in H. destruct H as (ax & Ha & H). destruct (abs_agree _ _ Ha) as (-> & Ex & _). cbn [pbind].
  apply bind_ok_inv in H. destruct H as (on & Ho & H). destruct (shl_agree _ _ _ Ho) as (-> & Hn). cbn [pbind]. cbv zeta in *.
  assert (B : 0 <= e_bbo st < 64 -> add64 (e_bbo st) (add64 ax 2) = e_bbo st + (ax + 2)).
  { intros B. rewrite (small_add ax 2), small_add; [reflexivity|..]; apply small61; lia. }
  destruct (0 <? x); [|destruct (x <? 0)].
  - apply bind_ok_inv in H. destruct H as (s & Hs & H). destruct (shl_agree _ _ _ Hs) as (-> & _). cbn [pbind].
    apply bind_ok_inv in H. destruct H as (v & Hv & H). destruct (shl_agree _ _ _ Hv) as (-> & Hb). cbn [pbind]. apply ok_inj in H. subst r.
    rewrite B by exact Hb. split; [reflexivity|]. split; cbn [e_off e_bbo]; lia.
  - apply bind_ok_inv in H. destruct H as (s & Hs & H). destruct (shl_agree _ _ _ Hs) as (-> & _). cbn [pbind].
    apply bind_ok_inv in H. destruct H as (v & Hv & H). destruct (shl_agree _ _ _ Hv) as (-> & Hb). cbn [pbind]. apply ok_inj in H. subst r.
    rewrite B by exact Hb. split; [reflexivity|]. split; cbn [e_off e_bbo]; lia.
  - apply bind_ok_inv in H. destruct H as (v & Hv & H). destruct (shl_agree _ _ _ Hv) as (-> & Hb). cbn [pbind]. apply ok_inj in H. subst r.
    rewrite small_add; [|apply small61; lia|apply small61; lia]. split; [reflexivity|]. split; cbn [e_off e_bbo]; lia.
Qed.
Lemma put_z_agree siglen st x r : sinv siglen st -> enc_put_z st x = Ok r -> enc_put_z_mem st x = Ret r /\ sinv siglen r.
Proof.
  intros (I1 & I2) H. unfold enc_put_z in H. unfold enc_put_z_mem.
  apply bind_ok_inv in H. destruct H as (ax & Ha & H). destruct (abs_agree _ _ Ha) as (_ & Ex & ->). cbn [pbind]. rewrite <- Ex. cbv zeta in *.
  set (a := Z.land ax (2 ^ 40 - 1)) in *. set (b := Z.shiftr ax 40) in *. clearbody a b.
  apply bind_ok_inv in H. destruct H as (v0 & Hv0 & H). destruct (shl_agree _ _ _ Hv0) as (-> & Hbb). cbn [pbind].
  apply bind_ok_inv in H. destruct H as (on & Ho & H). destruct (shl_agree _ _ _ Ho) as (-> & Hn). cbn [pbind].
  rewrite (small_add (e_bbo st) 40); [|apply small61; lia|apply small61; lia].
  assert (B : add64 (e_bbo st + 40) (add64 b 2) = e_bbo st + 40 + (b + 2)).
  { rewrite (small_add b 2), small_add; [reflexivity|..]; apply small61; lia. }
  destruct (0 <? x); [|destruct (x <? 0)].
  - apply bind_ok_inv in H. destruct H as (s & Hs & H). destruct (shl_agree _ _ _ Hs) as (-> & _). cbn [pbind].
    apply bind_ok_inv in H. destruct H as (v & Hv & H). destruct (shl_agree _ _ _ Hv) as (-> & Hb). cbn [pbind]. apply ok_inj in H. subst r.
    rewrite B. split; [reflexivity|]. split; cbn [e_off e_bbo]; lia.
  - apply bind_ok_inv in H. destruct H as (s & Hs & H). destruct (shl_agree _ _ _ Hs) as (-> & _). cbn [pbind].
    apply bind_ok_inv in H. destruct H as (v & Hv & H). destruct (shl_agree _ _ _ Hv) as (-> & Hb). cbn [pbind]. apply ok_inj in H. subst r.
    rewrite B. split; [reflexivity|]. split; cbn [e_off e_bbo]; lia.
  - apply ok_inj in H. subst r. rewrite small_add; [|apply small61; lia|apply small61; lia]. split; [reflexivity|]. split; cbn [e_off e_bbo]; lia.
Qed.
Lemma loop_agree put putm siglen : siglen < 2 ^ 60 -> (forall st x r, sinv siglen st -> put st x = Ok r -> putm st x = Ret r /\ sinv siglen r) ->
  forall xs pre st r, sinv siglen st -> enc_loop put siglen xs st = Ok r ->
  enc_loop_mem putm siglen (pre ++ xs) (length xs) (length pre) st = Ret r /\ sinv siglen (snd r).
Proof.
  intros HL Hp. induction xs as [|x xs IH]; intros pre st r Hs H; cbn [enc_loop] in H; cbn [enc_loop_mem length].
  - apply ok_inj in H. subst r. split; [reflexivity|exact Hs].
  - apply bind_ok_inv in H. destruct H as ((ok & st1) & H1 & H). destruct (flush_agree siglen st _ HL Hs H1) as (-> & S1). cbn [pbind snd] in *.
    destruct (negb ok); [apply ok_inj in H; subst r; split; [reflexivity|exact S1]|].
    apply bind_ok_inv in H. destruct H as (st2 & H2 & H). destruct (Hp _ _ _ S1 H2) as (E2 & S2).
    unfold get_mem. rewrite nth_error_app2, Nat.sub_diag by apply le_n. cbn [nth_error pbind]. rewrite E2. cbn [pbind].
    replace (pre ++ x :: xs) with ((pre ++ [x]) ++ xs) by (rewrite <- app_assoc; reflexivity).
    replace (S (length pre)) with (length (pre ++ [x])) by (rewrite app_length; cbn [length]; lia).
    apply IH; assumption.
Qed.
Lemma encode_agree c h z sig r : zlen c <= zlen sig -> zlen sig < 2 ^ 60 -> encode_sig c h z sig = Ok r ->
  encode_sig_mem (zlen c) (length h) (length z) c h z sig = Ret r.
Proof.
  intros Lc HL H. unfold encode_sig in H. unfold encode_sig_mem. cbv zeta in *. assert (C0 : 0 <= zlen c) by apply Zle_0_nat.
  unfold read_mem. rewrite subspan_Ok by lia. cbn [pbind]. assert (Ec : firstn (Z.to_nat (zlen c)) (skipn (Z.to_nat 0) c) = c).
  { cbn [Z.to_nat skipn]. unfold zlen. rewrite Nat2Z.id. apply firstn_all. }
  rewrite Ec. apply bind_ok_inv in H. destruct H as (sg & Hs & H). unfold write_mem at 1. rewrite Hs. cbn [pbind].
  apply bind_ok_inv in H. destruct H as ((ok & st) & H1 & H).
  assert (S0 : sinv (zlen sig) (Enc sg (zlen c) 0 0)) by (split; cbn [e_off e_bbo]; lia).
  destruct (loop_agree enc_put_h enc_put_h_mem (zlen sig) HL (put_h_agree _) h [] _ _ S0 H1) as (E1 & S1). cbn [app length] in E1. rewrite E1. cbn [pbind snd] in *.
  destruct (negb ok); [apply ok_inj in H; subst r; reflexivity|].
  apply bind_ok_inv in H. destruct H as ((ok2 & st2) & H2 & H).
  destruct (loop_agree enc_put_z enc_put_z_mem (zlen sig) HL (put_z_agree _) z [] _ _ S1 H2) as (E2 & S2). cbn [app length] in E2. rewrite E2. cbn [pbind snd] in *.
  destruct (negb ok2); [apply ok_inj in H; subst r; reflexivity|].
  apply bind_ok_inv in H. destruct H as ((ok3 & st3) & H3 & H). destruct (final_agree _ _ _ HL S2 H3) as (F1 & F2 & st' & E3 & F3 & F4). cbn [fst snd] in *.
  rewrite E3. cbn [pbind]. rewrite F3, F4. destruct ok3; cbn [negb] in *; [|apply ok_inj in H; subst r; reflexivity].
  specialize (F1 eq_refl). rewrite small_sub; [|change (2 ^ 60) with 1152921504606846976 in HL; change (2 ^ 61) with 2305843009213693952; unfold zlen in *; lia|lia].
  apply bind_ok_inv in H. destruct H as (o & Ho & H). unfold write_mem. rewrite Ho. cbn [pbind]. apply ok_inj in H. subst r. reflexivity.
Qed.
(* decoder *)
Lemma bit_agree w i v : get_bit_at w i = Ok v -> get_bit_mem w i = Ret v /\ 0 <= i < 64.
Proof.
  unfold get_bit_at, get_bit_mem. intros H. apply bind_ok_inv in H. destruct H as (x & Hx & H). destruct (shr_agree _ _ _ Hx) as (-> & B). cbn [pbind].
  apply ok_inj in H. subst v. split; [reflexivity|exact B].
Qed.
Lemma count_agree : forall n f buffer bbo i r, (n <= f)%nat -> 0 <= i <= 64 -> count_ones n buffer bbo i = Ok r -> count_ones_mem f buffer bbo i = Ret r /\ 0 <= r <= 64.
Proof.
  induction n as [|n IH]; intros f buffer bbo i r Hf Hi H.
  - cbn [count_ones] in H. assert (X : count_ones_mem f buffer bbo i = (if i <? bbo then b <~ get_bit_mem buffer i ;; if b =? 1 then match f with O => Fuel | S f => count_ones_mem f buffer bbo (add64 i 1) end else Ret i else Ret i)) by (destruct f; reflexivity).
    rewrite X. destruct (i <? bbo); [|apply ok_inj in H; subst r; split; [reflexivity|exact Hi]].
    apply bind_ok_inv in H. destruct H as (b & Hb & H). destruct (bit_agree _ _ _ Hb) as (-> & B). cbn [pbind]. destruct (b =? 1); [discriminate H|].
    apply ok_inj in H; subst r; split; [reflexivity|exact Hi].
  - destruct f as [|f]; [lia|]. cbn [count_ones] in H. cbn [count_ones_mem]. destruct (i <? bbo); [|apply ok_inj in H; subst r; split; [reflexivity|exact Hi]].
    apply bind_ok_inv in H. destruct H as (b & Hb & H). destruct (bit_agree _ _ _ Hb) as (-> & B). cbn [pbind].
    destruct (b =? 1); [|apply ok_inj in H; subst r; split; [reflexivity|exact Hi]].
    rewrite small_add; [|apply small61; lia|apply small61; lia]. apply (IH f); [lia|lia|exact H].
Qed.
Lemma counter_small n : 0 <= n <= 64 -> counter_any n = Ret n.
Proof. intros H. unfold counter_any. destruct (Z.ltb_spec n two63) as [|B]; [reflexivity|]. unfold two63 in B. lia. Qed.
Lemma hint_agree f buffer bbo r : (65 <= f)%nat -> decode_bits_as_hint_coeff buffer bbo = Ok r -> hint_coeff_mem f buffer bbo = Ret r.
Proof.
  intros Hf H. unfold decode_bits_as_hint_coeff in H. unfold hint_coeff_mem. apply bind_ok_inv in H. destruct H as (i & Hi & H).
  destruct (count_agree _ f _ _ 0 _ Hf ltac:(lia) Hi) as (-> & B). cbn [pbind]. rewrite counter_small by exact B. cbn [pbind]. cbv zeta in *.
  destruct (i =? bbo); [apply ok_inj in H; subst r; reflexivity|]. rewrite small_add; [|apply small61; lia|apply small61; lia].
  destruct (0 <? i); [|apply ok_inj in H; subst r; reflexivity].
  apply bind_ok_inv in H. destruct H as (b & Hb & H). destruct (bit_agree _ _ _ Hb) as (-> & _). cbn [pbind]. apply ok_inj in H. subst r.
  rewrite small_add; [reflexivity|apply small61; lia|apply small61; lia].
Qed.
Lemma response_agree f buffer bbo a r : (65 <= f)%nat -> decode_bits_as_response_coeff buffer bbo a = Ok r -> response_coeff_mem f buffer bbo a = Ret r.
Proof.
  intros Hf H. unfold decode_bits_as_response_coeff in H. unfold response_coeff_mem. apply bind_ok_inv in H. destruct H as (i & Hi & H).
  destruct (count_agree _ f _ _ 0 _ Hf ltac:(lia) Hi) as (-> & B). cbn [pbind]. rewrite counter_small by exact B. cbn [pbind]. cbv zeta in *.
  destruct (i =? bbo); [apply ok_inj in H; subst r; reflexivity|]. rewrite small_add; [|apply small61; lia|apply small61; lia].
  assert (X : (i <? 2 ^ 23) = true) by (apply Z.ltb_lt; change (2 ^ 23) with 8388608; lia). rewrite X. cbn [pbind]. set (v := Z.lor _ a) in *. clearbody v.
  destruct (0 <? v); [|apply ok_inj in H; subst r; reflexivity].
  apply bind_ok_inv in H. destruct H as (b & Hb & H). destruct (bit_agree _ _ _ Hb) as (-> & _). cbn [pbind]. apply ok_inj in H. subst r.
  rewrite small_add; [reflexivity|apply small61; lia|apply small61; lia].
Qed.
Lemma refill_agree sig st r : zlen sig < 2 ^ 60 -> 0 <= d_off st <= zlen sig -> dec_refill sig st = Ok r ->
  dec_refill_mem sig st = Ret r /\ d_off (fst r) = d_off st /\ 0 <= snd r /\ d_off st + snd r <= zlen sig.
Proof.
  intros HL Ho H. unfold dec_refill in H. unfold dec_refill_mem. cbv zeta in *.
  rewrite (small_sub (zlen sig) (d_off st)); [|change (2 ^ 60) with 1152921504606846976 in HL; change (2 ^ 61) with 2305843009213693952; unfold zlen in *; lia|lia].
  set (n := Z.min _ _) in *. apply bind_ok_inv in H. destruct H as (sp & Hs & H). apply bind_ok_inv in H. destruct H as (w & Hw & H). apply ok_inj in H. subst r.
  unfold read_mem. rewrite Hs. cbn [pbind]. destruct (shl_agree _ _ _ Hw) as (-> & _). cbn [pbind fst snd d_off]. split; [reflexivity|]. split; [reflexivity|].
  unfold subspan in Hs. destruct ((0 <=? d_off st) && (0 <=? n) && (d_off st + n <=? zlen sig)) eqn:E; [|discriminate Hs]. lia.
Qed.
Lemma write_one (acc rest : list Z) x y : write_mem (acc ++ y :: rest) (Z.of_nat (length acc)) [x] = Ret ((acc ++ [x]) ++ rest).
Proof.
  unfold write_mem, write_at. rewrite zlen_app. unfold zlen. cbn [length]. destruct (_ && _) eqn:E; [|exfalso; lia].
  rewrite Nat2Z.id, firstn_app, firstn_all, Nat.sub_diag, firstn_O, app_nil_r, <- app_assoc. f_equal. f_equal. cbn [app]. f_equal.
  rewrite skipn_app. replace (length acc + 1 - length acc)%nat with 1%nat by lia. cbn [skipn]. rewrite skipn_all2 by lia. reflexivity.
Qed.
Lemma dec_h_agree sig : zlen sig < 2 ^ 60 -> forall n f st acc rest ok st' h, (n + 66 <= f)%nat -> 0 <= d_off st <= zlen sig -> length rest = n ->
  dec_h_loop sig n st acc = Ok (ok, st', h) -> exists rest', dec_h_loop_mem sig f st (acc ++ rest) (length acc) = Ret (ok, st', h ++ rest', length h)
    /\ 0 <= d_off st' <= zlen sig /\ (length h + length rest' = length acc + n)%nat.
Proof.
  intros HL. induction n as [|n IH]; intros f st acc rest ok st' h Hf Ho Lr H; (destruct f as [|f]; [lia|]); cbn [dec_h_loop] in H; cbn [dec_h_loop_mem].
  - apply ok_inj in H. injection H as <- <- <-. destruct rest; [|discriminate Lr]. rewrite app_nil_r. assert (X : (length acc <=? length acc)%nat = true) by (apply Nat.leb_le; lia).
    rewrite X, orb_true_r. exists []. rewrite app_nil_r. split; [reflexivity|]. cbn [length]. lia.
  - destruct rest as [|y rest]; [discriminate Lr|]. cbn [length] in Lr.
    assert (X : (length (acc ++ y :: rest) <=? length acc)%nat = false) by (apply Nat.leb_gt; rewrite app_length; cbn [length]; lia). rewrite X, orb_false_r.
    destruct (zlen sig <=? d_off st) eqn:E; [apply ok_inj in H; injection H as <- <- <-; exists (y :: rest); cbn [length]; split; [reflexivity|lia]|].
    apply bind_ok_inv in H. destruct H as ((st1 & nb) & Hr & H). destruct (refill_agree _ _ _ HL Ho Hr) as (-> & R1 & R2 & R3). cbn [pbind fst snd] in *.
    apply bind_ok_inv in H. destruct H as ((co & cs) & Hc & H). rewrite (hint_agree (S f) _ _ _ ltac:(lia) Hc). cbn [pbind].
    destruct (0 <? cs); [|apply ok_inj in H; injection H as <- <- <-; exists (y :: rest); cbn [length]; split; [reflexivity|lia]].
    rewrite write_one. cbn [pbind]. apply bind_ok_inv in H. destruct H as (bf & Hb & H). destruct (shr_agree _ _ _ Hb) as (-> & _). cbn [pbind].
    rewrite (add_off _ _ (zlen sig)) by lia. replace (S (length acc)) with (length (acc ++ [co])) by (rewrite app_length; cbn [length]; lia).
    edestruct (IH f) with (4 := H) (rest := rest) as (rest' & Q1 & Q2 & Q3); [lia|cbn [d_off]; lia|lia|].
    exists rest'. rewrite Q1. split; [reflexivity|]. split; [exact Q2|]. rewrite app_length in Q3. cbn [length] in Q3. lia.
Qed.
Lemma dec_z_agree sig : zlen sig < 2 ^ 60 -> forall g n f st acc rest ok st' h, (g + 66 <= f)%nat -> 0 <= d_off st <= zlen sig -> length rest = n ->
  dec_z_loop sig g n st acc = Ok (ok, st', h) -> exists rest', dec_z_loop_mem sig f st (acc ++ rest) (length acc) = Ret (ok, st', h ++ rest', length h)
    /\ 0 <= d_off st' <= zlen sig /\ (length h + length rest' = length acc + n)%nat.
Proof.
  intros HL. induction g as [|g IH]; intros n f st acc rest ok st' h Hf Ho Lr H; (destruct f as [|f]; [lia|]); (destruct n as [|n]; cbn [dec_z_loop] in H; cbn [dec_z_loop_mem];
   [ apply ok_inj in H; injection H as <- <- <-; destruct rest; [|discriminate Lr]; rewrite app_nil_r; assert (X : (length acc <=? length acc)%nat = true) by (apply Nat.leb_le; lia);
     rewrite X, orb_true_r; exists []; rewrite app_nil_r; split; [reflexivity|cbn [length]; lia] | ]);
   (destruct rest as [|y rest]; [discriminate Lr|]; cbn [length] in Lr;
    assert (X : (length (acc ++ y :: rest) <=? length acc)%nat = false) by (apply Nat.leb_gt; rewrite app_length; cbn [length]; lia); rewrite X, orb_false_r;
    destruct (zlen sig <=? d_off st) eqn:E; [apply ok_inj in H; injection H as <- <- <-; exists (y :: rest); cbn [length]; split; [reflexivity|lia]|]).
  - discriminate H.
  - apply bind_ok_inv in H. destruct H as ((st1 & nb) & Hr & H). destruct (refill_agree _ _ _ HL Ho Hr) as (-> & R1 & R2 & R3). cbn [pbind fst snd] in *. cbv zeta in *.
    destruct (40 <? d_bbo st1).
    + apply bind_ok_inv in H. destruct H as ((co & cs) & Hc & H). rewrite (response_agree (S f) _ _ _ _ ltac:(lia) Hc). cbn [pbind].
      destruct (0 <? cs); [|apply ok_inj in H; injection H as <- <- <-; exists (y :: rest); cbn [length]; split; [reflexivity|lia]].
      rewrite write_one. cbn [pbind]. apply bind_ok_inv in H. destruct H as (bf & Hb & H). destruct (shr_agree _ _ _ Hb) as (-> & _). cbn [pbind].
      rewrite (add_off _ _ (zlen sig)) by lia. replace (S (length acc)) with (length (acc ++ [co])) by (rewrite app_length; cbn [length]; lia).
      edestruct (IH n f) with (4 := H) (rest := rest) as (rest' & Q1 & Q2 & Q3); [lia|cbn [d_off]; lia|lia|].
      exists rest'. rewrite Q1. split; [reflexivity|]. split; [exact Q2|]. rewrite app_length in Q3. cbn [length] in Q3. lia.
    + rewrite (add_off _ _ (zlen sig)) by lia.
      edestruct (IH (S n) f) with (4 := H) (rest := y :: rest) as (rest' & Q1 & Q2 & Q3); [lia|cbn [d_off]; lia|cbn [length]; lia|].
      exists rest'. rewrite Q1. split; [reflexivity|]. split; [exact Q2|exact Q3].
Qed.
Definition dec_agree (o : option (list Z * list Z * list Z)) (p : prog (bool * list Z * list Z * list Z)) : Prop :=
  match o with
  | Some (c', h', z') => p = Ret (true, c', h', z')
  | None => exists c' h' z', p = Ret (false, c', h', z')
  end.
Lemma decode_agree sig c h z o fuel : zlen c <= zlen sig < 2 ^ 60 -> (length sig + length h + length z + 66 <= fuel)%nat ->
  decode_sig (zlen c) (length h) (length z) sig = Ok o ->
  dec_agree o (decode_sig_mem fuel sig c h z).
Proof.
  intros HL Hf H. unfold decode_sig in H. unfold decode_sig_mem. assert (C0 : 0 <= zlen c) by apply Zle_0_nat.
  apply bind_ok_inv in H. destruct H as (c1 & Hc & H). unfold read_mem at 1. rewrite Hc. cbn [pbind].
  assert (Lc : length c1 = length c).
  { apply subspan_inv in Hc. destruct Hc as (_ & _ & _ & B & _). unfold zlen in B. lia. }
  assert (Ew : write_mem c 0 c1 = Ret c1).
  { unfold write_mem, write_at. unfold zlen. rewrite Lc. destruct (_ && _) eqn:E; [|exfalso; lia].
    cbn [Z.to_nat firstn app Nat.add]. rewrite skipn_all2 by lia. rewrite app_nil_r. reflexivity. }
  rewrite Ew. cbn [pbind]. assert (Lz : zlen c1 = zlen c) by (unfold zlen; lia). rewrite Lz.
  apply bind_ok_inv in H. destruct H as (((ok & st) & h1) & Hh & H).
  destruct (dec_h_agree sig ltac:(lia) (length h) fuel (Dec (zlen c) 0 0) [] h ok st h1 ltac:(lia) ltac:(cbn [d_off]; lia) eq_refl Hh) as (rh & E1 & S1 & L1).
  cbn [app length] in E1, L1. rewrite E1. cbn [pbind].
  destruct (negb ok); [apply ok_inj in H; subst o; unfold dec_agree; do 3 eexists; reflexivity|].
  rewrite app_length. assert (Eh : (length h1 =? length h1 + length rh)%nat = (length h1 =? length h)%nat) by (rewrite L1; reflexivity).
  rewrite Eh. destruct ((d_off st =? zlen sig) || negb (length h1 =? length h)%nat) eqn:Eb; [apply ok_inj in H; subst o; unfold dec_agree; do 3 eexists; reflexivity|].
  apply orb_false_elim in Eb. destruct Eb as [_ Eb]. apply negb_false_iff, Nat.eqb_eq in Eb.
  destruct rh as [|y rh]; [|cbn [length] in L1; exfalso; lia]. rewrite app_nil_r.
  apply bind_ok_inv in H. destruct H as (((ok2 & st2) & z1) & Hz & H).
  destruct (dec_z_agree sig ltac:(lia) (length sig + length z) (length z) fuel st [] z ok2 st2 z1 ltac:(lia) ltac:(lia) eq_refl Hz) as (rz & E2 & S2 & L2).
  cbn [app length] in E2, L2. rewrite E2. cbn [pbind].
  destruct (negb ok2); [apply ok_inj in H; subst o; unfold dec_agree; do 3 eexists; reflexivity|].
  rewrite app_length. assert (Ez : (length z1 =? length z1 + length rz)%nat = (length z1 =? length z)%nat) by (rewrite L2; reflexivity).
  rewrite Ez. destruct (length z1 =? length z)%nat eqn:Ec; cbn [negb] in H |- *; [|apply ok_inj in H; subst o; unfold dec_agree; do 3 eexists; reflexivity].
  apply Nat.eqb_eq in Ec. destruct rz as [|y rz]; [|cbn [length] in L2; exfalso; lia]. rewrite app_nil_r.
  apply bind_ok_inv in H. destruct H as (pad & Hp & H).
  assert (Ep : (if 0 <? d_bbo st2 then one <~ shl_any 1 (d_bbo st2) ;; _ <~ shr_any (d_buf st2) (d_bbo st2) ;; Ret (Z.land (d_buf st2) (sub64 one 1) =? 0) else Ret true) = Ret pad).
  { destruct (0 <? d_bbo st2); [|apply ok_inj in Hp; subst pad; reflexivity].
    apply bind_ok_inv in Hp. destruct Hp as (one & Ho & Hp). destruct (shl_agree _ _ _ Ho) as (-> & _). cbn [pbind].
    apply bind_ok_inv in Hp. destruct Hp as (w & Hw & Hp). destruct (shr_agree _ _ _ Hw) as (-> & _). cbn [pbind]. apply ok_inj in Hp. subst pad. reflexivity. }
  rewrite Ep. cbn [pbind]. destruct (negb pad); [apply ok_inj in H; subst o; unfold dec_agree; do 3 eexists; reflexivity|].
  apply bind_ok_inv in H. destruct H as (rest & Hr & H).
  rewrite (small_sub (zlen sig) (d_off st2)); [|destruct HL as [_ HL]; change (2 ^ 60) with 1152921504606846976 in HL; change (2 ^ 61) with 2305843009213693952; unfold zlen in *; lia|lia].
  unfold read_mem. rewrite Hr. cbn [pbind]. destruct (forallb _ rest); apply ok_inj in H; subst o; [reflexivity|unfold dec_agree; do 3 eexists; reflexivity].
Qed.
