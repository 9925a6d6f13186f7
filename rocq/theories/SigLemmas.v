(* Lemmas behind the signature encoding properties. *)
From Coq Require Import ZArith Lia Bool List Arith.
From Coq Require Import ZifyBool ZifyNat.
From Verif Require Import ModelBase ModelU128 ModelField ModelUtils ModelPoly ModelVec ModelSerial ModelScheme.
From Verif Require Import Spec SpecScheme SpecSig.
From Verif Require Import Words FieldProofs ArithLemmas BytesProofs PolyProofs PackProofs SkeyProofs SigEnc SigDec SigDec2.
Import ListNotations.
Open Scope Z_scope.
Ltac Zify.zify_post_hook ::= idtac.

Lemma window_mono code lim lim' : lim <= lim' -> forall xs pos, all_in_window code lim pos xs -> all_in_window code lim' pos xs.
Proof.
  intros H. induction xs as [|x xs IH]; intros pos; cbn [all_in_window]; [auto|]. unfold in_window. intros [A B]. split; [lia|apply IH; exact B].
Qed.
Lemma window_each code lim xs : forall pos, all_in_window code lim pos xs -> Forall (fun x => clen code x <= lim) xs.
Proof.
  induction xs as [|x xs IH]; intros pos; cbn [all_in_window]; [constructor|]. unfold in_window. intros [A B]. constructor.
  - pose proof (Z.mod_pos_bound pos 8 ltac:(lia)). unfold clen. lia.
  - apply (IH _ B).
Qed.
Lemma window_bound code lim xs : Forall (fun x => 7 + clen code x <= lim) xs -> forall pos, all_in_window code lim pos xs.
Proof.
  induction 1 as [|x xs H _ IH]; intros pos; cbn [all_in_window]; [exact Logic.I|]. unfold in_window. split; [|apply IH].
  pose proof (Z.mod_pos_bound pos 8 ltac:(lia)). unfold clen in H. lia.
Qed.
Lemma buffer_windows h z : buffer_fits h z -> windows_fit h z.
Proof.
  intros (A & B & _). split; [eapply window_mono; [|exact A]; lia|]. split; [|eapply window_mono; [|exact B]; lia].
  apply window_each in A. eapply Forall_impl; [|exact A]. intros x H. cbv beta in H. rewrite clen_h in H. destruct (x =? 0) eqn:E; lia.
Qed.
(* values for which the encoder's buffer always suffices *)
Lemma small_buffer_fits h z : Forall (fun x => Z.abs x <= 54) h -> Forall (fun x => Z.abs x < 2 ^ 43) z -> z <> [] -> buffer_fits h z.
Proof.
  intros Hh Hz Nz.
  assert (B : Forall (fun x => 7 + clen code_z x <= 56) z).
  { eapply Forall_impl; [|exact Hz]. intros x H. cbv beta in H. rewrite clen_z.
    assert (Z.abs x / 2 ^ 40 <= 7); [|destruct (x =? 0); lia]. apply Z.lt_succ_r. apply Z.div_lt_upper_bound; [reflexivity|]. exact H. }
  split; [|split].
  - apply window_bound. eapply Forall_impl; [|exact Hh]. intros x H. cbv beta in H. rewrite clen_h. destruct (x =? 0); lia.
  - apply window_bound. eapply Forall_impl; [|exact B]. intros x H. cbv beta in H. lia.
  - destruct (exists_last Nz) as (zs & x & ->). exists zs, x. split; [reflexivity|]. apply Forall_app in B. destruct B as [_ B]. inversion B; subst.
    unfold in_window. match goal with |- ?p mod 8 + _ <= _ => pose proof (Z.mod_pos_bound p 8 ltac:(lia)) end. unfold clen in *. lia.
Qed.
Lemma signature_code_unique c h z a b : Forall is_byte a -> Forall is_byte b -> length a = length b ->
  signature_code c h z a -> signature_code c h z b -> a = b.
Proof.
  intros Ha Hb L [n Ea] [m Eb]. apply bits_of_bytes_inj; [exact Ha|exact Hb|].
  assert (n = m). { apply (f_equal (@length bool)) in Ea, Eb. rewrite !app_length, !repeat_length, bits_of_bytes_length in Ea, Eb. lia. }
  subst m. rewrite Ea, Eb. reflexivity.
Qed.
Lemma decode_injective cl nh nz a b r : Forall is_byte a -> Forall is_byte b -> 0 <= cl < zlen a -> zlen a = zlen b ->
  decode_sig cl nh nz a = Ok (Some r) -> decode_sig cl nh nz b = Ok (Some r) -> a = b.
Proof.
  intros Ha Hb Hc L Ea Eb. pose proof (decode_sound cl nh nz a Ha Hc) as Sa. rewrite Ea in Sa.
  pose proof (decode_sound cl nh nz b Hb ltac:(lia)) as Sb. rewrite Eb in Sb. destruct r as [[c h] z].
  apply (signature_code_unique c h z); [exact Ha|exact Hb|unfold zlen in L; lia|tauto|tauto].
Qed.
Lemma encode_true c h z sig bytes : Forall is_byte c -> zlen c <= zlen sig -> z <> [] -> encode_sig c h z sig = Ok (true, bytes) ->
  buffer_fits h z /\ zlen bytes = zlen sig /\ Forall is_byte bytes /\ signature_code c h z bytes.
Proof.
  intros Hc Hl Nz E. destruct (exists_last Nz) as (zs & x & ->).
  destruct (encode_sig_spec c h zs x sig Hc Hl) as [S1 S2].
  assert (BF : buffer_fits h (zs ++ [x]) \/ ~ buffer_fits h (zs ++ [x])).
  { destruct (all_in_window_dec code_h 63 h 0) as [A|A]; [|right; unfold buffer_fits; tauto].
    destruct (all_in_window_dec code_z 63 (zs ++ [x]) (Z.of_nat (length (concat (map code_h h))))) as [B|B]; [|right; unfold buffer_fits; tauto].
    destruct (Z_le_gt_dec (Z.of_nat (length (sig_code h zs)) mod 8 + Z.of_nat (length (code_z x))) 56) as [C|C].
    - left. split; [exact A|]. split; [exact B|]. exists zs, x. split; [reflexivity|exact C].
    - right. intros (_ & _ & zs' & x' & E' & C'). apply app_inj_tail in E'. destruct E' as [<- <-]. unfold in_window in C'. lia. }
  destruct BF as [BF|BF].
  - specialize (S1 BF). destruct (_ <=? _).
    + destruct S1 as (b & Eb & R). rewrite Eb in E. injection E as <-. split; [exact BF|exact R].
    + exfalso. destruct S1 as (o & Eo). rewrite Eo in E. discriminate E.
  - exfalso. specialize (S2 BF). rewrite E in S2. exact S2.
Qed.
Lemma encode_decode c h z sig bytes : Forall is_byte c -> zlen c <= zlen sig -> (2 <= length z)%nat ->
  encode_sig c h z sig = Ok (true, bytes) -> decode_sig (zlen c) (length h) (length z) bytes = Ok (Some (c, h, z)).
Proof.
  intros Hc Hl Hz E. destruct (encode_true c h z sig bytes Hc Hl) as (BF & L & F & S); [destruct z; [cbn in Hz; lia|discriminate]|exact E|].
  apply decode_complete; [exact F|exact Hc|exact S|apply buffer_windows; exact BF|exact Hz].
Qed.
Lemma encode_exact c h z sig : Forall is_byte c -> zlen c <= zlen sig -> z <> [] -> buffer_fits h z ->
  (8 * Z.of_nat (length c) + Z.of_nat (length (sig_code h z)) <= 8 * Z.of_nat (length sig) ->
     exists bytes, encode_sig c h z sig = Ok (true, bytes) /\ length bytes = length sig /\ Forall is_byte bytes /\ signature_code c h z bytes) /\
  (8 * Z.of_nat (length sig) < 8 * Z.of_nat (length c) + Z.of_nat (length (sig_code h z)) ->
     exists out, encode_sig c h z sig = Ok (false, out) /\ length out = length sig).
Proof.
  intros Hc Hl Nz BF. destruct (exists_last Nz) as (zs & x & ->).
  destruct (encode_sig_spec c h zs x sig Hc Hl) as [S1 _]. specialize (S1 BF). fold (zlen c) (zlen sig) (zlen (sig_code h (zs ++ [x]))).
  split; intros H.
  - replace (_ <=? _) with true in S1 by lia. destruct S1 as (b & E & L & R). exists b. split; [exact E|]. split; [unfold zlen in L; lia|exact R].
  - replace (_ <=? _) with false in S1 by lia. destruct S1 as (o & E). exists o. split; [exact E|]. apply encode_sig_len in E. unfold zlen in E. lia.
Qed.
(* ---------- a response within the norm bounds that cannot be encoded ---------- *)
Lemma codes_repeat code x n : zlen (codes_of code (repeat x n)) = Z.of_nat n * clen code x.
Proof.
  induction n as [|n IH]; [reflexivity|]. cbn [repeat]. rewrite codes_of_cons, zlen_app, IH. unfold clen, zlen. lia.
Qed.
Lemma sum_zeros f n : f 0 = 0 -> fold_right Z.add 0 (map f (repeat 0 n)) = 0.
Proof. intros H. induction n as [|n IH]; [reflexivity|]. cbn [repeat map fold_right]. rewrite IH, H. reflexivity. Qed.
Lemma Forall_rep {A} (P : A -> Prop) x n : P x -> Forall P (repeat x n).
Proof. intros H. rewrite Forall_forall. intros y Hy. apply repeat_spec in Hy. subst y. exact H. Qed.
Definition c08_h : list Z := repeat 0 2560.
Definition c08_z : list Z := repeat 0 2047 ++ [32985348833280].
Lemma c08_counter :
  length c08_h = (5 * 512)%nat /\ length c08_z = (4 * 512)%nat /\ norms_ok 44 41954689765971 14656575897 c08_h c08_z /\
  8 * 32 + Z.of_nat (length (sig_code c08_h c08_z)) <= 8 * 11524 /\
  forall c buf bytes, Forall is_byte c -> length c = 32%nat -> Z.of_nat (length buf) = 11524 -> encode_sig c c08_h c08_z buf <> Ok (true, bytes).
Proof.
  unfold c08_h, c08_z. split; [rewrite repeat_length; reflexivity|]. split; [rewrite app_length, repeat_length; reflexivity|]. split; [|split].
  - split; [apply Forall_rep; cbn; lia|]. split; [apply Forall_app; split; [apply Forall_rep; cbn; lia|constructor; [lia|constructor]]|].
    rewrite (sum_zeros (fun x => x * x)) by reflexivity. rewrite map_app, fold_right_app. cbn [map fold_right].
    rewrite <- (Z.add_0_l 0) at 2. generalize 2047%nat. intros n.
    assert (E : forall a, fold_right Z.add a (map (fun x => (Z.abs x / 2 ^ 32) ^ 2) (repeat 0 n)) = a).
    { intros a. induction n as [|n IH]; [reflexivity|]. cbn [repeat map fold_right]. rewrite IH. cbn. lia. }
    rewrite E. vm_compute. discriminate.
  - fold (zlen (sig_code (repeat 0 2560) (repeat 0 2047 ++ [32985348833280]))). rewrite sig_code_app, !zlen_app, !codes_repeat.
    change (clen code_h 0) with 1. change (clen code_z 0) with 41. change (zlen (code_z 32985348833280)) with (clen code_z 32985348833280).
    rewrite clen_z. change (Z.of_nat 2560) with 2560. change (Z.of_nat 2047) with 2047. vm_compute. discriminate.
  - intros c buf bytes Fc Lc Lb E. destruct (encode_true c (repeat 0 2560) (repeat 0 2047 ++ [32985348833280]) buf bytes Fc) as ((_ & B & _) & _).
    + unfold zlen. rewrite Lc, Lb. lia.
    + intros H. apply app_eq_nil in H. destruct H as [_ H]. discriminate H.
    + exact E.
    + apply window_each in B. apply Forall_app in B. destruct B as [_ B]. inversion B as [|? ? B1 B2]; subst. rewrite clen_z in B1. vm_compute in B1. apply B1. reflexivity.
Qed.
(* ---------- a signature on which the decoder is undefined ---------- *)
Definition cut_bytes : list Z := [255; 255; 255; 255; 255; 255; 255; 127].
Lemma decode_undefined c rest n nz : decode_sig (zlen c) (S n) nz (c ++ cut_bytes ++ rest) = UB.
Proof.
  unfold decode_sig. rewrite (subspan_app [] c (cut_bytes ++ rest)) by reflexivity. cbn [bind dec_h_loop d_off].
  pose proof (zlen_nonneg rest) as N. assert (L : zlen (c ++ cut_bytes ++ rest) = zlen c + 8 + zlen rest) by (rewrite !zlen_app; change (zlen cut_bytes) with 8; lia).
  replace (zlen (c ++ cut_bytes ++ rest) <=? zlen c) with false by lia.
  assert (ER : dec_refill (c ++ cut_bytes ++ rest) (Dec (zlen c) 0 0) = Ok (Dec (zlen c) 9223372036854775807 64, 8)).
  { unfold dec_refill. cbn [d_off d_buf d_bbo]. cbv zeta. change (align8 (sub64 64 0) / 8) with 8.
    replace (Z.min 8 (zlen (c ++ cut_bytes ++ rest) - zlen c)) with 8 by lia. rewrite subspan_app by reflexivity. reflexivity. }
  rewrite ER. cbn [bind d_buf d_bbo].
  assert (EH : decode_bits_as_hint_coeff 9223372036854775807 64 = UB).
  { rewrite decode_hint_spec by lia. reflexivity. }
  rewrite EH. reflexivity.
Qed.
Lemma cut_bytes_ok n : Forall is_byte (repeat 0 32 ++ cut_bytes ++ repeat 0 n).
Proof. apply Forall_app. split; [apply Forall_rep; unfold is_byte; lia|]. apply Forall_app. split; [repeat constructor; unfold is_byte; lia|apply Forall_rep; unfold is_byte; lia]. Qed.
Lemma encode_needs_buffer c h z buf bytes : Forall is_byte c -> zlen c <= zlen buf -> z <> [] ->
  encode_sig c h z buf = Ok (true, bytes) ->
  buffer_fits h z /\ 8 * Z.of_nat (length c) + Z.of_nat (length (sig_code h z)) <= 8 * Z.of_nat (length buf).
Proof.
  intros Hc Hl Nz E. destruct (encode_true c h z buf bytes Hc Hl Nz E) as (BF & L & F & S). split; [exact BF|].
  destruct S as [n S]. apply (f_equal (@length bool)) in S. rewrite !app_length, !bits_of_bytes_length in S. unfold zlen in L. lia.
Qed.
Lemma encode_lossless c h z buf : Forall is_byte c -> zlen c <= zlen buf -> (2 <= length z)%nat -> buffer_fits h z ->
  8 * Z.of_nat (length c) + Z.of_nat (length (sig_code h z)) <= 8 * Z.of_nat (length buf) ->
  exists bytes, encode_sig c h z buf = Ok (true, bytes) /\ length bytes = length buf /\
    decode_sig (zlen c) (length h) (length z) bytes = Ok (Some (c, h, z)).
Proof.
  intros Hc Hl Hz BF HL. assert (Nz : z <> []) by (destruct z; [cbn in Hz; lia|discriminate]).
  destruct (proj1 (encode_exact c h z buf Hc Hl Nz BF) HL) as (bytes & E & L & _). exists bytes.
  split; [exact E|]. split; [exact L|]. apply (encode_decode c h z buf); assumption.
Qed.
Lemma encode_exact_small c h z buf : Forall is_byte c -> zlen c <= zlen buf -> z <> [] ->
  Forall (fun x => Z.abs x <= 54) h -> Forall (fun x => Z.abs x < 2 ^ 43) z ->
  (8 * Z.of_nat (length c) + Z.of_nat (length (sig_code h z)) <= 8 * Z.of_nat (length buf) ->
     exists bytes, encode_sig c h z buf = Ok (true, bytes) /\ length bytes = length buf /\
       Forall is_byte bytes /\ signature_code c h z bytes /\
       forall buf', length buf' = length buf -> encode_sig c h z buf' = Ok (true, bytes)) /\
  (8 * Z.of_nat (length buf) < 8 * Z.of_nat (length c) + Z.of_nat (length (sig_code h z)) ->
     exists out, encode_sig c h z buf = Ok (false, out) /\ length out = length buf).
Proof.
  intros Hc Hl Nz Hh Hz. assert (BF := small_buffer_fits h z Hh Hz Nz). destruct (encode_exact c h z buf Hc Hl Nz BF) as [A B].
  split; [|exact B]. intros H. destruct (A H) as (bytes & E & L & F & S). exists bytes. split; [exact E|]. split; [exact L|]. split; [exact F|]. split; [exact S|].
  intros buf' L'. destruct (proj1 (encode_exact c h z buf' Hc ltac:(unfold zlen in *; lia) Nz BF) ltac:(lia)) as (bytes' & E' & Lb' & F' & S').
  rewrite E'. do 2 f_equal. apply (signature_code_unique c h z); try assumption. lia.
Qed.
Lemma c29_example :
  params_ok (raccoon128_params 2) = true /\ length c08_h = (p_k (raccoon128_params 2) * 512)%nat /\
  length c08_z = (p_l (raccoon128_params 2) * 512)%nat /\
  norms_ok 44 (p_Binf (raccoon128_params 2)) (p_B22 (raccoon128_params 2)) c08_h c08_z /\
  ~ norms_ok 44 (p_Binf (raccoon128_params 2)) (p_B22 (raccoon128_params 2)) (repeat 0 2560) (repeat (2 ^ 45) 2048).
Proof.
  destruct c08_counter as (A & B & C & _). split; [vm_compute; reflexivity|]. split; [exact A|]. split; [exact B|]. split; [exact C|].
  intros (_ & _ & H). rewrite (sum_zeros (fun x => x * x)) in H by reflexivity.
  assert (E : fold_right Z.add 0 (map (fun x => (Z.abs x / 2 ^ 32) ^ 2) (repeat (2 ^ 45) 2048)) = Z.of_nat 2048 * 67108864).
  { generalize 2048%nat. intros n. induction n as [|n IH]; [reflexivity|]. cbn [repeat map fold_right]. rewrite IH.
    replace ((Z.abs (2 ^ 45) / 2 ^ 32) ^ 2) with 67108864 by (vm_compute; reflexivity). lia. }
  rewrite E in H. change (Z.of_nat 2048) with 2048 in H. vm_compute in H. apply H. reflexivity.
Qed.
