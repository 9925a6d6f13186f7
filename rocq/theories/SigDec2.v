(* Signature decoder: soundness and completeness. *)
From Coq Require Import ZArith Lia Bool List Arith.
From Coq Require Import ZifyBool ZifyNat.
From Verif Require Import ModelBase ModelU128 ModelField ModelUtils ModelPoly ModelVec ModelSerial.
From Verif Require Import Spec SpecScheme SpecSig.
From Verif Require Import Words FieldProofs ArithLemmas BytesProofs PolyProofs PackProofs SkeyProofs SigEnc SigDec.
Import ListNotations.
Open Scope Z_scope.
Ltac Zify.zify_post_hook ::= idtac.

Lemma refill_poison sig st : poison sig st -> dec_refill sig st = UB.
Proof.
  intros [Hb Ho]. unfold dec_refill. cbv zeta. rewrite Hb.
  destruct (subspan sig _ _) as [sp| |] eqn:E; cbn [bind].
  - unfold shl_chk. change ((0 <=? two64 - 1) && (two64 - 1 <? 64)) with false. reflexivity.
  - reflexivity.
  - exfalso. unfold subspan in E. destruct (_ && _ && _) in E; discriminate E.
Qed.
Lemma dec_h_poison sig n st acc : poison sig st ->
  dec_h_loop sig n st acc = UB \/ (dec_h_loop sig n st acc = Ok (true, st, acc)).
Proof.
  intros Hp. destruct n as [|n]; cbn [dec_h_loop]; [right; reflexivity|].
  destruct (zlen sig <=? d_off st); [right; reflexivity|]. rewrite (refill_poison sig st Hp). left. reflexivity.
Qed.
Lemma dec_z_poison sig f n st acc : poison sig st -> (0 < f)%nat ->
  dec_z_loop sig f n st acc = UB \/ (dec_z_loop sig f n st acc = Ok (true, st, acc)).
Proof.
  intros Hp Hf. destruct f as [|f]; [lia|]. destruct n as [|n]; cbn [dec_z_loop]; [right; reflexivity|].
  destruct (zlen sig <=? d_off st); [right; reflexivity|]. rewrite (refill_poison sig st Hp). left. reflexivity.
Qed.
(* hint loop *)
Definition cut_h (n : nat) (pos : Z) (B : list bool) : Prop :=
  exists xs rest, (length xs < n)%nat /\ B = codes_of code_h xs ++ rest /\ cut_hint (pos + zlen (codes_of code_h xs)) rest.
Definition cut_z (n : nat) (pos : Z) (B : list bool) : Prop :=
  exists xs rest, (length xs < n)%nat /\ B = codes_of code_z xs ++ rest /\ cut_response (pos + zlen (codes_of code_z xs)) rest.
Lemma cut_h_now n pos B : cut_hint pos B -> cut_h (S n) pos B.
Proof. intros H. exists [], B. cbn. rewrite Z.add_0_r. split; [lia|]. split; [reflexivity|exact H]. Qed.
Lemma cut_z_now n pos B : cut_response pos B -> cut_z (S n) pos B.
Proof. intros H. exists [], B. cbn. rewrite Z.add_0_r. split; [lia|]. split; [reflexivity|exact H]. Qed.
Lemma cut_h_next n pos x B : cut_h n (pos + clen code_h x) B -> cut_h (S n) pos (code_h x ++ B).
Proof.
  intros (xs & rest & L & E & C). exists (x :: xs), rest. rewrite codes_of_cons, zlen_app, Z.add_assoc. cbn [length].
  split; [lia|]. split; [rewrite E, app_assoc; reflexivity|exact C].
Qed.
Lemma cut_z_next n pos x B : cut_z n (pos + clen code_z x) B -> cut_z (S n) pos (code_z x ++ B).
Proof.
  intros (xs & rest & L & E & C). exists (x :: xs), rest. rewrite codes_of_cons, zlen_app, Z.add_assoc. cbn [length].
  split; [lia|]. split; [rewrite E, app_assoc; reflexivity|exact C].
Qed.
Lemma dec_h_sound sig : Forall is_byte sig -> forall n st acc, good sig st ->
  match dec_h_loop sig n st acc with
  | Ok (true, st', acc') =>
      (poison sig st' /\ cut_h n (dpos st) (view sig st)) \/
      exists xs, acc' = acc ++ xs /\ good sig st' /\ view sig st = codes_of code_h xs ++ view sig st' /\
        dpos st' = dpos st + zlen (codes_of code_h xs) /\ all_in_window code_h 64 (dpos st) xs /\ Forall (fun x => Z.abs x <= 61) xs
  | Ok (false, _, _) => True
  | UB => cut_h n (dpos st) (view sig st)
  | OutOfFuel => False
  end.
Proof.
  intros Hs. induction n as [|n IH]; intros st acc G.
  - cbn [dec_h_loop]. right. exists []. rewrite app_nil_r. split; [reflexivity|]. split; [exact G|]. split; [reflexivity|]. split; [unfold codes_of; cbn; lia|]. split; [exact Logic.I|constructor].
  - destruct (Z_le_gt_dec (zlen sig) (d_off st)) as [Ho|Ho].
    { cbn [dec_h_loop]. replace (zlen sig <=? d_off st) with true by lia. right. exists []. rewrite app_nil_r. split; [reflexivity|]. split; [exact G|]. split; [reflexivity|]. split; [unfold codes_of; cbn; lia|]. split; [exact Logic.I|constructor]. }
    destruct (dec_h_step sig n st acc Hs G ltac:(lia)) as [st1 k E _|x st' E G' V P W X _|E C|x st' E Pp C].
    + rewrite E. exact Logic.I.
    + rewrite E. specialize (IH st' (acc ++ [x]) G'). rewrite V. rewrite P in IH.
      destruct (dec_h_loop sig n st' (acc ++ [x])) as [[[[|] st2] acc2]| |]; [|exact Logic.I|apply cut_h_next; exact IH|exact IH].
      destruct IH as [[I1 I2]|(xs & I1 & I2 & I3 & I4 & I5 & I6)]; [left; split; [exact I1|apply cut_h_next; exact I2]|].
      right. exists (x :: xs). rewrite codes_of_cons, zlen_app. fold (clen code_h x). cbn [all_in_window].
      split; [rewrite I1, <- app_assoc; reflexivity|]. split; [exact I2|]. split; [rewrite I3, app_assoc; reflexivity|].
      split; [rewrite I4; unfold clen; unfold zlen; lia|]. split; [split; [exact W|exact I5]|constructor; assumption].
    + rewrite E. apply cut_h_now. exact C.
    + rewrite E. destruct (dec_h_poison sig n st' (acc ++ [x]) Pp) as [-> | ->]; [apply cut_h_now; exact C|].
      left. split; [exact Pp|apply cut_h_now; exact C].
Qed.
Lemma dec_z_sound sig : Forall is_byte sig -> forall n f st acc, good sig st -> (n < f)%nat ->
  match dec_z_loop sig f n st acc with
  | Ok (true, st', acc') =>
      (poison sig st' /\ cut_z n (dpos st) (view sig st)) \/ (length acc' < length acc + n)%nat \/
      exists xs, acc' = acc ++ xs /\ good sig st' /\ view sig st = codes_of code_z xs ++ view sig st' /\
        dpos st' = dpos st + zlen (codes_of code_z xs) /\ all_in_window code_z 64 (dpos st) xs
  | Ok (false, _, _) => True
  | UB => cut_z n (dpos st) (view sig st)
  | OutOfFuel => False
  end.
Proof.
  intros Hs. induction n as [|n IH]; intros f st acc G Hf.
  - destruct f; cbn [dec_z_loop]; (right; right; exists []; rewrite app_nil_r; split; [reflexivity|]; split; [exact G|]; split; [reflexivity|]; split; [unfold codes_of; cbn; lia|exact Logic.I]).
  - destruct f as [|f]; [lia|]. destruct (Z_le_gt_dec (zlen sig) (d_off st)) as [Ho|Ho].
    { rewrite dec_z_end by exact Ho. right. left. lia. }
    destruct (dec_z_step sig f n st acc Hs G ltac:(lia)) as [st1 E _|st1 k a E _|x st' E G' V P W _|x st' E Pp C].
    + rewrite E. right. left. lia.
    + rewrite E. exact Logic.I.
    + rewrite E. specialize (IH f st' (acc ++ [x]) G' ltac:(lia)). rewrite V. rewrite P in IH.
      destruct (dec_z_loop sig f n st' (acc ++ [x])) as [[[[|] st2] acc2]| |]; [|exact Logic.I|apply cut_z_next; exact IH|exact IH].
      destruct IH as [[I1 I2]|[I1|(xs & I1 & I2 & I3 & I4 & I5)]].
      * left. split; [exact I1|apply cut_z_next; exact I2].
      * right. left. rewrite app_length in I1. cbn [length] in I1. lia.
      * right. right. exists (x :: xs). rewrite codes_of_cons, zlen_app. fold (clen code_z x). cbn [all_in_window].
        split; [rewrite I1, <- app_assoc; reflexivity|]. split; [exact I2|]. split; [rewrite I3, app_assoc; reflexivity|].
        split; [rewrite I4; unfold clen; unfold zlen; lia|]. split; [exact W|exact I5].
    + rewrite E. destruct (dec_z_poison sig f n st' (acc ++ [x]) Pp ltac:(lia)) as [-> | ->]; [apply cut_z_now; exact C|].
      left. split; [exact Pp|apply cut_z_now; exact C].
Qed.

(* ---------- padding ---------- *)
Lemma view_zlen sig st : good sig st -> zlen (view sig st) = 8 * zlen sig - dpos st.
Proof.
  intros (Ho & Hb & _). unfold view, dpos. rewrite zlen_app. unfold zlen at 1 2. rewrite bits_of_length, bits_of_bytes_length, skipn_length. unfold zlen in *. lia.
Qed.
Lemma bits_false n x : 0 <= x < 2 ^ Z.of_nat n -> (forall b, In b (bits_of n x) -> b = false) -> x = 0.
Proof.
  intros Hx H. assert (E : bits_of n x = repeat false n).
  { rewrite <- (bits_of_length n x) at 2. generalize dependent (bits_of n x). clear. induction l as [|b l IH]; intros H; [reflexivity|].
    cbn [length repeat]. rewrite (H b) by (left; reflexivity). f_equal. apply IH. intros c Hc. apply H. right. exact Hc. }
  apply (f_equal bits_value) in E. rewrite bits_value_bits_of, bits_value_zeros, Z.mod_small in E by exact Hx. exact E.
Qed.
Lemma all_false l : (forall b, In b l -> b = false) -> l = repeat false (length l).
Proof.
  induction l as [|b l IH]; intros H; [reflexivity|]. cbn [length repeat]. rewrite (H b) by (left; reflexivity). f_equal.
  apply IH. intros c Hc. apply H. right. exact Hc.
Qed.
Lemma zero_bytes l : Forall is_byte l -> (forallb (fun b => b =? 0) l = true <-> (forall b, In b (bits_of_bytes l) -> b = false)).
Proof.
  intros Hl. rewrite forallb_forall. split.
  - intros H b Hb. assert (E : l = repeat 0 (length l)).
    { clear - H. induction l as [|x l IH]; [reflexivity|]. cbn [length repeat]. rewrite <- IH by (intros y Hy; apply H; right; exact Hy).
      f_equal. apply Z.eqb_eq. apply H. left. reflexivity. }
    rewrite E, bits_of_bytes_zero in Hb. apply repeat_spec in Hb. exact Hb.
  - intros H x Hx. rewrite Forall_forall in Hl. apply Z.eqb_eq. apply (bits_false 8); [apply Hl; exact Hx|].
    intros b Hb. apply H. unfold bits_of_bytes. apply in_concat. exists (bits_of 8 x). split; [apply in_map; exact Hx|exact Hb].
Qed.
(* serialization.hpp:511-535, the final checks *)
Definition pad_check (sig : list Z) (st : dec) : res bool :=
  pad <- (if 0 <? d_bbo st then
            one <- shl_chk 1 (d_bbo st) ;;
            _ <- shr_chk (d_buf st) (d_bbo st) ;;
            Ok (Z.land (d_buf st) (sub64 one 1) =? 0)
          else Ok true) ;;
  if negb pad then Ok false
  else
    rest <- subspan sig (d_off st) (zlen sig - d_off st) ;;
    Ok (forallb (fun b => b =? 0) rest).
Lemma pad_check_spec sig st : Forall is_byte sig -> good sig st ->
  exists b, pad_check sig st = Ok b /\ (b = true <-> forall x, In x (view sig st) -> x = false).
Proof.
  intros Hs (Ho & Hb & Hbuf). unfold pad_check.
  assert (E : (if 0 <? d_bbo st then
            one <- shl_chk 1 (d_bbo st) ;;
            _ <- shr_chk (d_buf st) (d_bbo st) ;;
            Ok (Z.land (d_buf st) (sub64 one 1) =? 0)
          else Ok true) = Ok (d_buf st =? 0)).
  { destruct (0 <? d_bbo st) eqn:E.
    - rewrite shl_chk_Ok by lia. cbn [bind]. rewrite shr_chk_Ok by lia. cbn [bind]. rewrite sub_one by lia.
      rewrite (land_mask _ (d_bbo st)) by (lia || reflexivity). rewrite Z.mod_small by exact Hbuf. reflexivity.
    - assert (d_bbo st = 0) by lia. rewrite H in Hbuf. change (2 ^ 0) with 1 in Hbuf. replace (d_buf st =? 0) with true by lia. reflexivity. }
  rewrite E. cbn [bind]. clear E. rewrite subspan_Ok by lia. cbn [bind].
  rewrite firstn_all2 by (rewrite skipn_length; unfold zlen in *; lia).
  set (tl := skipn (Z.to_nat (d_off st)) sig). assert (Ht : Forall is_byte tl) by (apply Forall_skipn; exact Hs).
  unfold view. fold tl. destruct (d_buf st =? 0) eqn:E0; cbn [negb].
  - exists (forallb (fun b => b =? 0) tl). split; [reflexivity|]. rewrite (zero_bytes tl Ht). replace (d_buf st) with 0 by lia. rewrite bits_of_0.
    split; intros H x Hx; [apply in_app_iff in Hx; destruct Hx as [Hx|Hx]; [apply repeat_spec in Hx; exact Hx|apply H; exact Hx]|apply H, in_app_iff; right; exact Hx].
  - exists false. split; [reflexivity|]. split; [discriminate|]. intros H. exfalso.
    assert (d_buf st = 0); [|lia]. apply (bits_false (Z.to_nat (d_bbo st))); [rewrite Z2Nat.id by lia; exact Hbuf|].
    intros b Hb'. apply H, in_app_iff. left. exact Hb'.
Qed.
Lemma decode_sig_eq cl nh nz sig : decode_sig cl nh nz sig =
  (c_hash <- subspan sig 0 cl ;;
   '(ok, st, h) <- dec_h_loop sig nh (Dec cl 0 0) [] ;;
   if negb ok then Ok None
   else if (d_off st =? zlen sig) || negb (length h =? nh)%nat then Ok None
   else
     '(ok, st, z) <- dec_z_loop sig (length sig + nz) nz st [] ;;
     if negb ok then Ok None
     else if negb (length z =? nz)%nat then Ok None
     else ok <- pad_check sig st ;; if ok then Ok (Some (c_hash, h, z)) else Ok None).
Proof.
  unfold decode_sig, pad_check. destruct (subspan sig 0 cl) as [c| |]; cbn [bind]; try reflexivity.
  destruct (dec_h_loop _ _ _ _) as [[[ok st] h]| |]; cbn [bind]; try reflexivity. destruct (negb ok); [reflexivity|].
  destruct (_ || _); [reflexivity|].
  destruct (dec_z_loop _ _ _ _ _) as [[[ok2 st2] z]| |]; cbn [bind]; try reflexivity. destruct (negb ok2); [reflexivity|].
  destruct (negb _); [reflexivity|].
  destruct (if 0 <? d_bbo st2 then _ else _) as [pad| |]; cbn [bind]; try reflexivity. destruct (negb pad); [reflexivity|].
  destruct (subspan _ _ _) as [r| |]; cbn [bind]; reflexivity.
Qed.
Lemma pad_poison sig st : poison sig st -> pad_check sig st = UB.
Proof.
  intros [Hb _]. unfold pad_check. rewrite Hb. change (0 <? two64 - 1) with true. cbv iota. unfold shl_chk. change ((0 <=? two64 - 1) && (two64 - 1 <? 64)) with false.
  reflexivity.
Qed.
Lemma view_start sig cl : view sig (Dec cl 0 0) = bits_of_bytes (skipn (Z.to_nat cl) sig).
Proof. reflexivity. Qed.
Lemma cut_hint_mod p p' B : p mod 8 = p' mod 8 -> cut_hint p B -> cut_hint p' B.
Proof. intros E (m & r & H). exists m, r. rewrite <- E. exact H. Qed.
Lemma cut_response_mod p p' B : p mod 8 = p' mod 8 -> cut_response p B -> cut_response p' B.
Proof. intros E (a & m & r & H). exists a, m, r. rewrite <- E. exact H. Qed.
Lemma mod8_shift k p : (8 * k + p) mod 8 = p mod 8.
Proof. rewrite Z.add_comm, (Z.mul_comm 8), Z.mod_add by lia. reflexivity. Qed.
Theorem decode_sound cl nh nz sig : Forall is_byte sig -> 0 <= cl < zlen sig ->
  match decode_sig cl nh nz sig with
  | Ok (Some (c, h, z)) => zlen c = cl /\ Forall is_byte c /\ length h = nh /\ length z = nz /\ windows_fit h z /\ signature_code c h z sig
  | Ok None => True
  | UB => cut_signature nh nz (bits_of_bytes (skipn (Z.to_nat cl) sig))
  | OutOfFuel => False
  end.
Proof.
  intros Hs Hc. rewrite decode_sig_eq. rewrite subspan_Ok by lia. cbn [bind]. change (Z.to_nat 0) with 0%nat. rewrite skipn_O.
  set (c := firstn (Z.to_nat cl) sig). set (B := bits_of_bytes (skipn (Z.to_nat cl) sig)).
  assert (G0 : good sig (Dec cl 0 0)) by (unfold good; cbn; lia).
  pose proof (dec_h_sound sig Hs nh (Dec cl 0 0) [] G0) as H.
  rewrite view_start in H. fold B in H. change (dpos (Dec cl 0 0)) with (8 * cl - 0) in H. rewrite Z.sub_0_r in H.
  assert (CH : cut_h nh (8 * cl) B -> cut_signature nh nz B).
  { intros (xs & rest & L & E & C). left. exists xs, rest. split; [exact L|]. split; [exact E|].
    eapply cut_hint_mod; [|exact C]. apply mod8_shift. }
  destruct (dec_h_loop sig nh (Dec cl 0 0) []) as [[[ok st] h]| |]; cbn [bind]; [|exact (CH H)|exact H].
  destruct ok; cbn [negb]; [|exact Logic.I].
  destruct ((d_off st =? zlen sig) || negb (length h =? nh)%nat) eqn:E1; [exact Logic.I|].
  destruct H as [[Pp C]|(hs & Eh & G & V & P & W & X)].
  { destruct (dec_z_poison sig (length sig + nz) nz st [] Pp) as [-> | ->]; [unfold zlen in Hc; lia|exact (CH C)|]. cbn [bind negb].
    destruct (negb (length _ =? nz)%nat); [exact Logic.I|]. rewrite (pad_poison sig st Pp). exact (CH C). }
  cbn [app] in Eh. subst h.
  pose proof (dec_z_sound sig Hs nz (length sig + nz) st [] G ltac:(unfold zlen in Hc; lia)) as H.
  assert (CZ : cut_z nz (dpos st) (view sig st) -> cut_signature nh nz B).
  { intros (xs & rest & L & E & C). right. exists hs, xs, rest. split; [lia|]. split; [exact L|]. split; [rewrite V, E; unfold sig_code; rewrite <- app_assoc; reflexivity|].
    eapply cut_response_mod; [|exact C]. rewrite P. rewrite <- Z.add_assoc, mod8_shift. f_equal. unfold sig_code, codes_of, zlen. rewrite app_length. lia. }
  destruct (dec_z_loop sig (length sig + nz) nz st []) as [[[ok st2] z]| |]; cbn [bind]; [|exact (CZ H)|exact H].
  destruct ok; cbn [negb]; [|exact Logic.I].
  destruct (negb (length z =? nz)%nat) eqn:E2; [exact Logic.I|].
  destruct H as [[Pp C]|[H|(zs & Ez & G2 & V2 & P2 & W2)]].
  { rewrite (pad_poison sig st2 Pp). exact (CZ C). } { cbn [length] in H. lia. }
  cbn [app] in Ez. subst z. destruct (pad_check_spec sig st2 Hs G2) as (b & -> & Hb). cbn [bind]. destruct b; [|exact Logic.I].
  pose proof (proj1 Hb eq_refl) as HF. apply all_false in HF.
  assert (Fc : Forall is_byte c) by (apply Forall_firstn; exact Hs).
  assert (Lc : zlen c = cl) by (unfold zlen, c in *; rewrite firstn_length; lia).
  split; [exact Lc|]. split; [exact Fc|]. split; [lia|]. split; [lia|]. split.
  - split; [|split; [exact X|]].
    + apply (all_in_window_shift code_h 64 cl hs 0). rewrite Z.add_0_l. exact W.
    + apply (all_in_window_shift code_z 64 cl zs). rewrite P in W2. unfold codes_of, zlen in W2. rewrite Z.add_comm. exact W2.
  - exists (length (view sig st2)). rewrite <- HF. transitivity (bits_of_bytes c ++ B); [rewrite <- (firstn_skipn (Z.to_nat cl) sig) at 1; rewrite bits_of_bytes_app; reflexivity|]. f_equal. rewrite V, V2.
    unfold sig_code. rewrite <- app_assoc. reflexivity.
Qed.

(* ---------- completeness ---------- *)
Lemma off_lt sig st : good sig st -> d_bbo st < zlen (view sig st) -> d_off st < zlen sig.
Proof. intros G H. rewrite (view_zlen sig st G) in H. unfold dpos in H. lia. Qed.
Lemma ones_ge k r : (k <= ones (repeat true k ++ r))%nat.
Proof. induction k as [|k IH]; [lia|]. cbn [repeat app ones]. lia. Qed.
Lemma dec_h_complete sig : Forall is_byte sig -> forall xs st acc R, good sig st -> view sig st = codes_of code_h xs ++ R -> 64 <= zlen R ->
  all_in_window code_h 64 (dpos st) xs -> Forall (fun x => Z.abs x <= 61) xs ->
  exists st', dec_h_loop sig (length xs) st acc = Ok (true, st', acc ++ xs) /\ good sig st' /\ view sig st' = R /\ dpos st' = dpos st + zlen (codes_of code_h xs).
Proof.
  intros Hs. induction xs as [|x xs IH]; intros st acc R G V HR W X.
  - cbn [length dec_h_loop]. exists st. rewrite app_nil_r. split; [reflexivity|]. split; [exact G|]. split; [exact V|]. cbn. lia.
  - cbn [all_in_window] in W. destruct W as [W1 W2]. unfold in_window in W1. fold (clen code_h x) in W1, W2. inversion X as [|? ? X1 X2]; subst. rewrite codes_of_cons, <- app_assoc in V.
    assert (Ho : d_off st < zlen sig).
    { apply (off_lt sig st G). rewrite V, !zlen_app. destruct G as (_ & Gb & _). pose proof (zlen_nonneg (code_h x)). pose proof (zlen_nonneg (codes_of code_h xs)). lia. }
    assert (ON : ones (view sig st) = Z.to_nat (Z.abs x)) by (rewrite V, code_h_split; apply ones_app).
    cbn [length]. destruct (dec_h_step sig (length xs) st acc Hs G Ho) as [st1 k E (rest & K & KE)|y st' E G' V' P W' X' _|E (m & rest & EM & M1 & M2 & M3)|y st' E Pp (m & rest & EM & M1 & M2 & M3)].
    + exfalso. pose proof (ones_ge k rest) as O1. rewrite <- K, ON in O1. destruct KE as [KE|KE].
      * rewrite clen_h in W1. destruct (x =? 0) eqn:X0; lia.
      * subst rest. rewrite app_nil_r in K. rewrite V, code_h_split in K. clear - K.
        assert (In false (repeat true k)) by (rewrite <- K; apply in_app_iff; right; left; reflexivity). apply repeat_spec in H. discriminate H.
    + rewrite V in V'. apply code_h_unique in V'. destruct V' as [<- V'].
      destruct (IH st' (acc ++ [x]) R G') as (st2 & I1 & I2 & I3 & I4); [rewrite V'; reflexivity|exact HR|rewrite P; exact W2|exact X2|].
      exists st2. rewrite E, I1, <- app_assoc. split; [reflexivity|]. split; [exact I2|]. split; [exact I3|]. rewrite I4, P, codes_of_cons, zlen_app. unfold clen, zlen. lia.
    + exfalso. rewrite V, code_h_split in EM. apply unary_unique in EM. destruct EM as [EM1 EM2]. rewrite clen_h in W1. destruct (x =? 0) eqn:X0; [lia|].
      destruct M3 as [M3|[M3|M3]]; [lia|lia|rewrite M3 in EM2; discriminate EM2].
    + exfalso. rewrite V, code_h_split in EM. apply unary_unique in EM. destruct EM as [EM1 EM2]. rewrite clen_h in W1. destruct (x =? 0) eqn:X0; [lia|].
      destruct M3 as [M3|[M3|M3]]; [lia|lia|rewrite M3 in EM2; discriminate EM2].
Qed.
Lemma codes_z_ge xs : xs <> [] -> 41 <= zlen (codes_of code_z xs).
Proof. destruct xs as [|x xs]; [congruence|]. intros _. rewrite codes_of_cons, zlen_app. pose proof (clen_z_pos x). unfold clen in *. pose proof (zlen_nonneg (codes_of code_z xs)). unfold zlen in *. lia. Qed.
Lemma dec_z_complete sig : Forall is_byte sig -> forall xs f st acc R, good sig st -> view sig st = codes_of code_z xs ++ R ->
  (xs <> [] -> d_bbo st < zlen (codes_of code_z xs)) -> (length xs <= f)%nat -> all_in_window code_z 64 (dpos st) xs ->
  exists st', dec_z_loop sig f (length xs) st acc = Ok (true, st', acc ++ xs) /\ good sig st' /\ view sig st' = R.
Proof.
  intros Hs. induction xs as [|x xs IH]; intros f st acc R G V HB Hf W.
  - exists st. rewrite app_nil_r. cbn [length]. split; [destruct f; reflexivity|]. split; [exact G|exact V].
  - destruct f as [|f]; [cbn [length] in Hf; lia|]. cbn [all_in_window] in W. destruct W as [W1 W2]. unfold in_window in W1. fold (clen code_z x) in W1, W2.
    specialize (HB ltac:(congruence)).
    assert (Ho : d_off st < zlen sig) by (apply (off_lt sig st G); rewrite V, zlen_app; pose proof (zlen_nonneg R); lia).
    rewrite codes_of_cons, <- app_assoc in V. pose proof (clen_z_pos x) as CP. pose proof W1 as W1'. rewrite clen_z in W1'.
    assert (NV : 0 <= Z.abs x / 2 ^ 40) by (apply Z.div_pos; [lia|reflexivity]).
    cbn [length] in *. destruct (dec_z_step sig f (length xs) st acc Hs G Ho) as [st1 E SH|st1 k a E (rest & K & KE)|y st' E G' V' P W' B'|y st' E Pp (a & m & rest & EM & EA & EP & M2 & M3)].
    + exfalso. rewrite V, app_length in SH. unfold clen in CP. lia.
    + exfalso. rewrite V, code_z_split in K. apply app_inj_len in K; [|rewrite !bits_of_length; reflexivity]. destruct K as [_ K].
      destruct KE as [KE|KE].
      * pose proof (ones_ge k rest) as O1. rewrite <- K, ones_app in O1. destruct (x =? 0) eqn:X0; [|lia]. replace x with 0 in O1 by lia. change (Z.to_nat (Z.abs 0 / 2 ^ 40)) with 0%nat in O1.
        pose proof (Z.mod_pos_bound (dpos st) 8 ltac:(lia)). lia.
      * subst rest. rewrite app_nil_r in K. clear - K. assert (In false (repeat true k)) by (rewrite <- K; apply in_app_iff; right; left; reflexivity).
        apply repeat_spec in H. discriminate H.
    + rewrite V in V'. apply code_z_unique in V'. destruct V' as [<- V'].
      destruct (IH f st' (acc ++ [x]) R G') as (st2 & I1 & I2 & I3); [rewrite V'; reflexivity|intros NE; pose proof (codes_z_ge xs NE); lia|lia|rewrite P; exact W2|].
      exists st2. rewrite E, I1, <- app_assoc. split; [reflexivity|]. split; [exact I2|exact I3].
    + exfalso. rewrite V, code_z_split in EM. apply app_inj_len in EM; [|rewrite !bits_of_length; reflexivity]. destruct EM as [EM0 EM].
      apply unary_unique in EM. destruct EM as [EM1 EM2]. destruct (x =? 0) eqn:X0.
      * assert (x = 0) by lia. subst x. apply (f_equal bits_value) in EM0. rewrite !bits_value_bits_of in EM0. change (Z.of_nat 40) with 40 in EM0.
        rewrite (Z.mod_small a) in EM0 by exact EA. cbn in EM0, EM1. subst a m. cbn in EP. lia.
      * destruct M3 as [M3|M3]; [|rewrite M3 in EM2; discriminate EM2]. lia.
Qed.
Theorem decode_complete c h z sig : Forall is_byte sig -> Forall is_byte c -> signature_code c h z sig -> windows_fit h z -> (2 <= length z)%nat ->
  decode_sig (zlen c) (length h) (length z) sig = Ok (Some (c, h, z)).
Proof.
  intros Hs Hc (n & EB) (W1 & X & W2) Hz.
  assert (LZ : 82 <= zlen (codes_of code_z z)).
  { destruct z as [|x [|y z]]; cbn [length] in Hz; try lia. rewrite !codes_of_cons, !zlen_app. pose proof (clen_z_pos x). pose proof (clen_z_pos y).
    pose proof (zlen_nonneg (codes_of code_z z)). unfold clen in *. unfold zlen in *. lia. }
  assert (LS : 8 * zlen sig = 8 * zlen c + zlen (codes_of code_h h) + zlen (codes_of code_z z) + Z.of_nat n).
  { apply (f_equal (@zlen bool)) in EB. rewrite !zlen_app in EB. unfold sig_code in EB. rewrite zlen_app in EB. fold (codes_of code_h h) (codes_of code_z z) in EB.
    unfold zlen in EB at 1 2. rewrite !bits_of_bytes_length in EB. unfold zlen in EB at 3. rewrite repeat_length in EB. unfold zlen at 1 2. lia. }
  pose proof (zlen_nonneg (codes_of code_h h)) as NH. pose proof (zlen_nonneg c) as NC.
  assert (SP : firstn (length c) sig = c /\ bits_of_bytes (skipn (length c) sig) = sig_code h z ++ repeat false n).
  { rewrite <- (firstn_skipn (length c) sig) in EB at 1. rewrite bits_of_bytes_app in EB.
    apply app_inj_len in EB; [|rewrite !bits_of_bytes_length, firstn_length; unfold zlen in *; lia]. destruct EB as [E1 E2].
    split; [|exact E2]. apply bits_of_bytes_inj; [apply Forall_firstn; exact Hs|exact Hc|exact E1]. }
  destruct SP as [SP1 SP2]. rewrite decode_sig_eq. rewrite subspan_Ok by lia. cbn [bind]. change (Z.to_nat 0) with 0%nat. rewrite skipn_O.
  replace (Z.to_nat (zlen c)) with (length c) by (unfold zlen; lia). rewrite SP1.
  assert (G0 : good sig (Dec (zlen c) 0 0)) by (unfold good; cbn; lia).
  destruct (dec_h_complete sig Hs h (Dec (zlen c) 0 0) [] (codes_of code_z z ++ repeat false n) G0) as (st & -> & G & V & P).
  - rewrite view_start. replace (Z.to_nat (zlen c)) with (length c) by (unfold zlen; lia). rewrite SP2. unfold sig_code. rewrite <- app_assoc. reflexivity.
  - rewrite zlen_app. pose proof (zlen_nonneg (repeat false n)). lia.
  - change (dpos (Dec (zlen c) 0 0)) with (8 * zlen c - 0). rewrite Z.sub_0_r. rewrite <- (Z.add_0_l (8 * zlen c)). apply all_in_window_shift. exact W1.
  - exact X.
  - change (dpos (Dec (zlen c) 0 0)) with (8 * zlen c - 0) in P. rewrite Z.sub_0_r in P. cbn [bind negb app]. rewrite Nat.eqb_refl. cbn [negb]. rewrite orb_false_r.
    assert (Ho : d_off st < zlen sig).
    { apply (off_lt sig st G). rewrite V, zlen_app. destruct G as (_ & Gb & _). pose proof (zlen_nonneg (repeat false n)). lia. }
    replace (d_off st =? zlen sig) with false by lia.
    destruct (dec_z_complete sig Hs z (length sig + length z) st [] (repeat false n) G V) as (st2 & -> & G2 & V2).
    + intros _. destruct G as (_ & Gb & _). lia.
    + lia.
    + rewrite P, Z.add_comm. apply all_in_window_shift. exact W2.
    + cbn [bind negb app]. rewrite Nat.eqb_refl. cbn [negb]. destruct (pad_check_spec sig st2 Hs G2) as (b & -> & Hb). cbn [bind].
      rewrite (proj2 Hb); [reflexivity|]. rewrite V2. intros x Hx. apply repeat_spec in Hx. exact Hx.
Qed.
