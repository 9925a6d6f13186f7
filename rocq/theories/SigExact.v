(* Signature decoder: exactly when its behaviour is undefined. *)
From Coq Require Import ZArith Lia Bool List Arith.
From Coq Require Import ZifyBool ZifyNat.
From Verif Require Import ModelBase ModelU128 ModelField ModelUtils ModelPoly ModelVec ModelSerial.
From Verif Require Import Spec SpecScheme SpecSig.
From Verif Require Import Words FieldProofs ArithLemmas BytesProofs PolyProofs PackProofs SkeyProofs SigEnc SigDec SigDec2.
Import ListNotations.
Open Scope Z_scope.
Ltac Zify.zify_post_hook ::= idtac.

(* one step of the hint loop, with the shape of the bits in every case *)
Inductive h_step' (sig : list Z) (n : nat) (st : dec) (acc : list Z) : Prop :=
| h_fail' st1 k : dec_h_loop sig (S n) st acc = Ok (false, st1, acc) ->
    (exists rest, view sig st = repeat true k ++ rest /\ (Z.of_nat k = 64 - dpos st mod 8 \/ rest = [])) -> h_step' sig n st acc
| h_good' x st' : dec_h_loop sig (S n) st acc = dec_h_loop sig n st' (acc ++ [x]) -> good sig st' -> view sig st = code_h x ++ view sig st' ->
    dpos st' = dpos st + clen code_h x -> dpos st mod 8 + clen code_h x <= 64 -> Z.abs x <= 61 ->
    (d_bbo st' = 64 - dpos st mod 8 - clen code_h x \/ d_off st' = zlen sig) -> d_bbo st' <= 64 - dpos st mod 8 - clen code_h x -> h_step' sig n st acc
| h_ub' m rest : dec_h_loop sig (S n) st acc = UB -> view sig st = repeat true m ++ false :: rest -> 62 <= Z.of_nat m ->
    dpos st mod 8 + Z.of_nat m + 1 <= 64 -> h_step' sig n st acc
| h_poison' x st' m rest : dec_h_loop sig (S n) st acc = dec_h_loop sig n st' (acc ++ [x]) -> poison sig st' ->
    view sig st = repeat true m ++ false :: rest -> (1 <= m)%nat -> Z.of_nat m <= 61 ->
    dpos st mod 8 + Z.of_nat m + 1 <= 64 -> (dpos st mod 8 + Z.of_nat m + 1 = 64 \/ rest = []) ->
    (d_off st' = zlen sig <-> rest = []) -> h_step' sig n st acc.
Lemma bits_nil sig off : 0 <= off <= zlen sig -> (off = zlen sig <-> bits_of_bytes (skipn (Z.to_nat off) sig) = []).
Proof.
  intros H. split; [apply skipn_nil_bits|]. intros E. apply (f_equal (@length bool)) in E. rewrite bits_of_bytes_length, skipn_length in E. cbn [length] in E. unfold zlen in *. lia.
Qed.
Lemma dec_h_step' sig n st acc : Forall is_byte sig -> good sig st -> d_off st < zlen sig -> h_step' sig n st acc.
Proof.
  intros Hs G Ho. destruct (refill_spec sig st Hs G) as (buf & nb & ER & N0 & N1 & NW & NE & HB & EV).
  destruct G as (Go & Gb & Gbuf).
  set (B := d_bbo st + 8 * nb) in *. set (off := d_off st + nb) in *.
  assert (M8 := Z.mod_pos_bound (dpos st) 8 ltac:(lia)).
  assert (EL : dec_h_loop sig (S n) st acc =
    ('(coeff, consumed) <- decode_bits_as_hint_coeff buf B ;;
        if 0 <? consumed then
          buf <- shr_chk buf consumed ;;
          dec_h_loop sig n (Dec off buf (sub64 B consumed)) (acc ++ [coeff])
        else Ok (false, Dec (d_off st) buf B, acc))).
  { cbn [dec_h_loop]. replace (zlen sig <=? d_off st) with false by lia. rewrite ER. reflexivity. }
  assert (B0 : 0 <= B) by (unfold B; lia).
  rewrite decode_hint_spec in EL by (lia || exact HB). set (L := bits_of (Z.to_nat B) buf) in *.
  assert (LL : length L = Z.to_nat B) by apply bits_of_length.
  pose proof (ones_split L) as [S1 S2]. pose proof (ones_le L) as OL. set (m := ones L) in *.
  destruct (Z.of_nat m =? B) eqn:E1.
  { cbn [bind] in EL. apply h_fail' with (st1 := Dec (d_off st) buf B) (k := m); [exact EL|].
    rewrite EV, S1. rewrite skipn_all2 by lia. rewrite app_nil_r. eexists. split; [reflexivity|].
    destruct NE as [NE|NE]; [left; lia|right; apply skipn_nil_bits; exact NE]. }
  destruct S2 as [S2|[t S2]].
  { exfalso. apply (f_equal (@length bool)) in S2. rewrite skipn_length in S2. cbn in S2. lia. }
  rewrite S2 in S1.
  assert (Lt : (length L = m + S (length t))%nat) by (rewrite S1 at 1; rewrite app_length, repeat_length; reflexivity).
  destruct (0 <? Z.of_nat m) eqn:E2.
  - destruct (Z.of_nat m + 1 <? 64) eqn:E3; cbn [bind] in EL.
    2:{ apply h_ub' with (m := m) (rest := t ++ bits_of_bytes (skipn (Z.to_nat off) sig)); [exact EL| |lia|lia].
        rewrite EV, S1, <- app_assoc. reflexivity. }
    replace (0 <? Z.of_nat m + 2) with true in EL by lia.
    destruct (Z_le_gt_dec 62 (Z.of_nat m)) as [M62|M62].
    { unfold shr_chk in EL. replace ((0 <=? Z.of_nat m + 2) && (Z.of_nat m + 2 <? 64)) with false in EL by lia. cbn [bind] in EL.
      apply h_ub' with (m := m) (rest := t ++ bits_of_bytes (skipn (Z.to_nat off) sig)); [exact EL| |lia|lia].
      rewrite EV, S1, <- app_assoc. reflexivity. }
    rewrite shr_chk_Ok in EL by lia. cbn [bind] in EL.
    destruct t as [|sg t].
    + cbn [length] in Lt. eapply h_poison' with (m := m) (rest := bits_of_bytes (skipn (Z.to_nat off) sig)); [exact EL| | |lia|lia|lia| |].
      * unfold poison. cbn [d_bbo d_off]. split; [|lia]. unfold sub64, u64. replace (B - (Z.of_nat m + 2)) with (-1) by lia. reflexivity.
      * rewrite EV, S1, <- app_assoc. reflexivity.
      * destruct NE as [NE|NE]; [left; lia|right; apply skipn_nil_bits; exact NE].
      * cbn [d_off]. apply bits_nil. lia.
    + cbn [length] in Lt.
      assert (ES : sub64 B (Z.of_nat m + 2) = B - (Z.of_nat m + 2)) by (unfold sub64; apply u64_small; unfold is64, two64; lia).
      rewrite ES in EL.
      assert (NTH : nth (m + 1) L false = sg). { rewrite S1, app_nth2 by (rewrite repeat_length; lia). rewrite repeat_length. replace (m + 1 - m)%nat with 1%nat by lia. reflexivity. }
      rewrite NTH in EL. set (x := if sg then - Z.of_nat m else Z.of_nat m) in EL.
      assert (EC : code_h x = repeat true m ++ [false; sg]).
      { unfold code_h. replace (Z.to_nat (Z.abs x)) with m by (unfold x; destruct sg; lia).
        replace (x =? 0) with false by (unfold x; destruct sg; lia). replace (x <? 0) with sg by (unfold x; destruct sg; lia). reflexivity. }
      assert (CL : clen code_h x = Z.of_nat m + 2) by (unfold clen; rewrite EC, app_length, repeat_length; cbn [length]; lia).
      destruct (consume sig off buf B (Z.of_nat m + 2) (code_h x)) as (C1 & C2 & C3); try lia; try exact HB.
      { exact CL. } { exists t. fold L. rewrite EC, S1, <- app_assoc. reflexivity. }
      eapply h_good' with (x := x); [exact EL|exact C1|rewrite EV; exact C2|rewrite C3, CL; unfold dpos, B, off; lia|lia|unfold x; destruct sg; lia| |cbn [d_bbo]; lia].
      cbn [d_off d_bbo]. destruct NE as [NE|NE]; [left; lia|right; exact NE].
  - assert (m = 0%nat) by lia. rewrite H in *. cbn [bind repeat app] in *.
    replace (0 <? 1) with true in EL by reflexivity. rewrite shr_chk_Ok in EL by lia. cbn [bind] in EL.
    assert (ES : sub64 B 1 = B - 1) by (unfold sub64; apply u64_small; unfold is64, two64; lia). rewrite ES in EL.
    destruct (consume sig off buf B 1 (code_h 0)) as (C1 & C2 & C3); try lia; try exact HB; try reflexivity.
    { exists t. exact S1. }
    eapply h_good' with (x := 0); [exact EL|exact C1|rewrite EV; exact C2|rewrite C3; change (clen code_h 0) with 1; unfold dpos, B, off; lia|change (clen code_h 0) with 1; lia|lia| |cbn [d_bbo]; change (clen code_h 0) with 1; lia].
    cbn [d_off d_bbo]. change (clen code_h 0) with 1. destruct NE as [NE|NE]; [left; lia|right; exact NE].
Qed.

(* what is known about the buffer before a word, depending on whether the previous hint was zero *)
Definition hinv (sig : list Z) (st : dec) (zb : bool) : Prop :=
  (zb = false -> d_bbo st <= 62) /\ (zb = true -> dpos st mod 8 = 1 -> d_bbo st = 63 \/ d_off st = zlen sig).
Definition ub_h (n : nat) (zb : bool) (pos : Z) (B : list bool) : Prop :=
  exists xs rest, (length xs < n)%nat /\ B = codes_of code_h xs ++ rest /\ all_in_window code_h 64 pos xs /\ Forall (fun x => Z.abs x <= 61) xs /\
    overrun_hint (match xs with [] => zb | _ => last xs 1 =? 0 end) (pos + zlen (codes_of code_h xs)) rest.
Lemma last_cons {A} (x y : A) l d : last (x :: y :: l) d = last (y :: l) d.
Proof. reflexivity. Qed.
Lemma ub_h_now n zb pos B : overrun_hint zb pos B -> ub_h (S n) zb pos B.
Proof.
  intros H. exists [], B. cbn. rewrite Z.add_0_r. split; [lia|]. split; [reflexivity|]. split; [exact Logic.I|]. split; [constructor|exact H].
Qed.
Lemma ub_h_next n zb pos x B : pos mod 8 + clen code_h x <= 64 -> Z.abs x <= 61 ->
  (ub_h n (x =? 0) (pos + clen code_h x) B <-> ub_h (S n) zb pos (code_h x ++ B) /\ ~ overrun_hint zb pos (code_h x ++ B)).
Proof.
  intros Hw Hx. split.
  - intros (xs & rest & L & E & W & X & C). split.
    + exists (x :: xs), rest. rewrite codes_of_cons, zlen_app, Z.add_assoc. cbn [length all_in_window].
      split; [lia|]. split; [rewrite E, app_assoc; reflexivity|]. split; [split; [exact Hw|exact W]|]. split; [constructor; assumption|].
      destruct xs as [|y xs]; exact C.
    + intros (m & r & EM & M1 & M2 & M3). rewrite code_h_split in EM. apply unary_unique in EM. destruct EM as [EM1 EM2]. rewrite clen_h in Hw.
      destruct (x =? 0) eqn:X0; lia.
  - intros [(xs & rest & L & E & W & X & C) NO]. destruct xs as [|y xs].
    + exfalso. apply NO. cbn in E, C. rewrite Z.add_0_r in C. rewrite E. exact C.
    + rewrite codes_of_cons, <- app_assoc in E. apply code_h_unique in E. destruct E as [<- E]. cbn [all_in_window] in W. destruct W as [_ W]. inversion X; subst.
      exists xs, rest. rewrite codes_of_cons, zlen_app, Z.add_assoc in C. cbn [length] in L. split; [lia|]. split; [reflexivity|]. split; [exact W|]. split; [assumption|].
      destruct xs; exact C.
Qed.
Lemma dec_h_end sig n st acc : zlen sig <= d_off st -> dec_h_loop sig n st acc = Ok (true, st, acc).
Proof. intros H. destruct n; cbn [dec_h_loop]; [reflexivity|]. replace (zlen sig <=? d_off st) with true by lia. reflexivity. Qed.
Lemma poison_not_end sig n st acc : poison sig st -> d_off st < zlen sig -> (0 < n)%nat -> dec_h_loop sig n st acc = UB.
Proof.
  intros Hp Ho Hn. destruct n as [|n]; [lia|]. cbn [dec_h_loop]. replace (zlen sig <=? d_off st) with false by lia. rewrite (refill_poison sig st Hp). reflexivity.
Qed.
Lemma view_mod8 sig st : good sig st -> (zlen (view sig st) + dpos st) mod 8 = 0.
Proof. intros G. rewrite (view_zlen sig st G). replace (8 * zlen sig - dpos st + dpos st) with (zlen sig * 8) by ring. apply Z.mod_mul. lia. Qed.
(* where an overrun is ahead, the loop has not reached the end of the signature *)
Lemma overrun_reads sig st zb : good sig st -> hinv sig st zb -> overrun_hint zb (dpos st) (view sig st) -> d_off st < zlen sig.
Proof.
  intros G [I1 I2] (m & rest & E & M1 & M2 & M3). apply (off_lt sig st G). pose proof (view_mod8 sig st G) as D. rewrite E in *.
  rewrite zlen_app in *. replace (zlen (repeat true m)) with (Z.of_nat m) in * by (unfold zlen; rewrite repeat_length; reflexivity).
  replace (zlen (false :: rest)) with (1 + zlen rest) in * by (unfold zlen; cbn [length]; lia).
  pose proof (zlen_nonneg rest) as R0. pose proof (Z.mod_pos_bound (dpos st) 8 ltac:(lia)) as M8.
  assert (RN : rest <> [] -> 0 < zlen rest) by (destruct rest; [congruence|intros _; unfold zlen; cbn [length]; lia]).
  destruct G as (_ & Gb & _).
  assert (D' : (dpos st mod 8 + Z.of_nat m + 1 + zlen rest) mod 8 = 0).
  { rewrite <- D. rewrite (Z.div_mod (dpos st) 8) at 2 by lia.
    replace (Z.of_nat m + (1 + zlen rest) + (8 * (dpos st / 8) + dpos st mod 8)) with (dpos st mod 8 + Z.of_nat m + 1 + zlen rest + dpos st / 8 * 8) by ring.
    rewrite Z.mod_add by lia. reflexivity. }
  destruct M3 as [[M3 M4]|[M3 M4]].
  - destruct (Z_lt_le_dec (d_bbo st) (Z.of_nat m + (1 + zlen rest))) as [|C]; [assumption|exfalso].
    assert (Z.of_nat m = 62 /\ zlen rest = 0 /\ d_bbo st = 63) as (Em & Er & Eb) by lia.
    apply M4. split; [exact Em|]. split; [destruct rest; [reflexivity|unfold zlen in Er; cbn [length] in Er; lia]|].
    destruct zb; [reflexivity|]. specialize (I1 eq_refl). lia.
  - specialize (RN M4). rewrite M3 in D'. pose proof (Z.div_mod (64 + zlen rest) 8 ltac:(lia)). lia.
Qed.
Lemma hinv_next sig st st' x : good sig st' -> dpos st' = dpos st + clen code_h x -> dpos st mod 8 + clen code_h x <= 64 ->
  (d_bbo st' = 64 - dpos st mod 8 - clen code_h x \/ d_off st' = zlen sig) -> d_bbo st' <= 64 - dpos st mod 8 - clen code_h x -> hinv sig st' (x =? 0).
Proof.
  intros G P W D1 D2. pose proof (Z.mod_pos_bound (dpos st) 8 ltac:(lia)) as M8. split.
  - intros X0. rewrite clen_h, X0 in D2. lia.
  - intros X0 M1. rewrite clen_h, X0 in P, D1. destruct D1 as [D1|D1]; [left|right; exact D1].
    assert (X1 : Z.abs x = 0) by lia. clear X0 G.
    pose proof (Z.div_mod (dpos st) 8 ltac:(lia)) as D3. pose proof (Z.div_mod (dpos st') 8 ltac:(lia)) as D4. lia.
Qed.
Definition h_undefined (sig : list Z) (n : nat) (r : res (bool * dec * list Z)) (len : nat) : Prop :=
  r = UB \/ exists st' acc', r = Ok (true, st', acc') /\ poison sig st' /\ d_off st' < zlen sig /\ length acc' = (len + n)%nat.
Lemma dec_h_exact sig : Forall is_byte sig -> forall n st acc zb, good sig st -> hinv sig st zb ->
  (ub_h n zb (dpos st) (view sig st) <-> h_undefined sig n (dec_h_loop sig n st acc) (length acc)).
Proof.
  intros Hs. induction n as [|n IH]; intros st acc zb G HI.
  - cbn [dec_h_loop]. split; [intros (xs & rest & L & _); lia|]. intros [E|(st' & acc' & E & [Pp _] & _)]; [discriminate E|]. injection E as <- _. destruct G as (_ & Gb & _). unfold two64 in Pp. lia.
  - destruct (Z_le_gt_dec (zlen sig) (d_off st)) as [Ho|Ho].
    { rewrite dec_h_end by exact Ho. split.
      - intros (xs & rest & L & E & W & X & C). exfalso. destruct xs as [|x xs].
        + cbn in E, C. rewrite Z.add_0_r in C. rewrite <- E in C. pose proof (overrun_reads sig st zb G HI C). lia.
        + assert (zlen (view sig st) <= 63). { rewrite (view_zlen sig st G). unfold dpos. destruct G as (Go & Gb & _). lia. }
          destruct C as (m & r & -> & M1 & M2 & M3). rewrite E, codes_of_cons, !zlen_app in H. pose proof (zlen_nonneg (codes_of code_h xs)).
          assert (1 <= zlen (code_h x)) by (pose proof (clen_h x) as CL; unfold clen in CL; unfold zlen; destruct (x =? 0); lia).
          assert (zlen (repeat true m) = Z.of_nat m) by (unfold zlen; rewrite repeat_length; reflexivity).
          assert (zlen (false :: r) = 1 + zlen r) by (unfold zlen; cbn [length]; lia). pose proof (zlen_nonneg r).
          destruct M3 as [[M3 _]|[M3 M4]]; [lia|].
          (* the window of the last word ends before the signature does *)
          pose proof (view_mod8 sig st G) as D. rewrite E, codes_of_cons, !zlen_app in D. rewrite codes_of_cons, zlen_app in M3, M2.
          assert (1 <= zlen r) by (destruct r; [congruence|unfold zlen; cbn [length]; lia]).
          set (p := dpos st + (zlen (code_h x) + zlen (codes_of code_h xs))) in *.
          assert (D' : (p mod 8 + Z.of_nat m + 1 + zlen r) mod 8 = 0).
          { rewrite <- D. rewrite H2, H3. replace (zlen (code_h x) + zlen (codes_of code_h xs) + (Z.of_nat m + (1 + zlen r)) + dpos st) with (p + Z.of_nat m + 1 + zlen r) by (unfold p; ring).
            rewrite (Z.div_mod p 8) at 2 by lia. replace (8 * (p / 8) + p mod 8 + Z.of_nat m + 1 + zlen r) with (p mod 8 + Z.of_nat m + 1 + zlen r + p / 8 * 8) by ring.
            rewrite Z.mod_add by lia. reflexivity. }
          rewrite M3 in D'. pose proof (Z.div_mod (64 + zlen r) 8 ltac:(lia)). pose proof (Z.mod_pos_bound p 8 ltac:(lia)). lia.
      - intros [E|(st' & acc' & E & [Pp _] & _)]; [discriminate E|]. injection E as <- _. destruct G as (_ & Gb & _). unfold two64 in Pp. lia. }
    destruct (dec_h_step' sig n st acc Hs G ltac:(lia)) as [st1 k E (rest & K & KE)|x st' E G' V P W X D1 D2|m rest E V M1 M2|x st' m rest E Pp V M1 M2 M3 M4 M5].
    + rewrite E. split; [|intros [C|(st' & acc' & C & _)]; discriminate C]. intros (xs & r & L & E' & Wx & X & C). exfalso.
      assert (exists j t, view sig st = repeat true j ++ false :: t /\ dpos st mod 8 + Z.of_nat j + 1 <= 64) as (j & t & EJ & HJ).
      { destruct xs as [|x xs].
        - cbn in E', C. rewrite Z.add_0_r in C. destruct C as (m & r' & C1 & C2 & C3 & _). exists m, r'. rewrite E'. split; [exact C1|exact C3].
        - cbn [all_in_window] in Wx. destruct Wx as [Wx _]. unfold in_window in Wx. fold (clen code_h x) in Wx. rewrite clen_h in Wx.
          rewrite codes_of_cons, <- app_assoc, code_h_split in E'. eexists. eexists. split; [exact E'|]. destruct (x =? 0) eqn:X0; lia. }
      destruct KE as [KE|KE].
      * pose proof (ones_ge k rest) as O1. rewrite <- K, EJ, ones_app in O1. lia.
      * subst rest. rewrite app_nil_r in K. rewrite K in EJ. assert (I : In false (repeat true k)) by (rewrite EJ; apply in_app_iff; right; left; reflexivity).
        apply repeat_spec in I. discriminate I.
    + rewrite E. rewrite V.
      assert (NO : ~ overrun_hint zb (dpos st) (code_h x ++ view sig st')).
      { intros (m & r & EM & M1 & M2 & M3). rewrite code_h_split in EM. apply unary_unique in EM. destruct EM as [EM1 EM2]. rewrite clen_h in W.
        destruct (x =? 0) eqn:X0; [lia|]. destruct M3 as [[M3 _]|[M3 M4]]; lia. }
      pose proof (ub_h_next n zb (dpos st) x (view sig st') W X) as NX.
      assert (HI' : hinv sig st' (x =? 0)) by (exact (hinv_next sig st st' x G' P W D1 D2)).
      specialize (IH st' (acc ++ [x]) (x =? 0) G' HI'). rewrite P in IH. rewrite app_length in IH. cbn [length] in IH.
      split.
      * intros U. apply proj1 in IH. destruct (IH (proj2 NX (conj U NO))) as [R|(s2 & a2 & R & R1 & R2 & R3)]; [left; exact R|right].
        exists s2, a2. split; [exact R|]. split; [exact R1|]. split; [exact R2|lia].
      * intros R. apply NX. apply IH. destruct R as [R|(s2 & a2 & R & R1 & R2 & R3)]; [left; exact R|right].
        exists s2, a2. split; [exact R|]. split; [exact R1|]. split; [exact R2|lia].
    + rewrite E. split; [intros _; left; reflexivity|]. intros _. apply ub_h_now. exists m, rest. split; [exact V|]. split; [lia|]. split; [exact M2|].
      left. split; [exact M1|]. intros (Em & Er & Ez). subst rest zb. destruct HI as [_ I2].
      assert (Z63 : zlen (view sig st) = 63) by (rewrite V; unfold zlen; rewrite app_length, repeat_length; cbn [length]; lia).
      pose proof (view_mod8 sig st G) as D. rewrite Z63 in D.
      assert (dpos st mod 8 = 1).
      { pose proof (Z.mod_pos_bound (dpos st) 8 ltac:(lia)) as M8. rewrite (Z.div_mod (dpos st) 8) in D by lia.
        replace (63 + (8 * (dpos st / 8) + dpos st mod 8)) with (63 + dpos st mod 8 + dpos st / 8 * 8) in D by ring. rewrite Z.mod_add in D by lia.
        assert (dpos st mod 8 = 0 \/ dpos st mod 8 = 1) as [E0|E0] by lia; [rewrite E0 in D; cbn in D; lia|exact E0]. }
      destruct (I2 eq_refl H) as [I2'|I2']; [|lia]. pose proof (view_zlen sig st G) as VZ. unfold dpos in VZ. lia.
    + rewrite E. pose proof (proj2 Pp) as Po. split.
      * intros (xs & r & L & E' & Wx & Xx & C).
        assert (NR : rest <> []).
        { intros ->. destruct xs as [|y xs].
          - cbn in E', C. rewrite Z.add_0_r in C. destruct C as (m' & r' & C1 & C2 & C3 & C4). rewrite <- E', V in C1. apply unary_unique in C1. destruct C1 as [-> <-].
            destruct C4 as [[C4 _]|[_ C4]]; [lia|congruence].
          - cbn [all_in_window] in Wx. rewrite codes_of_cons, <- app_assoc, code_h_split, V in E'. apply unary_unique in E'. destruct E' as [E1 E2].
            destruct (y =? 0) eqn:Y0; [lia|discriminate E2]. }
        assert (Off : d_off st' < zlen sig) by (destruct (Z.eq_dec (d_off st') (zlen sig)) as [C0|]; [apply M5 in C0; contradiction|lia]).
        destruct n as [|n].
        -- right. exists st', (acc ++ [x]). cbn [dec_h_loop]. split; [reflexivity|]. split; [exact Pp|]. split; [exact Off|]. rewrite app_length. reflexivity.
        -- left. apply poison_not_end; [exact Pp|exact Off|lia].
      * intros R. assert (Off : d_off st' < zlen sig).
        { destruct (Z_lt_le_dec (d_off st') (zlen sig)) as [|C0]; [assumption|]. rewrite dec_h_end in R by exact C0.
          destruct R as [R|(s2 & a2 & R & _ & R2 & _)]; [discriminate R|]. injection R as <- _. lia. }
        assert (NR : rest <> []) by (intros C; apply M5 in C; lia).
        apply ub_h_now. exists m, rest. split; [exact V|]. split; [exact M1|]. split; [exact M3|]. right. split; [|exact NR]. destruct M4 as [M4|M4]; [exact M4|contradiction].
Qed.

(* one step of the response loop *)
Inductive z_step' (sig : list Z) (f n : nat) (st : dec) (acc : list Z) : Prop :=
| z_short' st1 : dec_z_loop sig (S f) (S n) st acc = Ok (true, st1, acc) ->
    (length (view sig st) <= 40)%nat -> z_step' sig f n st acc
| z_fail' st1 k a : dec_z_loop sig (S f) (S n) st acc = Ok (false, st1, acc) ->
    (exists rest, view sig st = bits_of 40 a ++ repeat true k ++ rest /\ (Z.of_nat k + 40 = 64 - dpos st mod 8 \/ rest = [])) -> z_step' sig f n st acc
| z_good' x st' : dec_z_loop sig (S f) (S n) st acc = dec_z_loop sig f n st' (acc ++ [x]) -> good sig st' -> view sig st = code_z x ++ view sig st' ->
    dpos st' = dpos st + clen code_z x -> dpos st mod 8 + clen code_z x <= 64 ->
    d_bbo st' <= 23 -> z_step' sig f n st acc
| z_poison' x st' a m rest : dec_z_loop sig (S f) (S n) st acc = dec_z_loop sig f n st' (acc ++ [x]) -> poison sig st' ->
    view sig st = bits_of 40 a ++ repeat true m ++ false :: rest -> 0 <= a < 2 ^ 40 -> 0 < Z.of_nat m * 2 ^ 40 + a ->
    dpos st mod 8 + 40 + Z.of_nat m + 1 <= 64 -> (dpos st mod 8 + 40 + Z.of_nat m + 1 = 64 \/ rest = []) ->
    (d_off st' = zlen sig <-> rest = []) -> z_step' sig f n st acc.
Lemma dec_z_step' sig f n st acc : Forall is_byte sig -> good sig st -> d_off st < zlen sig -> z_step' sig f n st acc.
Proof.
  intros Hs G Ho. destruct (refill_spec sig st Hs G) as (buf & nb & ER & N0 & N1 & NW & NE & HB & EV).
  destruct G as (Go & Gb & Gbuf).
  assert (D8 : d_bbo st + 8 * nb = 64 - dpos st mod 8 -> nb = (64 - d_bbo st) / 8).
  { intros E. apply Z.div_unique with (r := dpos st mod 8); [left; apply Z.mod_pos_bound; lia|lia]. }
  set (B := d_bbo st + 8 * nb) in *. set (off := d_off st + nb) in *.
  assert (M8 := Z.mod_pos_bound (dpos st) 8 ltac:(lia)).
  destruct (40 <? B) eqn:E40.
  2:{ assert (NE' : off = zlen sig) by lia. apply z_short' with (st1 := Dec off buf B).
      - cbn [dec_z_loop]. replace (zlen sig <=? d_off st) with false by lia. rewrite ER. cbn [bind d_bbo]. rewrite E40. cbn [d_off d_buf d_bbo]. fold off.
        apply (dec_z_end sig f (S n) (Dec off buf B) acc). cbn [d_off]. lia.
      - rewrite EV, (skipn_nil_bits sig off NE'), app_nil_r, bits_of_length. lia. }
  set (buf2 := buf / 2 ^ 40). set (b2 := B - 40).
  destruct (buf_pop buf B 40) as [P1 P2]; [lia|exact HB|]. fold buf2 b2 in P1, P2. change (Z.to_nat 40) with 40%nat in P1.
  assert (Ea : Z.land buf (shl64 1 40 - 1) = buf mod 2 ^ 40) by (apply land_mask; [lia|reflexivity]).
  set (a := buf mod 2 ^ 40) in *. assert (Ha : 0 <= a < 2 ^ 40) by (apply Z.mod_pos_bound; reflexivity).
  assert (EL : dec_z_loop sig (S f) (S n) st acc =
    ('(coeff, consumed) <- decode_bits_as_response_coeff buf2 b2 a ;;
        if 0 <? consumed then
          buf <- shr_chk buf2 consumed ;;
          dec_z_loop sig f n (Dec off buf (sub64 b2 consumed)) (acc ++ [coeff])
        else Ok (false, Dec (d_off st) buf B, acc))).
  { cbn [dec_z_loop]. replace (zlen sig <=? d_off st) with false by lia. rewrite ER. cbn [bind d_bbo]. rewrite E40. cbn [d_off d_buf d_bbo]. cbv zeta.
    rewrite Ea. rewrite shr64_spec by lia. fold buf2. replace (sub64 B 40) with b2 by (unfold sub64; rewrite u64_small; [reflexivity|unfold is64, two64; lia]). reflexivity. }
  rewrite decode_resp_spec in EL by (exact P2 || exact Ha || lia). set (L := bits_of (Z.to_nat b2) buf2) in *.
  assert (LL : length L = Z.to_nat b2) by apply bits_of_length.
  assert (EA40 : bits_of 40 buf = bits_of 40 a) by (symmetry; exact (bits_of_mod 40 buf)).
  rewrite EA40 in P1. rewrite P1 in EV.
  pose proof (ones_split L) as [S1 S2]. pose proof (ones_le L) as OL. set (m := ones L) in *.
  destruct (Z.of_nat m =? b2) eqn:E1.
  { cbn [bind] in EL. apply z_fail' with (st1 := Dec (d_off st) buf B) (k := m) (a := a); [exact EL|].
    rewrite EV, S1. rewrite skipn_all2 by lia. rewrite app_nil_r, <- app_assoc. eexists. split; [reflexivity|].
    destruct NE as [NE|NE]; [left; lia|right; apply skipn_nil_bits; exact NE]. }
  destruct S2 as [S2|[t S2]].
  { exfalso. apply (f_equal (@length bool)) in S2. rewrite skipn_length in S2. cbn in S2. lia. }
  rewrite S2 in S1.
  assert (Lt : (length L = m + S (length t))%nat) by (rewrite S1 at 1; rewrite app_length, repeat_length; reflexivity).
  assert (VR : 0 <= Z.of_nat m * 2 ^ 40) by lia.
  destruct (0 <? Z.of_nat m * 2 ^ 40 + a) eqn:E2.
  - cbn [bind] in EL. replace (0 <? Z.of_nat m + 2) with true in EL by lia. rewrite shr_chk_Ok in EL by lia. cbn [bind] in EL.
    destruct t as [|sg t].
    + cbn [length] in Lt. eapply z_poison' with (a := a) (m := m) (rest := bits_of_bytes (skipn (Z.to_nat off) sig)); [exact EL| | |exact Ha|lia|lia| |].
      * unfold poison. cbn [d_bbo d_off]. split; [|lia]. unfold sub64, u64. replace (b2 - (Z.of_nat m + 2)) with (-1) by lia. reflexivity.
      * rewrite EV, S1, <- !app_assoc. reflexivity.
      * destruct NE as [NE|NE]; [left; lia|right; apply skipn_nil_bits; exact NE].
      * cbn [d_off]. apply bits_nil. lia.
    + cbn [length] in Lt.
      assert (ES : sub64 b2 (Z.of_nat m + 2) = B - (40 + Z.of_nat m + 2)) by (unfold sub64; rewrite u64_small; [lia|unfold is64, two64; lia]).
      rewrite ES in EL.
      assert (NTH : nth (m + 1) L false = sg). { rewrite S1, app_nth2 by (rewrite repeat_length; lia). rewrite repeat_length. replace (m + 1 - m)%nat with 1%nat by lia. reflexivity. }
      rewrite NTH in EL. set (v := Z.of_nat m * 2 ^ 40 + a) in *. set (x := if sg then - v else v) in EL.
      assert (Ax : Z.abs x = v) by (unfold x; destruct sg; lia).
      assert (DV : v / 2 ^ 40 = Z.of_nat m) by (unfold v; rewrite Z.add_comm, Z.div_add by discriminate; rewrite (Z.div_small a) by exact Ha; lia).
      assert (MV : v mod 2 ^ 40 = a) by (unfold v; rewrite Z.add_comm, Z.mod_add by discriminate; apply Z.mod_small; exact Ha).
      assert (EC : code_z x = bits_of 40 a ++ repeat true m ++ [false; sg]).
      { unfold code_z. rewrite Ax, DV, Nat2Z.id. rewrite <- (bits_of_mod 40 v). change (Z.of_nat 40) with 40. rewrite MV.
        replace (x =? 0) with false by (unfold x; destruct sg; lia). replace (x <? 0) with sg by (unfold x; destruct sg; lia). reflexivity. }
      assert (CL : clen code_z x = 40 + Z.of_nat m + 2) by (unfold clen; rewrite EC, !app_length, repeat_length, bits_of_length; cbn [length]; lia).
      assert (DD : buf2 / 2 ^ (Z.of_nat m + 2) = buf / 2 ^ (40 + Z.of_nat m + 2)).
      { unfold buf2. rewrite Z.div_div by (try apply Z.pow_pos_nonneg; lia). rewrite <- Z.pow_add_r by lia. do 2 f_equal. lia. }
      rewrite DD in EL.
      clearbody v x. clear DV MV Ax E2 VR.
      destruct (consume sig off buf B (40 + Z.of_nat m + 2) (code_z x)) as (C1 & C2 & C3); [lia|lia|lia|lia|exact HB|exact CL| |].
      { exists t. rewrite P1, EC, S1, <- !app_assoc. reflexivity. }
      eapply z_good' with (x := x); [exact EL|exact C1|rewrite EV, <- P1; exact C2|rewrite C3, CL; unfold dpos, B, off; lia|lia|cbn [d_bbo]; lia].
  - assert (H : m = 0%nat) by (change (2 ^ 40) with 1099511627776 in *; lia). assert (A0 : a = 0) by lia. rewrite H, A0 in *. cbn [bind repeat app] in *.
    change (Z.of_nat 0 + 1) with 1 in EL. change (Z.of_nat 0 * 2 ^ 40 + 0) with 0 in EL.
    replace (0 <? 1) with true in EL by reflexivity. rewrite shr_chk_Ok in EL by lia. cbn [bind] in EL.
    assert (ES : sub64 b2 1 = B - 41) by (unfold sub64; rewrite u64_small; [lia|unfold is64, two64; lia]). rewrite ES in EL.
    assert (DD : buf2 / 2 ^ 1 = buf / 2 ^ 41).
    { unfold buf2. rewrite Z.div_div by (try apply Z.pow_pos_nonneg; lia). rewrite <- Z.pow_add_r by lia. reflexivity. }
    rewrite DD in EL.
    destruct (consume sig off buf B 41 (code_z 0)) as (C1 & C2 & C3); try lia; try exact HB; try reflexivity.
    { exists t. rewrite P1, S1. reflexivity. }
    eapply z_good' with (x := 0); [exact EL|exact C1|rewrite EV, <- P1; exact C2|rewrite C3; change (clen code_z 0) with 41; unfold dpos, B, off; lia|change (clen code_z 0) with 41; lia|cbn [d_bbo]; lia].
Qed.

Definition ub_z (n : nat) (pos : Z) (B : list bool) : Prop :=
  exists xs rest, (length xs < n)%nat /\ B = codes_of code_z xs ++ rest /\ all_in_window code_z 64 pos xs /\
    overrun_response (S (length xs) = n) (pos + zlen (codes_of code_z xs)) rest.
Lemma overrun_response_iff (A B : Prop) pos l : (A <-> B) -> overrun_response A pos l -> overrun_response B pos l.
Proof.
  intros E (a & m & r & H1 & H2 & H3 & H4 & H5). exists a, m, r. split; [exact H1|]. split; [exact H2|]. split; [exact H3|]. split; [exact H4|].
  destruct H5 as [H5|[H5 H6]]; [left; exact H5|right; split; [apply E; exact H5|exact H6]].
Qed.
Lemma ub_z_now n pos B : overrun_response (1%nat = S n) pos B -> ub_z (S n) pos B.
Proof.
  intros H. exists [], B. cbn. rewrite Z.add_0_r. split; [lia|]. split; [reflexivity|]. split; [exact Logic.I|exact H].
Qed.
(* a word that fits is not an overrun *)
Lemma fit_no_overrun_z A pos x B : pos mod 8 + clen code_z x <= 64 -> ~ overrun_response A pos (code_z x ++ B).
Proof.
  intros W (a & m & rest & EM & EA & EP & M2 & M3). rewrite code_z_split in EM. apply app_inj_len in EM; [|rewrite !bits_of_length; reflexivity]. destruct EM as [EM0 EM].
  apply unary_unique in EM. destruct EM as [EM1 EM2]. pose proof (clen_z x) as CL. assert (NV : 0 <= Z.abs x / 2 ^ 40) by (apply Z.div_pos; [lia|reflexivity]).
  destruct (x =? 0) eqn:X0.
  - assert (x = 0) by lia. subst x. apply (f_equal bits_value) in EM0. rewrite !bits_value_bits_of in EM0. change (Z.of_nat 40) with 40 in EM0.
    rewrite (Z.mod_small a) in EM0 by exact EA. cbn in EM0, EM1. subst a m. cbn in EP. lia.
  - assert (NR : rest <> []) by (intros ->; discriminate EM2). rewrite CL in W. destruct M3 as [[M3 _]|[_ [M3|M3]]]; [lia|lia|contradiction].
Qed.
Lemma ub_z_next n pos x B : pos mod 8 + clen code_z x <= 64 ->
  (ub_z n (pos + clen code_z x) B <-> ub_z (S n) pos (code_z x ++ B)).
Proof.
  intros Hw. split.
  - intros (xs & rest & L & E & W & C).
    exists (x :: xs), rest. rewrite codes_of_cons, zlen_app, Z.add_assoc. cbn [length all_in_window].
    split; [lia|]. split; [rewrite E, app_assoc; reflexivity|]. split; [split; [exact Hw|exact W]|].
    eapply overrun_response_iff; [|exact C]. lia.
  - intros (xs & rest & L & E & W & C). destruct xs as [|y xs].
    + exfalso. cbn in E, C. rewrite Z.add_0_r in C. rewrite <- E in C. exact (fit_no_overrun_z _ pos x B Hw C).
    + rewrite codes_of_cons, <- app_assoc in E. apply code_z_unique in E. destruct E as [<- E]. cbn [all_in_window] in W. destruct W as [_ W].
      exists xs, rest. rewrite codes_of_cons, zlen_app, Z.add_assoc in C. cbn [length] in L. split; [lia|]. split; [exact E|]. split; [exact W|].
      eapply overrun_response_iff; [|exact C]. cbn [length]. lia.
Qed.
Lemma overrun_z_len A pos B : overrun_response A pos B -> 41 <= zlen B.
Proof.
  intros (a & m & r & -> & _). rewrite !zlen_app. unfold zlen at 1. rewrite bits_of_length. pose proof (zlen_nonneg (repeat true m)). unfold zlen at 2. cbn [length]. lia.
Qed.
(* an overrun of a response that is not the last one needs bits behind the window *)
Lemma overrun_z_more sig st (A : Prop) : good sig st -> ~ A -> overrun_response A (dpos st) (view sig st) -> 65 <= zlen (view sig st).
Proof.
  intros G NA (a & m & rest & E & Ha & Hv & M2 & M3). destruct M3 as [[M3 M4]|[M3 _]]; [|contradiction].
  pose proof (view_mod8 sig st G) as D. rewrite E in *. rewrite !zlen_app in *.
  replace (zlen (repeat true m)) with (Z.of_nat m) in * by (unfold zlen; rewrite repeat_length; reflexivity).
  replace (zlen (bits_of 40 a)) with 40 in * by (unfold zlen; rewrite bits_of_length; reflexivity).
  replace (zlen (false :: rest)) with (1 + zlen rest) in * by (unfold zlen; cbn [length]; lia).
  assert (0 < zlen rest) by (destruct rest; [congruence|unfold zlen; cbn [length]; lia]).
  pose proof (Z.div_mod (dpos st) 8 ltac:(lia)) as D3. pose proof (Z.mod_pos_bound (dpos st) 8 ltac:(lia)).
  pose proof (Z.div_mod (40 + (Z.of_nat m + (1 + zlen rest)) + dpos st) 8 ltac:(lia)) as D4. lia.
Qed.
Definition z_undefined (sig : list Z) (n : nat) (r : res (bool * dec * list Z)) (len : nat) : Prop :=
  r = UB \/ exists st' acc', r = Ok (true, st', acc') /\ poison sig st' /\ length acc' = (len + n)%nat.
Lemma z_poison_ub sig f n st acc : poison sig st -> d_off st < zlen sig -> (0 < n)%nat -> (0 < f)%nat -> dec_z_loop sig f n st acc = UB.
Proof.
  intros Hp Ho Hn Hf. destruct n as [|n]; [lia|]. destruct f as [|f]; [lia|]. cbn [dec_z_loop]. replace (zlen sig <=? d_off st) with false by lia. rewrite (refill_poison sig st Hp). reflexivity.
Qed.
Lemma dec_z_exact sig : Forall is_byte sig -> forall n f st acc, good sig st -> (n < f)%nat -> (d_bbo st <= 23 \/ (2 <= n)%nat) ->
  (ub_z n (dpos st) (view sig st) <-> z_undefined sig n (dec_z_loop sig f n st acc) (length acc)).
Proof.
  intros Hs. induction n as [|n IH]; intros f st acc G Hf HN.
  - split; [intros (xs & rest & L & _); lia|]. replace (dec_z_loop sig f 0 st acc) with (@Ok (bool * dec * list Z) (true, st, acc)) by (destruct f; reflexivity).
    intros [E|(st' & acc' & E & [Pp _] & _)]; [discriminate E|]. injection E as <- _. destruct G as (_ & Gb & _). unfold two64 in Pp. lia.
  - destruct f as [|f]; [lia|]. 
    assert (RD : ub_z (S n) (dpos st) (view sig st) -> d_off st < zlen sig).
    { intros (xs & rest & L & E & W & C). apply (off_lt sig st G). pose proof (overrun_z_len _ _ _ C) as CL. destruct xs as [|x xs].
      - cbn in E, C. rewrite Z.add_0_r in C. rewrite <- E in C, CL. destruct HN as [HN|HN]; [lia|]. pose proof (overrun_z_more sig st (1%nat = S n) G ltac:(lia) C). destruct G as (_ & Gb & _). lia.
      - rewrite E, zlen_app. pose proof (codes_z_ge (x :: xs) ltac:(congruence)). destruct G as (_ & Gb & _). lia. }
    destruct (Z_le_gt_dec (zlen sig) (d_off st)) as [Ho|Ho].
    { rewrite dec_z_end by exact Ho. split; [intros U; specialize (RD U); lia|].
      intros [E|(st' & acc' & E & [Pp _] & _)]; [discriminate E|]. injection E as <- _. destruct G as (_ & Gb & _). unfold two64 in Pp. lia. }
    clear RD. destruct (dec_z_step' sig f n st acc Hs G ltac:(lia)) as [st1 E SH|st1 k a E (rest & K & KE)|x st' E G' V P W B'|x st' a m rest E Pp V Ha Hv M3 M4 M5].
    + rewrite E. split.
      * intros (xs & r & L & E' & Wx & C). exfalso. pose proof (overrun_z_len _ _ _ C) as CL. rewrite E', app_length in SH. unfold zlen in CL. lia.
      * intros [C|(s2 & a2 & C & _ & C3)]; [discriminate C|]. injection C as _ <-. lia.
    + rewrite E. split; [|intros [C|(st' & acc' & C & _)]; discriminate C]. intros (xs & r & L & E' & Wx & C). exfalso.
      assert (exists a j t, view sig st = bits_of 40 a ++ repeat true j ++ false :: t /\ dpos st mod 8 + 40 + Z.of_nat j + 1 <= 64) as (a0 & j & t & EJ & HJ).
      { destruct xs as [|x xs].
        - cbn in E', C. rewrite Z.add_0_r in C. destruct C as (a' & m & r' & C1 & _ & _ & C2 & _). exists a', m, r'. rewrite E'. split; [exact C1|exact C2].
        - cbn [all_in_window] in Wx. destruct Wx as [Wx _]. unfold in_window in Wx. fold (clen code_z x) in Wx. rewrite clen_z in Wx.
          rewrite codes_of_cons, <- app_assoc, code_z_split in E'. eexists. eexists. eexists. split; [exact E'|].
          assert (NV : 0 <= Z.abs x / 2 ^ 40) by (apply Z.div_pos; [lia|reflexivity]). destruct (x =? 0) eqn:X0; [|lia].
          assert (x = 0) by lia. subst x. change (Z.abs 0 / 2 ^ 40) with 0 in *. change (Z.of_nat (Z.to_nat 0)) with 0. lia. }
      rewrite EJ in K. apply app_inj_len in K; [|rewrite !bits_of_length; reflexivity]. destruct K as [_ K].
      destruct KE as [KE|KE].
      * pose proof (ones_ge k rest) as O1. rewrite <- K, ones_app in O1. lia.
      * subst rest. rewrite app_nil_r in K. assert (I : In false (repeat true k)) by (rewrite <- K; apply in_app_iff; right; left; reflexivity).
        apply repeat_spec in I. discriminate I.
    + rewrite E, V. pose proof (ub_z_next n (dpos st) x (view sig st') W) as NX.
      specialize (IH f st' (acc ++ [x]) G' ltac:(lia) (or_introl B')). rewrite P in IH. rewrite app_length in IH. cbn [length] in IH.
      rewrite <- NX, IH. unfold z_undefined. replace (length acc + 1 + n)%nat with (length acc + S n)%nat by lia. reflexivity.
    + rewrite E. pose proof (proj2 Pp) as Po. split.
      * intros (xs & r & L & E' & Wx & C).
        assert (NR : n = 0%nat \/ rest <> []).
        { destruct n as [|n]; [left; reflexivity|right]. intros ->. destruct xs as [|y xs].
          - cbn in E', C. rewrite Z.add_0_r in C. destruct C as (a' & m' & r' & C1 & C2 & C3 & C4 & C5). rewrite <- E', V in C1.
            apply app_inj_len in C1; [|rewrite !bits_of_length; reflexivity]. destruct C1 as [_ C1]. apply unary_unique in C1. destruct C1 as [-> <-].
            destruct C5 as [[_ C5]|[C5 _]]; [congruence|lia].
          - rewrite codes_of_cons, <- app_assoc, code_z_split, V in E'. apply app_inj_len in E'; [|rewrite !bits_of_length; reflexivity]. destruct E' as [E0 E'].
            apply unary_unique in E'. destruct E' as [E1 E2].
            destruct (y =? 0) eqn:Y0; [|discriminate E2]. assert (y = 0) by lia. subst y. apply (f_equal bits_value) in E0. rewrite !bits_value_bits_of in E0. change (Z.of_nat 40) with 40 in E0.
            rewrite (Z.mod_small a) in E0 by exact Ha. cbn in E0, E1. subst a m. cbn in Hv. lia. }
        destruct n as [|n].
        -- right. exists st', (acc ++ [x]). split; [destruct f; reflexivity|]. split; [exact Pp|]. rewrite app_length. reflexivity.
        -- destruct NR as [NR|NR]; [discriminate NR|]. left. apply z_poison_ub; [exact Pp| |lia|lia].
           destruct (Z.eq_dec (d_off st') (zlen sig)) as [C0|]; [apply M5 in C0; contradiction|lia].
      * intros R. apply ub_z_now. exists a, m, rest. split; [exact V|]. split; [exact Ha|]. split; [exact Hv|]. split; [exact M3|].
        destruct n as [|n]; [right; split; [reflexivity|exact M4]|left].
        assert (NR : rest <> []).
        { intros C. apply M5 in C. rewrite dec_z_end in R by lia. destruct R as [R|(s2 & a2 & R & _ & R3)]; [discriminate R|]. injection R as _ <-. rewrite app_length in R3. cbn [length] in R3. lia. }
        split; [destruct M4 as [M4|M4]; [exact M4|contradiction]|exact NR].
Qed.
Lemma overrun_z_more' (A : Prop) pos B : (zlen B + pos) mod 8 = 0 -> ~ A -> overrun_response A pos B -> 65 <= zlen B.
Proof.
  intros D NA (a & m & rest & E & Ha & Hv & M2 & M3). destruct M3 as [[M3 M4]|[M3 _]]; [|contradiction].
  rewrite E in *. rewrite !zlen_app in *.
  replace (zlen (repeat true m)) with (Z.of_nat m) in * by (unfold zlen; rewrite repeat_length; reflexivity).
  replace (zlen (bits_of 40 a)) with 40 in * by (unfold zlen; rewrite bits_of_length; reflexivity).
  replace (zlen (false :: rest)) with (1 + zlen rest) in * by (unfold zlen; cbn [length]; lia).
  assert (0 < zlen rest) by (destruct rest; [congruence|unfold zlen; cbn [length]; lia]).
  pose proof (Z.div_mod pos 8 ltac:(lia)) as D3. pose proof (Z.mod_pos_bound pos 8 ltac:(lia)).
  pose proof (Z.div_mod (40 + (Z.of_nat m + (1 + zlen rest)) + pos) 8 ltac:(lia)) as D4. lia.
Qed.
Lemma overrun_hint_mod zb p p' B : p mod 8 = p' mod 8 -> overrun_hint zb p B -> overrun_hint zb p' B.
Proof. intros E (m & r & H). exists m, r. rewrite <- E. exact H. Qed.
Lemma overrun_response_mod A p p' B : p mod 8 = p' mod 8 -> overrun_response A p B -> overrun_response A p' B.
Proof. intros E (a & m & r & H). exists a, m, r. rewrite <- E. exact H. Qed.
Theorem decode_exact cl nh nz sig : Forall is_byte sig -> 0 <= cl < zlen sig -> (2 <= nz)%nat ->
  (decode_sig cl nh nz sig = UB <-> overrun_signature nh nz (bits_of_bytes (skipn (Z.to_nat cl) sig))).
Proof.
  intros Hs Hc Hz. rewrite decode_sig_eq. rewrite subspan_Ok by lia. cbn [bind]. change (Z.to_nat 0) with 0%nat. rewrite skipn_O.
  set (c := firstn (Z.to_nat cl) sig). set (B := bits_of_bytes (skipn (Z.to_nat cl) sig)).
  assert (G0 : good sig (Dec cl 0 0)) by (unfold good; cbn; lia).
  assert (H0 : hinv sig (Dec cl 0 0) false) by (split; [intros _; cbn; lia|discriminate]).
  assert (P0 : dpos (Dec cl 0 0) = 8 * cl) by (unfold dpos; cbn [d_off d_bbo]; lia).
  assert (V0 : view sig (Dec cl 0 0) = B) by apply view_start.
  pose proof (dec_h_sound sig Hs nh (Dec cl 0 0) [] G0) as HS.
  pose proof (dec_h_exact sig Hs nh (Dec cl 0 0) [] false G0 H0) as HX. cbn [length] in HX.
  rewrite V0, P0 in HS, HX.
  assert (UH : ub_h nh false (8 * cl) B <-> exists hs rest, (length hs < nh)%nat /\ B = concat (map code_h hs) ++ rest /\ hints_fit hs /\
     overrun_hint (last hs 1 =? 0) (Z.of_nat (length (concat (map code_h hs)))) rest).
  { assert (LZ : forall xs, match xs with [] => false | _ => last xs 1 =? 0 end = (last xs 1 =? 0)) by (intros [|x xs]; reflexivity).
    split.
    - intros (xs & rest & L & E & W & X & C). exists xs, rest. split; [exact L|]. split; [exact E|]. split.
      + split; [|exact X]. apply (all_in_window_shift code_h 64 cl xs 0). rewrite Z.add_0_l. exact W.
      + rewrite LZ in C. eapply overrun_hint_mod; [|exact C]. apply mod8_shift.
    - intros (xs & rest & L & E & [W X] & C). exists xs, rest. split; [exact L|]. split; [exact E|]. split.
      + rewrite <- (Z.add_0_l (8 * cl)). apply all_in_window_shift. exact W.
      + split; [exact X|]. rewrite LZ. eapply overrun_hint_mod; [|exact C]. symmetry. apply mod8_shift. }
  assert (BL : zlen B = 8 * (zlen sig - cl)) by (rewrite <- V0, (view_zlen sig _ G0), P0; lia).
  split.
  - intros E.
    destruct (dec_h_loop sig nh (Dec cl 0 0) []) as [[[ok st] h]| |] eqn:EH; cbn [bind] in E; [|left; apply UH, HX; left; reflexivity|discriminate E].
    destruct ok; cbn [negb] in E; [|discriminate E].
    destruct ((d_off st =? zlen sig) || negb (length h =? nh)%nat) eqn:E1; [discriminate E|].
    destruct HS as [[Pp _]|(hs & Eh & G & V & P & W & X)].
    { left. apply UH, HX. right. exists st, h. split; [reflexivity|]. split; [exact Pp|]. destruct Pp as [_ Po]. lia. }
    cbn [app] in Eh. subst h. right.
    pose proof (dec_z_exact sig Hs nz (length sig + nz) st [] G ltac:(unfold zlen in Hc; lia) (or_intror Hz)) as ZX. cbn [length] in ZX.
    pose proof (dec_z_sound sig Hs nz (length sig + nz) st [] G ltac:(unfold zlen in Hc; lia)) as ZS.
    assert (UZ : ub_z nz (dpos st) (view sig st)).
    { apply ZX. destruct (dec_z_loop sig (length sig + nz) nz st []) as [[[ok st2] z]| |]; cbn [bind] in E; [|left; reflexivity|discriminate E].
      destruct ok; cbn [negb] in E; [|discriminate E]. destruct (negb (length z =? nz)%nat) eqn:E2; [discriminate E|].
      destruct ZS as [[Pp _]|[ZS|(zs & Ez & G2 & V2 & P2 & W2)]].
      - right. exists st2, z. split; [reflexivity|]. split; [exact Pp|]. lia.
      - cbn [length] in ZS. lia.
      - exfalso. destruct (pad_check_spec sig st2 Hs G2) as (b & Eb & _). rewrite Eb in E. cbn [bind] in E. destruct b; discriminate E. }
    destruct UZ as (zs & rest & L & EZ & WZ & C). exists hs, zs, rest. split; [lia|]. split; [exact L|].
    split; [rewrite V, EZ; unfold sig_code; rewrite <- app_assoc; reflexivity|]. rewrite P in WZ, C. split.
    + split; [|split; [exact X|]].
      * apply (all_in_window_shift code_h 64 cl hs 0). rewrite Z.add_0_l. exact W.
      * apply (all_in_window_shift code_z 64 cl zs). rewrite Z.add_comm. exact WZ.
    + eapply overrun_response_mod; [|exact C]. rewrite <- Z.add_assoc, mod8_shift. f_equal. unfold sig_code, codes_of, zlen. rewrite app_length. lia.
  - intros [U|(hs & zs & rest & Lh & Lz & EB & (W & X & WZ) & C)].
    + destruct (proj1 HX (proj2 UH U)) as [-> | (st & h & -> & Pp & Ho & Lh)]; [reflexivity|]. cbn [bind negb].
      replace ((d_off st =? zlen sig) || negb (length h =? nh)%nat) with false by lia.
      rewrite (z_poison_ub sig (length sig + nz) nz st [] Pp Ho) by lia. reflexivity.
    + pose proof (overrun_z_len _ _ _ C) as CL.
      assert (R64 : 64 <= zlen (codes_of code_z zs ++ rest)).
      { rewrite zlen_app. destruct zs as [|z zs]; [|pose proof (codes_z_ge (z :: zs) ltac:(congruence)); lia].
        cbn [length] in C. assert (65 <= zlen rest); [|pose proof (zlen_nonneg (codes_of code_z [])); lia].
        refine (overrun_z_more' (1%nat = nz) _ rest _ ltac:(lia) C). fold (zlen (sig_code hs [])).
        assert (EL : zlen B = zlen (sig_code hs []) + zlen rest) by (rewrite EB, zlen_app; reflexivity).
        replace (zlen rest + zlen (sig_code hs [])) with ((zlen sig - cl) * 8) by lia. apply Z.mod_mul. lia. }
      destruct (dec_h_complete sig Hs hs (Dec cl 0 0) [] (codes_of code_z zs ++ rest) G0) as (st & E & G & V & P).
      * rewrite V0, EB. unfold sig_code. rewrite <- app_assoc. reflexivity.
      * exact R64.
      * rewrite P0. rewrite <- (Z.add_0_l (8 * cl)). apply all_in_window_shift. exact W.
      * exact X.
      * rewrite <- Lh at 1. rewrite E. cbn [bind negb app]. rewrite Lh, Nat.eqb_refl. cbn [negb]. rewrite orb_false_r.
        assert (Ho : d_off st < zlen sig) by (apply (off_lt sig st G); rewrite V; destruct G as (_ & Gb & _); lia).
        replace (d_off st =? zlen sig) with false by lia. rewrite P0 in P.
        assert (UZ : ub_z nz (dpos st) (view sig st)).
        { exists zs, rest. split; [exact Lz|]. split; [exact V|]. rewrite P. split.
          - rewrite Z.add_comm. apply all_in_window_shift. exact WZ.
          - eapply overrun_response_mod; [|exact C]. symmetry. rewrite <- Z.add_assoc, mod8_shift. f_equal. unfold sig_code, codes_of, zlen. rewrite app_length. lia. }
        apply (dec_z_exact sig Hs nz (length sig + nz) st [] G ltac:(unfold zlen in Hc; lia) (or_intror Hz)) in UZ.
        destruct UZ as [-> | (st2 & z & -> & Pp & Lz2)]; [reflexivity|]. cbn [bind negb]. cbn [length] in Lz2. replace (length z =? nz)%nat with true by lia. cbn [negb].
        rewrite (pad_poison sig st2 Pp). reflexivity.
Qed.
