(* Signature decoder: exact behaviour. *)
From Coq Require Import ZArith Lia Bool List Arith.
From Coq Require Import ZifyBool ZifyNat.
From Verif Require Import ModelBase ModelU128 ModelField ModelUtils ModelPoly ModelVec ModelSerial.
From Verif Require Import Spec SpecScheme SpecSig.
From Verif Require Import Words FieldProofs ArithLemmas BytesProofs PolyProofs PackProofs SkeyProofs SigEnc.
Import ListNotations.
Open Scope Z_scope.
Ltac Zify.zify_post_hook ::= idtac.

(* ---------- bits of a word as a list ---------- *)
Lemma nth_bits_of n : forall x i, 0 <= x < 2 ^ Z.of_nat n -> nth i (bits_of n x) false = Z.testbit x (Z.of_nat i).
Proof.
  induction n as [|n IH]; intros x i Hx.
  - change (2 ^ Z.of_nat 0) with 1 in Hx. replace x with 0 by lia. rewrite Z.bits_0. destruct i; reflexivity.
  - cbn [bits_of]. destruct i as [|i].
    + cbn [nth]. rewrite Z.bit0_odd. reflexivity.
    + cbn [nth]. rewrite IH.
      * rewrite Z.div2_bits by lia || (rewrite <- Z.div2_div, Z.div2_bits by lia). f_equal. lia.
      * rewrite Nat2Z.inj_succ, Z.pow_succ_r in Hx by lia. split; [apply Z.div_pos; lia|apply Z.div_lt_upper_bound; lia].
Qed.
Fixpoint ones (l : list bool) : nat := match l with true :: l' => S (ones l') | _ => 0 end.
Lemma ones_split l : l = repeat true (ones l) ++ skipn (ones l) l /\ (skipn (ones l) l = [] \/ exists r, skipn (ones l) l = false :: r).
Proof.
  induction l as [|[|] l IH]; [split; [reflexivity|left; reflexivity]| |].
  - cbn [ones repeat app skipn]. destruct IH as [IH1 IH2]. split; [f_equal; exact IH1|exact IH2].
  - cbn [ones repeat app skipn]. split; [reflexivity|right; exists l; reflexivity].
Qed.
Lemma ones_le l : (ones l <= length l)%nat.
Proof. induction l as [|[|] l IH]; cbn [ones length]; lia. Qed.
Lemma ones_app n r : ones (repeat true n ++ false :: r) = n.
Proof. induction n as [|n IH]; [reflexivity|]. cbn [repeat app ones]. f_equal. exact IH. Qed.
Lemma ones_repeat n : ones (repeat true n) = n.
Proof. induction n as [|n IH]; [reflexivity|]. cbn [repeat ones]. f_equal. exact IH. Qed.
Lemma ones_skipn l : forall i, (forall j, (j < i)%nat -> nth j l false = true) -> (i <= length l)%nat -> ones l = (i + ones (skipn i l))%nat.
Proof.
  induction l as [|b l IH]; intros i H Hi.
  - cbn [length] in Hi. replace i with 0%nat by lia. reflexivity.
  - destruct i as [|i]; [reflexivity|]. assert (b = true) by (apply (H 0%nat); lia). subst b. cbn [ones skipn]. rewrite (IH i).
    + reflexivity.
    + intros j Hj. apply (H (S j)). lia.
    + cbn [length] in Hi. lia.
Qed.
Lemma get_bit_spec w i : 0 <= i < 64 -> get_bit_at w i = Ok (Z.b2z (Z.testbit w i)).
Proof.
  intros H. unfold get_bit_at. rewrite shr_chk_Ok by lia. cbn [bind]. f_equal. change 1 with (2 ^ 1 - 1) at 1.
  rewrite (land_mask _ 1) by (reflexivity || lia). change (2 ^ 1) with 2. rewrite <- Z.shiftr_div_pow2 by lia. rewrite <- Z.bit0_mod, Z.shiftr_spec by lia. rewrite Z.add_0_l. reflexivity.
Qed.
Lemma count_ones_spec buf bbo : 0 <= bbo <= 64 -> 0 <= buf < 2 ^ bbo -> forall n i, (Z.to_nat bbo <= i + n)%nat -> (i <= Z.to_nat bbo)%nat ->
  (forall j, (j < i)%nat -> nth j (bits_of (Z.to_nat bbo) buf) false = true) ->
  count_ones n buf bbo (Z.of_nat i) = Ok (Z.of_nat (ones (bits_of (Z.to_nat bbo) buf))).
Proof.
  intros Hb Hbuf. set (L := bits_of (Z.to_nat bbo) buf). assert (LL : length L = Z.to_nat bbo) by apply bits_of_length.
  assert (NB : forall i, nth i L false = Z.testbit buf (Z.of_nat i)).
  { intros i. apply nth_bits_of. rewrite Z2Nat.id by lia. exact Hbuf. }
  induction n as [|n IH]; intros i Hn Hi H; cbn [count_ones].
  - replace (Z.of_nat i <? bbo) with false by lia. f_equal. f_equal. rewrite (ones_skipn L i H) by lia.
    rewrite skipn_all2 by lia. cbn [ones]. lia.
  - destruct (Z.of_nat i <? bbo) eqn:E.
    + rewrite get_bit_spec by lia. cbn [bind]. destruct (Z.testbit buf (Z.of_nat i)) eqn:T; cbn [Z.b2z Z.eqb].
      * replace (1 =? 1) with true by reflexivity. replace (Z.of_nat i + 1) with (Z.of_nat (S i)) by lia. apply IH; [lia|lia|].
        intros j Hj. destruct (Nat.eq_dec j i) as [->|]; [rewrite NB; exact T|apply H; lia].
      * f_equal. f_equal. rewrite (ones_skipn L i H) by lia.
        assert (SK : skipn i L = false :: skipn (S i) L).
        { rewrite <- T, <- NB. assert (HL : (i < length L)%nat) by lia. clear - HL. rename HL into H. revert i H. induction L as [|b L IH]; intros i H; cbn [length] in H; [lia|].
          destruct i as [|i]; [reflexivity|]. cbn [skipn nth]. rewrite (IH i) at 1 by lia. reflexivity. }
        rewrite SK. cbn [ones]. lia.
    + f_equal. f_equal. rewrite (ones_skipn L i H) by lia. rewrite skipn_all2 by lia. cbn [ones]. lia.
Qed.
(* the two coefficient decoders on the bit list *)
Lemma decode_hint_spec buf bbo : 0 <= bbo <= 64 -> 0 <= buf < 2 ^ bbo ->
  let L := bits_of (Z.to_nat bbo) buf in let m := Z.of_nat (ones L) in
  decode_bits_as_hint_coeff buf bbo =
    if m =? bbo then Ok (0, 0)
    else if 0 <? m then
      (if m + 1 <? 64 then Ok (if nth (ones L + 1) L false then - m else m, m + 2) else UB)
    else Ok (0, 1).
Proof.
  intros Hb Hbuf L m. unfold decode_bits_as_hint_coeff.
  change 0 with (Z.of_nat 0) at 1. rewrite (count_ones_spec buf bbo Hb Hbuf 65 0) by (lia || (intros; lia)). cbn [bind]. fold L. fold m.
  assert (LL : length L = Z.to_nat bbo) by apply bits_of_length. pose proof (ones_le L).
  destruct (m =? bbo) eqn:E1; [reflexivity|]. destruct (0 <? m) eqn:E2.
  - destruct (m + 1 <? 64) eqn:E3.
    + rewrite get_bit_spec by lia. cbn [bind].
      assert (NB : nth (ones L + 1) L false = Z.testbit buf (m + 1)).
      { unfold L at 2. rewrite nth_bits_of by (rewrite Z2Nat.id by lia; exact Hbuf). f_equal. lia. }
      rewrite NB. replace (m + 1 + 1) with (m + 2) by ring. destruct (Z.testbit buf (m + 1)); reflexivity.
    + unfold get_bit_at, shr_chk. replace ((0 <=? m + 1) && (m + 1 <? 64)) with false by lia. reflexivity.
  - assert (m = 0) by lia. rewrite H0. reflexivity.
Qed.
Lemma decode_resp_spec buf bbo a : 0 <= bbo <= 24 -> 0 <= buf < 2 ^ bbo -> 0 <= a < 2 ^ 40 ->
  let L := bits_of (Z.to_nat bbo) buf in let m := Z.of_nat (ones L) in let v := m * 2 ^ 40 + a in
  decode_bits_as_response_coeff buf bbo a =
    if m =? bbo then Ok (a, 0)
    else if 0 <? v then Ok (if nth (ones L + 1) L false then - v else v, m + 2)
    else Ok (v, m + 1).
Proof.
  intros Hb Hbuf Ha L m v. unfold decode_bits_as_response_coeff.
  change 0 with (Z.of_nat 0) at 1. rewrite (count_ones_spec buf bbo) by (lia || assumption || (intros; lia)). cbn [bind]. fold L. fold m.
  assert (LL : length L = Z.to_nat bbo) by apply bits_of_length. pose proof (ones_le L).
  destruct (m =? bbo) eqn:E1; [reflexivity|].
  assert (EV : Z.lor (Z.shiftl m 40) a = v) by (rewrite Z.shiftl_mul_pow2 by lia; apply lor_disjoint'; lia).
  rewrite EV. destruct (0 <? v) eqn:E2; [|reflexivity].
  rewrite get_bit_spec by lia. cbn [bind].
  assert (NB : nth (ones L + 1) L false = Z.testbit buf (m + 1)).
  { unfold L at 2. rewrite nth_bits_of by (rewrite Z2Nat.id by lia; exact Hbuf). f_equal. lia. }
  rewrite NB. replace (m + 1 + 1) with (m + 2) by ring. destruct (Z.testbit buf (m + 1)); reflexivity.
Qed.

(* ---------- prefix codes ---------- *)
Lemma unary_unique a b r r' : repeat true a ++ false :: r = repeat true b ++ false :: r' -> a = b /\ r = r'.
Proof.
  intros E. assert (a = b) by (rewrite <- (ones_app a r), <- (ones_app b r'), E; reflexivity). subst b. split; [reflexivity|].
  apply app_inv_head in E. congruence.
Qed.
Lemma code_h_split x r : code_h x ++ r = repeat true (Z.to_nat (Z.abs x)) ++ false :: ((if x =? 0 then [] else [x <? 0]) ++ r).
Proof. unfold code_h. rewrite <- !app_assoc. reflexivity. Qed.
Lemma code_z_split x r : code_z x ++ r = bits_of 40 (Z.abs x) ++ repeat true (Z.to_nat (Z.abs x / 2 ^ 40)) ++ false :: ((if x =? 0 then [] else [x <? 0]) ++ r).
Proof. unfold code_z. rewrite <- !app_assoc. reflexivity. Qed.
Lemma code_h_unique x y r r' : code_h x ++ r = code_h y ++ r' -> x = y /\ r = r'.
Proof.
  rewrite !code_h_split. intros E. apply unary_unique in E. destruct E as [E1 E2].
  destruct (x =? 0) eqn:X, (y =? 0) eqn:Y; cbn [app] in E2; try lia.
  - split; [lia|exact E2].
  - injection E2 as E2 E3. split; [|exact E3]. destruct (x <? 0) eqn:X0, (y <? 0) eqn:Y0; lia || discriminate E2.
Qed.
Lemma bits40_inj a b : 0 <= a -> 0 <= b -> bits_of 40 a = bits_of 40 b -> a mod 2 ^ 40 = b mod 2 ^ 40.
Proof. intros Ha Hb E. apply (f_equal bits_value) in E. rewrite !bits_value_bits_of in E. exact E. Qed.
Lemma code_z_unique x y r r' : code_z x ++ r = code_z y ++ r' -> x = y /\ r = r'.
Proof.
  rewrite !code_z_split. intros E. apply app_inj_len in E; [|rewrite !bits_of_length; reflexivity]. destruct E as [E0 E].
  apply bits40_inj in E0; [|lia|lia]. apply unary_unique in E. destruct E as [E1 E2].
  pose proof (Z.div_mod (Z.abs x) (2 ^ 40) ltac:(discriminate)) as D1. pose proof (Z.div_mod (Z.abs y) (2 ^ 40) ltac:(discriminate)) as D2.
  assert (0 <= Z.abs x / 2 ^ 40) by (apply Z.div_pos; [lia|reflexivity]). assert (0 <= Z.abs y / 2 ^ 40) by (apply Z.div_pos; [lia|reflexivity]).
  assert (EA : Z.abs x = Z.abs y). { rewrite D1, D2, E0. replace (Z.abs y / 2 ^ 40) with (Z.abs x / 2 ^ 40) by lia. reflexivity. }
  clear - EA E2. destruct (x =? 0) eqn:X, (y =? 0) eqn:Y; cbn [app] in E2; try lia.
  - split; [lia|exact E2].
  - injection E2 as E2 E3. split; [|exact E3]. destruct (x <? 0) eqn:X0, (y <? 0) eqn:Y0; lia || discriminate E2.
Qed.

(* ---------- decoder state ---------- *)
Definition good (sig : list Z) (st : dec) : Prop :=
  0 <= d_off st <= zlen sig /\ 0 <= d_bbo st <= 63 /\ 0 <= d_buf st < 2 ^ d_bbo st.
Definition view (sig : list Z) (st : dec) : list bool :=
  bits_of (Z.to_nat (d_bbo st)) (d_buf st) ++ bits_of_bytes (skipn (Z.to_nat (d_off st)) sig).
Definition dpos (st : dec) : Z := 8 * d_off st - d_bbo st.
Definition poison (sig : list Z) (st : dec) : Prop := d_bbo st = two64 - 1 /\ 0 <= d_off st <= zlen sig.
Lemma firstn_skipn_add {A} (l : list A) a n : skipn a l = firstn n (skipn a l) ++ skipn (a + n) l.
Proof. rewrite <- (firstn_skipn n (skipn a l)) at 1. f_equal. apply skipn_skipn'. Qed.
Lemma refill_spec sig st : Forall is_byte sig -> good sig st ->
  exists buf n, dec_refill sig st = Ok (Dec (d_off st) buf (d_bbo st + 8 * n), n) /\ 0 <= n /\ d_off st + n <= zlen sig /\
    d_bbo st + 8 * n <= 64 - (dpos st) mod 8 /\ (d_bbo st + 8 * n = 64 - (dpos st) mod 8 \/ d_off st + n = zlen sig) /\
    0 <= buf < 2 ^ (d_bbo st + 8 * n) /\
    view sig st = bits_of (Z.to_nat (d_bbo st + 8 * n)) buf ++ bits_of_bytes (skipn (Z.to_nat (d_off st + n)) sig).
Proof.
  intros Hs (Ho & Hb & Hbuf). unfold dec_refill. cbv zeta. set (o := d_off st) in *. set (b := d_bbo st) in *.
  assert (E1 : sub64 64 b = 64 - b) by (unfold sub64; apply u64_small; unfold is64, two64; lia). rewrite E1.
  rewrite align8_spec by (unfold is64, two64; lia). rewrite (Z.mul_comm 8), Z.div_mul by lia.
  assert (D : 64 - dpos st mod 8 = b + 8 * ((64 - b) / 8)).
  { unfold dpos. fold o b. pose proof (Z.div_mod (64 - b) 8 ltac:(lia)).
    replace (8 * o - b) with ((64 - b) mod 8 + (o - 8 + (64 - b) / 8) * 8) by lia.
    rewrite Z.mod_add, Zmod_mod by lia. lia. }
  set (n := Z.min ((64 - b) / 8) (zlen sig - o)). assert (N0 : 0 <= (64 - b) / 8) by (apply Z.div_pos; lia).
  rewrite D. assert (Hn : 0 <= n /\ n <= (64 - b) / 8 /\ o + n <= zlen sig /\ (n = (64 - b) / 8 \/ o + n = zlen sig)) by (unfold n; lia).
  assert (N8 : b + 8 * n <= 64). { pose proof (Z.mod_pos_bound (dpos st) 8 ltac:(lia)). lia. }
  clearbody n. rewrite subspan_Ok by lia. cbn [bind]. rewrite shl_chk_Ok by lia. cbn [bind].
  set (r := firstn (Z.to_nat n) (skipn (Z.to_nat o) sig)).
  assert (Hr : Forall is_byte r) by (apply Forall_firstn, Forall_skipn, Hs).
  assert (Lr : zlen r = n). { unfold zlen, r. rewrite firstn_length, skipn_length. unfold zlen in *. lia. }
  rewrite from_le_bytes_spec by exact Hr. rewrite firstn_all2 by (unfold zlen in *; lia).
  pose proof (le_value_range r Hr) as R. rewrite Lr, pow256_2 in R by lia.
  destruct (buf_push (d_buf st) b (le_value r) (8 * n)) as (P1 & P2 & P3); [lia|lia|lia|exact Hbuf|].
  rewrite (Z.mod_small (le_value r)) in P1, P2, P3 by exact R. rewrite P1.
  exists (d_buf st + le_value r * 2 ^ b), n.
  assert (E2 : add64 b (n * 8) = b + 8 * n) by (unfold add64; rewrite u64_small; [lia|unfold is64, two64; lia]). rewrite E2.
  repeat apply conj; try lia; [reflexivity|].
  unfold view. fold o b. rewrite P3, <- app_assoc. f_equal. rewrite bits_of_bytes_le by (exact Hr || (unfold zlen in *; lia)).
  rewrite (firstn_skipn_add sig (Z.to_nat o) (Z.to_nat n)), bits_of_bytes_app. fold r. do 3 f_equal. lia.
Qed.

Lemma app_len_split {A} (a b c d : list A) : a ++ b = c ++ d -> (length c <= length a)%nat -> exists e, a = c ++ e /\ d = e ++ b.
Proof.
  revert c. induction a as [|x a IH]; intros [|y c] E H; cbn in *; try lia.
  - exists []. split; [reflexivity|symmetry; exact E].
  - exists (x :: a). split; [reflexivity|symmetry; exact E].
  - injection E as -> E. destruct (IH c E ltac:(lia)) as (e & -> & ->). exists e. auto.
Qed.
(* after consuming k <= B bits of a window *)
Lemma consume sig off buf B k pre : 0 <= k <= B -> 0 <= off <= zlen sig -> B <= 64 -> 0 < k -> 0 <= buf < 2 ^ B -> Z.of_nat (length pre) = k ->
  (exists t, bits_of (Z.to_nat B) buf = pre ++ t) ->
  let st' := Dec off (buf / 2 ^ k) (B - k) in
  good sig st' /\ bits_of (Z.to_nat B) buf ++ bits_of_bytes (skipn (Z.to_nat off) sig) = pre ++ view sig st' /\ dpos st' = 8 * off - B + k.
Proof.
  intros Hk Ho HB Hk0 Hbuf Hp [t Et] st'. destruct (buf_pop buf B k) as [P1 P2]; [lia|exact Hbuf|].
  split; [unfold good, st'; cbn [d_off d_bbo d_buf]; lia|]. split; [|unfold dpos, st'; cbn [d_off d_bbo]; lia].
  unfold view, st'. cbn [d_off d_bbo d_buf]. rewrite app_assoc. f_equal. rewrite P1. f_equal.
  rewrite Et in P1. symmetry in P1. apply app_inj_len in P1; [exact (proj1 P1)|]. rewrite bits_of_length. lia.
Qed.
Inductive h_step (sig : list Z) (n : nat) (st : dec) (acc : list Z) : Prop :=
| h_fail st1 k : dec_h_loop sig (S n) st acc = Ok (false, st1, acc) ->
    (exists rest, view sig st = repeat true k ++ rest /\ (Z.of_nat k = 64 - dpos st mod 8 \/ rest = [])) -> h_step sig n st acc
| h_good x st' : dec_h_loop sig (S n) st acc = dec_h_loop sig n st' (acc ++ [x]) -> good sig st' -> view sig st = code_h x ++ view sig st' ->
    dpos st' = dpos st + clen code_h x -> dpos st mod 8 + clen code_h x <= 64 -> Z.abs x <= 61 ->
    (d_off st' = d_off st + (64 - d_bbo st) / 8 \/ d_off st' = zlen sig) -> h_step sig n st acc
| h_ub : dec_h_loop sig (S n) st acc = UB -> cut_hint (dpos st) (view sig st) -> h_step sig n st acc
| h_poison x st' : dec_h_loop sig (S n) st acc = dec_h_loop sig n st' (acc ++ [x]) -> poison sig st' -> cut_hint (dpos st) (view sig st) -> h_step sig n st acc.
Lemma skipn_nil_bits sig off : off = zlen sig -> bits_of_bytes (skipn (Z.to_nat off) sig) = [].
Proof. intros ->. rewrite skipn_all2 by (unfold zlen; lia). reflexivity. Qed.
Lemma dec_h_step sig n st acc : Forall is_byte sig -> good sig st -> d_off st < zlen sig -> h_step sig n st acc.
Proof.
  intros Hs G Ho. destruct (refill_spec sig st Hs G) as (buf & nb & ER & N0 & N1 & NW & NE & HB & EV).
  destruct G as (Go & Gb & Gbuf).
  assert (D8 : d_bbo st + 8 * nb = 64 - dpos st mod 8 -> nb = (64 - d_bbo st) / 8).
  { intros E. apply Z.div_unique with (r := dpos st mod 8); [left; apply Z.mod_pos_bound; lia|lia]. }
  set (B := d_bbo st + 8 * nb) in *. set (off := d_off st + nb) in *.
  assert (M8 := Z.mod_pos_bound (dpos st) 8 ltac:(lia)).
  assert (EL : dec_h_loop sig (S n) st acc =
    ('(coeff, consumed) <- decode_bits_as_hint_coeff buf B ;;
        if 0 <? consumed then
          buf <- shr_chk buf consumed ;;
          dec_h_loop sig n (Dec off buf (sub64 B consumed)) (acc ++ [coeff])
        else Ok (false, Dec (d_off st) buf B, acc))).
  { cbn [dec_h_loop]. replace (zlen sig <=? d_off st) with false by lia. rewrite ER. reflexivity. }
  assert (B0 : 0 <= B) by (unfold B; lia).
  rewrite decode_hint_spec in EL by (lia || exact HB). set (L := bits_of (Z.to_nat B) buf) in *.
  assert (LL : length L = Z.to_nat B) by apply bits_of_length.
  pose proof (ones_split L) as [S1 S2]. pose proof (ones_le L) as OL. set (m := ones L) in *.
  destruct (Z.of_nat m =? B) eqn:E1.
  { cbn [bind] in EL. apply h_fail with (st1 := Dec (d_off st) buf B) (k := m); [exact EL|].
    rewrite EV, S1. rewrite skipn_all2 by lia. rewrite app_nil_r. eexists. split; [reflexivity|].
    destruct NE as [NE|NE]; [left; lia|right; apply skipn_nil_bits; exact NE]. }
  destruct S2 as [S2|[t S2]].
  { exfalso. apply (f_equal (@length bool)) in S2. rewrite skipn_length in S2. cbn in S2. lia. }
  rewrite S2 in S1.
  assert (Lt : (length L = m + S (length t))%nat) by (rewrite S1 at 1; rewrite app_length, repeat_length; reflexivity).
  destruct (0 <? Z.of_nat m) eqn:E2.
  - destruct (Z.of_nat m + 1 <? 64) eqn:E3; cbn [bind] in EL.
    2:{ apply h_ub; [exact EL|]. exists m, (t ++ bits_of_bytes (skipn (Z.to_nat off) sig)).
        rewrite EV, S1, <- app_assoc. split; [reflexivity|]. lia. }
    replace (0 <? Z.of_nat m + 2) with true in EL by lia.
    destruct (Z_le_gt_dec 62 (Z.of_nat m)) as [M62|M62].
    { unfold shr_chk in EL. replace ((0 <=? Z.of_nat m + 2) && (Z.of_nat m + 2 <? 64)) with false in EL by lia. cbn [bind] in EL.
      apply h_ub; [exact EL|]. exists m, (t ++ bits_of_bytes (skipn (Z.to_nat off) sig)).
      rewrite EV, S1, <- app_assoc. split; [reflexivity|]. lia. }
    rewrite shr_chk_Ok in EL by lia. cbn [bind] in EL.
    destruct t as [|sg t].
    + (* sign bit outside the window *)
      cbn [length] in Lt. eapply h_poison; [exact EL| |].
      * unfold poison. cbn [d_bbo d_off]. split; [|lia]. unfold sub64, u64. replace (B - (Z.of_nat m + 2)) with (-1) by lia. reflexivity.
      * exists m, (bits_of_bytes (skipn (Z.to_nat off) sig)). rewrite EV, S1, <- app_assoc. split; [reflexivity|].
        destruct NE as [NE|NE]; [lia|]. rewrite (skipn_nil_bits sig off NE). repeat apply conj; try lia. right. right. reflexivity.
    + cbn [length] in Lt.
      assert (ES : sub64 B (Z.of_nat m + 2) = B - (Z.of_nat m + 2)) by (unfold sub64; apply u64_small; unfold is64, two64; lia).
      rewrite ES in EL.
      assert (NTH : nth (m + 1) L false = sg). { rewrite S1, app_nth2 by (rewrite repeat_length; lia). rewrite repeat_length. replace (m + 1 - m)%nat with 1%nat by lia. reflexivity. }
      rewrite NTH in EL. set (x := if sg then - Z.of_nat m else Z.of_nat m) in EL.
      assert (EC : code_h x = repeat true m ++ [false; sg]).
      { unfold code_h. replace (Z.to_nat (Z.abs x)) with m by (unfold x; destruct sg; lia).
        replace (x =? 0) with false by (unfold x; destruct sg; lia). replace (x <? 0) with sg by (unfold x; destruct sg; lia). reflexivity. }
      assert (CL : clen code_h x = Z.of_nat m + 2) by (unfold clen; rewrite EC, app_length, repeat_length; cbn [length]; lia).
      destruct (consume sig off buf B (Z.of_nat m + 2) (code_h x)) as (C1 & C2 & C3); try lia; try exact HB.
      { exact CL. } { exists t. fold L. rewrite EC, S1, <- app_assoc. reflexivity. }
      eapply h_good with (x := x); [exact EL|exact C1|rewrite EV; exact C2|rewrite C3, CL; unfold dpos, B, off; lia|lia|unfold x; destruct sg; lia|].
      cbn [d_off]. destruct NE as [NE|NE]; [left; unfold off; rewrite (D8 NE); reflexivity|right; exact NE].
  - assert (m = 0%nat) by lia. rewrite H in *. cbn [bind repeat app] in *.
    replace (0 <? 1) with true in EL by reflexivity. rewrite shr_chk_Ok in EL by lia. cbn [bind] in EL.
    assert (ES : sub64 B 1 = B - 1) by (unfold sub64; apply u64_small; unfold is64, two64; lia). rewrite ES in EL.
    destruct (consume sig off buf B 1 (code_h 0)) as (C1 & C2 & C3); try lia; try exact HB; try reflexivity.
    { exists t. exact S1. }
    eapply h_good with (x := 0); [exact EL|exact C1|rewrite EV; exact C2|rewrite C3; change (clen code_h 0) with 1; unfold dpos, B, off; lia|change (clen code_h 0) with 1; lia|lia|].
    cbn [d_off]. destruct NE as [NE|NE]; [left; unfold off; rewrite (D8 NE); reflexivity|right; exact NE].
Qed.
Inductive z_step (sig : list Z) (f n : nat) (st : dec) (acc : list Z) : Prop :=
| z_short st1 : dec_z_loop sig (S f) (S n) st acc = Ok (true, st1, acc) ->
    (length (view sig st) <= 40)%nat -> z_step sig f n st acc
| z_fail st1 k a : dec_z_loop sig (S f) (S n) st acc = Ok (false, st1, acc) ->
    (exists rest, view sig st = bits_of 40 a ++ repeat true k ++ rest /\ (Z.of_nat k + 40 = 64 - dpos st mod 8 \/ rest = [])) -> z_step sig f n st acc
| z_good x st' : dec_z_loop sig (S f) (S n) st acc = dec_z_loop sig f n st' (acc ++ [x]) -> good sig st' -> view sig st = code_z x ++ view sig st' ->
    dpos st' = dpos st + clen code_z x -> dpos st mod 8 + clen code_z x <= 64 ->
    d_bbo st' <= 23 -> z_step sig f n st acc
| z_poison x st' : dec_z_loop sig (S f) (S n) st acc = dec_z_loop sig f n st' (acc ++ [x]) -> poison sig st' -> cut_response (dpos st) (view sig st) -> z_step sig f n st acc.
Lemma dec_z_end sig f n st acc : zlen sig <= d_off st -> dec_z_loop sig f n st acc = Ok (true, st, acc).
Proof. intros H. destruct n, f; cbn [dec_z_loop]; try reflexivity; replace (zlen sig <=? d_off st) with true by lia; reflexivity. Qed.
Lemma dec_z_step sig f n st acc : Forall is_byte sig -> good sig st -> d_off st < zlen sig -> z_step sig f n st acc.
Proof.
  intros Hs G Ho. destruct (refill_spec sig st Hs G) as (buf & nb & ER & N0 & N1 & NW & NE & HB & EV).
  destruct G as (Go & Gb & Gbuf).
  assert (D8 : d_bbo st + 8 * nb = 64 - dpos st mod 8 -> nb = (64 - d_bbo st) / 8).
  { intros E. apply Z.div_unique with (r := dpos st mod 8); [left; apply Z.mod_pos_bound; lia|lia]. }
  set (B := d_bbo st + 8 * nb) in *. set (off := d_off st + nb) in *.
  assert (M8 := Z.mod_pos_bound (dpos st) 8 ltac:(lia)).
  destruct (40 <? B) eqn:E40.
  2:{ assert (NE' : off = zlen sig) by lia. apply z_short with (st1 := Dec off buf B).
      - cbn [dec_z_loop]. replace (zlen sig <=? d_off st) with false by lia. rewrite ER. cbn [bind d_bbo]. rewrite E40. cbn [d_off d_buf d_bbo]. fold off.
        apply (dec_z_end sig f (S n) (Dec off buf B) acc). cbn [d_off]. lia.
      - rewrite EV, (skipn_nil_bits sig off NE'), app_nil_r, bits_of_length. lia. }
  set (buf2 := buf / 2 ^ 40). set (b2 := B - 40).
  destruct (buf_pop buf B 40) as [P1 P2]; [lia|exact HB|]. fold buf2 b2 in P1, P2. change (Z.to_nat 40) with 40%nat in P1.
  assert (Ea : Z.land buf (shl64 1 40 - 1) = buf mod 2 ^ 40) by (apply land_mask; [lia|reflexivity]).
  set (a := buf mod 2 ^ 40) in *. assert (Ha : 0 <= a < 2 ^ 40) by (apply Z.mod_pos_bound; reflexivity).
  assert (EL : dec_z_loop sig (S f) (S n) st acc =
    ('(coeff, consumed) <- decode_bits_as_response_coeff buf2 b2 a ;;
        if 0 <? consumed then
          buf <- shr_chk buf2 consumed ;;
          dec_z_loop sig f n (Dec off buf (sub64 b2 consumed)) (acc ++ [coeff])
        else Ok (false, Dec (d_off st) buf B, acc))).
  { cbn [dec_z_loop]. replace (zlen sig <=? d_off st) with false by lia. rewrite ER. cbn [bind d_bbo]. rewrite E40. cbn [d_off d_buf d_bbo]. cbv zeta.
    rewrite Ea. rewrite shr64_spec by lia. fold buf2. replace (sub64 B 40) with b2 by (unfold sub64; rewrite u64_small; [reflexivity|unfold is64, two64; lia]). reflexivity. }
  rewrite decode_resp_spec in EL by (exact P2 || exact Ha || lia). set (L := bits_of (Z.to_nat b2) buf2) in *.
  assert (LL : length L = Z.to_nat b2) by apply bits_of_length.
  assert (EA40 : bits_of 40 buf = bits_of 40 a) by (symmetry; exact (bits_of_mod 40 buf)).
  rewrite EA40 in P1. rewrite P1 in EV.
  pose proof (ones_split L) as [S1 S2]. pose proof (ones_le L) as OL. set (m := ones L) in *.
  destruct (Z.of_nat m =? b2) eqn:E1.
  { cbn [bind] in EL. apply z_fail with (st1 := Dec (d_off st) buf B) (k := m) (a := a); [exact EL|].
    rewrite EV, S1. rewrite skipn_all2 by lia. rewrite app_nil_r, <- app_assoc. eexists. split; [reflexivity|].
    destruct NE as [NE|NE]; [left; lia|right; apply skipn_nil_bits; exact NE]. }
  destruct S2 as [S2|[t S2]].
  { exfalso. apply (f_equal (@length bool)) in S2. rewrite skipn_length in S2. cbn in S2. lia. }
  rewrite S2 in S1.
  assert (Lt : (length L = m + S (length t))%nat) by (rewrite S1 at 1; rewrite app_length, repeat_length; reflexivity).
  assert (VR : 0 <= Z.of_nat m * 2 ^ 40) by lia.
  destruct (0 <? Z.of_nat m * 2 ^ 40 + a) eqn:E2.
  - cbn [bind] in EL. replace (0 <? Z.of_nat m + 2) with true in EL by lia. rewrite shr_chk_Ok in EL by lia. cbn [bind] in EL.
    destruct t as [|sg t].
    + cbn [length] in Lt. eapply z_poison; [exact EL| |].
      * unfold poison. cbn [d_bbo d_off]. split; [|lia]. unfold sub64, u64. replace (b2 - (Z.of_nat m + 2)) with (-1) by lia. reflexivity.
      * exists a, m, (bits_of_bytes (skipn (Z.to_nat off) sig)). rewrite EV, S1, <- !app_assoc. split; [reflexivity|].
        split; [exact Ha|]. split; [lia|].
        destruct NE as [NE|NE]; [lia|]. rewrite (skipn_nil_bits sig off NE). repeat apply conj; try lia. right. reflexivity.
    + cbn [length] in Lt.
      assert (ES : sub64 b2 (Z.of_nat m + 2) = B - (40 + Z.of_nat m + 2)) by (unfold sub64; rewrite u64_small; [lia|unfold is64, two64; lia]).
      rewrite ES in EL.
      assert (NTH : nth (m + 1) L false = sg). { rewrite S1, app_nth2 by (rewrite repeat_length; lia). rewrite repeat_length. replace (m + 1 - m)%nat with 1%nat by lia. reflexivity. }
      rewrite NTH in EL. set (v := Z.of_nat m * 2 ^ 40 + a) in *. set (x := if sg then - v else v) in EL.
      assert (Ax : Z.abs x = v) by (unfold x; destruct sg; lia).
      assert (DV : v / 2 ^ 40 = Z.of_nat m) by (unfold v; rewrite Z.add_comm, Z.div_add by discriminate; rewrite (Z.div_small a) by exact Ha; lia).
      assert (MV : v mod 2 ^ 40 = a) by (unfold v; rewrite Z.add_comm, Z.mod_add by discriminate; apply Z.mod_small; exact Ha).
      assert (EC : code_z x = bits_of 40 a ++ repeat true m ++ [false; sg]).
      { unfold code_z. rewrite Ax, DV, Nat2Z.id. rewrite <- (bits_of_mod 40 v). change (Z.of_nat 40) with 40. rewrite MV.
        replace (x =? 0) with false by (unfold x; destruct sg; lia). replace (x <? 0) with sg by (unfold x; destruct sg; lia). reflexivity. }
      assert (CL : clen code_z x = 40 + Z.of_nat m + 2) by (unfold clen; rewrite EC, !app_length, repeat_length, bits_of_length; cbn [length]; lia).
      assert (DD : buf2 / 2 ^ (Z.of_nat m + 2) = buf / 2 ^ (40 + Z.of_nat m + 2)).
      { unfold buf2. rewrite Z.div_div by (try apply Z.pow_pos_nonneg; lia). rewrite <- Z.pow_add_r by lia. do 2 f_equal. lia. }
      rewrite DD in EL.
      clearbody v x. clear DV MV Ax E2 VR.
      destruct (consume sig off buf B (40 + Z.of_nat m + 2) (code_z x)) as (C1 & C2 & C3); [lia|lia|lia|lia|exact HB|exact CL| |].
      { exists t. rewrite P1, EC, S1, <- !app_assoc. reflexivity. }
      eapply z_good with (x := x); [exact EL|exact C1|rewrite EV, <- P1; exact C2|rewrite C3, CL; unfold dpos, B, off; lia|lia|cbn [d_bbo]; lia].
  - assert (H : m = 0%nat) by (change (2 ^ 40) with 1099511627776 in *; lia). assert (A0 : a = 0) by lia. rewrite H, A0 in *. cbn [bind repeat app] in *.
    change (Z.of_nat 0 + 1) with 1 in EL. change (Z.of_nat 0 * 2 ^ 40 + 0) with 0 in EL.
    replace (0 <? 1) with true in EL by reflexivity. rewrite shr_chk_Ok in EL by lia. cbn [bind] in EL.
    assert (ES : sub64 b2 1 = B - 41) by (unfold sub64; rewrite u64_small; [lia|unfold is64, two64; lia]). rewrite ES in EL.
    assert (DD : buf2 / 2 ^ 1 = buf / 2 ^ 41).
    { unfold buf2. rewrite Z.div_div by (try apply Z.pow_pos_nonneg; lia). rewrite <- Z.pow_add_r by lia. reflexivity. }
    rewrite DD in EL.
    destruct (consume sig off buf B 41 (code_z 0)) as (C1 & C2 & C3); try lia; try exact HB; try reflexivity.
    { exists t. rewrite P1, S1. reflexivity. }
    eapply z_good with (x := 0); [exact EL|exact C1|rewrite EV, <- P1; exact C2|rewrite C3; change (clen code_z 0) with 41; unfold dpos, B, off; lia|change (clen code_z 0) with 41; lia|cbn [d_bbo]; lia].
Qed.
