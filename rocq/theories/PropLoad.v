(* Property theorems about loading a secret key and saving it again: serialization.hpp, secret_key.hpp. *)
From Coq Require Import ZArith List Bool Lia Arith.
From Verif Require Import ModelBase ModelU128 ModelField ModelUtils ModelPoly ModelVec ModelSerial ModelScheme.
From Verif Require Import Spec SpecScheme SpecHash.
From Verif Require Import Words FieldProofs ArithLemmas BytesProofs PackProofs SkeyProofs PolyProofs SampleProofs PolyLemmas MaskedProofs MaskedLemmas ParamProofs KeyLemmas FinProofs ExOracle ExGood KeyExamples SigEnc TailSign.
Import ListNotations.
Open Scope Z_scope.
Ltac Zify.zify_post_hook ::= idtac.
Transparent zq_add.

Lemma zq_add_0 x : lt49 x -> zq_add x 0 = x mod q.
Proof.
  unfold lt49. intros Hx. change (2 ^ 49) with 562949953421312 in Hx. unfold zq_add, add64. rewrite Z.add_0_r.
  rewrite u64_small by (unfold is64, two64; lia). rewrite reduce_once_gen by (unfold two63; lia).
  rewrite q_Q, Q_val. destruct (x <? 549824583172097) eqn:E.
  - apply Z.ltb_lt in E. symmetry. apply Z.mod_small. lia.
  - apply Z.ltb_ge in E. symmetry. rewrite <- (Z_mod_plus_full x (-1)). rewrite Z.mod_small by lia. lia.
Qed.
Global Opaque zq_add.
Lemma poly_add_0 p : wpoly p -> poly_add p poly_zero = map (fun x => x mod q) p.
Proof.
  intros [L F]. rewrite poly_zero_eq. unfold ring_zero, poly_add. revert L F. generalize 512%nat. intros n. revert n.
  induction p as [|x p IH]; intros n L F; [reflexivity|]. destruct n as [|n]; [discriminate L|]. inversion F; subst.
  cbn [repeat map2 map]. rewrite zq_add_0 by assumption. f_equal. apply IH; [injection L as L; exact L|assumption].
Qed.
Lemma map_mod_poly p : length p = 512%nat -> is_poly (map (fun x => x mod q) p).
Proof.
  intros L. split; [rewrite map_length; exact L|]. apply Forall_forall. intros y Hy. apply in_map_iff in Hy. destruct Hy as (x & <- & _).
  apply Z.mod_pos_bound. rewrite q_Q, Q_val. reflexivity.
Qed.
Lemma map_mod_id p : is_poly p -> map (fun x => x mod q) p = p.
Proof.
  intros [_ F]. rewrite <- (map_id p) at 2. apply map_ext_in. intros x Hx. rewrite Forall_forall in F. apply Z.mod_small. exact (F x Hx).
Qed.
Lemma fold_zero n : forall p, is_poly p -> fold_left poly_add (repeat poly_zero n) p = p.
Proof.
  induction n as [|n IH]; intros p Hp; [reflexivity|]. cbn [repeat fold_left]. rewrite poly_add_0 by (apply is_poly_wpoly; exact Hp).
  rewrite map_mod_id by exact Hp. apply IH. exact Hp.
Qed.
Lemma combine_fresh d p : (1 <= d)%nat -> wpoly p ->
  combine_shares (d - 1) (fresh_row d p) = if (d =? 1)%nat then p else map (fun x => x mod q) p.
Proof.
  intros Hd Hp. unfold combine_shares, fresh_row. cbn [nth skipn]. rewrite firstn_all2 by (rewrite repeat_length; apply le_n).
  destruct (d =? 1)%nat eqn:E.
  - apply Nat.eqb_eq in E. subst d. reflexivity.
  - apply Nat.eqb_neq in E. destruct (d - 1)%nat as [|n] eqn:E2; [lia|]. cbn [repeat fold_left]. rewrite poly_add_0 by exact Hp.
    apply fold_zero, map_mod_poly, (proj1 Hp).
Qed.
Lemma reduced_fixed (a : list (list Z)) : Forall wpoly a -> map (map (fun x => x mod q)) a = a -> Forall is_poly a.
Proof.
  intros F E. rewrite Forall_forall in *. intros p Hp. rewrite <- E in Hp. apply in_map_iff in Hp. destruct Hp as (r & <- & Hr).
  apply map_mod_poly. exact (proj1 (F r Hr)).
Qed.
Lemma packed49_bits a b p r : packed49 a p -> packed49 b r -> bits_of_bytes p = bits_of_bytes r -> p = r.
Proof. intros [F _] [G _] E. apply bits_of_bytes_inj; assumption. Qed.

Lemma skipn_len {A} (a b : list A) n : length a = n -> skipn n (a ++ b) = b.
Proof. intros <-. rewrite skipn_app, skipn_all, Nat.sub_diag. reflexivity. Qed.
(* the polynomials a key with polynomials [rows] is saved as, after it was loaded, with d shares *)
Definition saved_rows (d : nat) (rows : list (list Z)) : list (list Z) :=
  if (d =? 1)%nat then rows else map (map (fun x => x mod q)) rows.

Lemma load_save O fuel fuel' P bytes sk buf tp pos : params_ok P = true ->
  Forall is_byte bytes -> zlen bytes = sk_byte_len P -> zlen buf = sk_byte_len P -> sk_from_bytes O fuel P bytes = Ok sk ->
  sk_to_bytes O fuel' P sk buf (Prng tp pos) <> UB /\
  (p_d P = 1%nat -> sk_to_bytes O fuel' P sk buf (Prng tp pos) = Ok (bytes, Prng tp pos)) /\
  exists pkb seeds packed rows,
    bytes = pkb ++ seeds ++ packed /\ zlen pkb = pk_byte_len P /\
    length seeds = ((p_d P - 1) * Z.to_nat (p_kappa P / 8))%nat /\
    length rows = p_l P /\ Forall is_poly49 rows /\ packed49 rows packed /\
    forall bytes' p', sk_to_bytes O fuel' P sk buf (Prng tp pos) = Ok (bytes', p') ->
      exists packed', bytes' = pkb ++ stream_bytes (tape_of tp) pos ((p_d P - 1) * Z.to_nat (p_kappa P / 8)) ++ packed' /\
        packed49 (saved_rows (p_d P) rows) packed' /\ (packed' = packed <-> p_d P = 1%nat \/ Forall is_poly rows).
Proof.
  intros HP Hb Lz Lb E. destruct (params_facts P HP) as (kb & e & F).
  pose proof (k8 P kb e F) as E8. pose proof (d1 P kb e F) as Hd. rewrite E8, Nat2Z.id.
  destruct (sk_from_bytes_ok P kb e F O fuel bytes Hb Lz) as (pkb & seeds & pack & xs & Eb & Lpk & Lse & Lx & Fx & Bx & G).
  assert (Hb1 : Forall is_byte pkb /\ Forall is_byte pack) by (rewrite Eb, !Forall_app in Hb; tauto). destruct Hb1 as [Hpkb Hpack].
  destruct (pk_bytes_roundtrip P pkb HP Hpkb Lpk) as (pk & Dpk & Vp & _ & Rpk).
  destruct (G pk Dpk) as [W _]. apply wp_split in W. destruct W as [_ W]. specialize (W _ E). subst sk. clear G.
  assert (Hs : Forall (kshares (p_d P)) (map (fresh_row (p_d P)) xs)).
  { apply Forall_forall. intros y Hy. apply in_map_iff in Hy. destruct Hy as (x & <- & Hx). apply fresh_kshares; [exact Hd|].
    rewrite Forall_forall in Fx. exact (Fx x Hx). }
  assert (Hl : length (map (fresh_row (p_d P)) xs) = p_l P) by (rewrite map_length; exact Lx).
  assert (Ec : map (combine_shares (p_d P - 1)) (map (fresh_row (p_d P)) xs) = saved_rows (p_d P) xs).
  { rewrite map_map. unfold saved_rows. transitivity (map (fun p => if (p_d P =? 1)%nat then p else map (fun x => x mod q) p) xs).
    - apply map_ext_in. intros p Hp. apply combine_fresh; [exact Hd|]. rewrite Forall_forall in Fx. exact (Fx p Hp).
    - destruct (p_d P =? 1)%nat; [apply map_id|reflexivity]. }
  pose proof (sk_to_bytes_ok P kb e F O fuel' (Skey pk (map (fresh_row (p_d P)) xs)) buf tp pos pkb Hs Hl Lb Rpk) as W. apply wp_split in W. destruct W as [W1 W2].
  assert (Main : forall bytes' p', sk_to_bytes O fuel' P (Skey pk (map (fresh_row (p_d P)) xs)) buf (Prng tp pos) = Ok (bytes', p') ->
    p' = Prng tp (pos + (p_d P - 1) * kb) /\
    exists packed', bytes' = pkb ++ stream_bytes (tape_of tp) pos ((p_d P - 1) * kb) ++ packed' /\
        packed49 (saved_rows (p_d P) xs) packed' /\ (packed' = pack <-> p_d P = 1%nat \/ Forall is_poly xs)).
  { intros bytes' p' E'. specialize (W2 _ E'). cbn beta iota in W2. destruct W2 as (-> & _ & pack' & Eb' & _ & Fp & Bp).
    split; [reflexivity|]. exists pack'. split; [exact Eb'|]. cbn [sk_s] in Bp. unfold pvec, mpoly, poly in *. rewrite Ec in Bp.
    split; [split; [exact Fp|exact Bp]|]. split.
    - intros ->. rewrite Bx in Bp. unfold saved_rows in Bp. destruct (p_d P =? 1)%nat eqn:E1; [left; apply Nat.eqb_eq; exact E1|right].
      apply reduced_fixed; [exact Fx|]. symmetry. apply codes49_inj; [symmetry; apply map_length|exact Fx| |exact Bp].
      apply Forall_forall. intros y Hy. apply in_map_iff in Hy. destruct Hy as (x & <- & Hx). rewrite Forall_forall in Fx. apply is_poly_wpoly, map_mod_poly, (proj1 (Fx x Hx)).
    - intros H. apply bits_of_bytes_inj; try assumption. rewrite Bp, Bx. f_equal. f_equal. unfold saved_rows.
      destruct (p_d P =? 1)%nat eqn:E1; [reflexivity|]. apply Nat.eqb_neq in E1. destruct H as [H|H]; [contradiction|].
      rewrite <- (map_id xs) at 2. apply map_ext_in. intros p Hp. rewrite Forall_forall in H. apply map_mod_id. exact (H p Hp). }
  split; [exact W1|]. split.
  - intros D1. destruct (sk_to_bytes O fuel' P (Skey pk (map (fresh_row (p_d P)) xs)) buf (Prng tp pos)) as [[bytes' p']| |] eqn:E'.
    + destruct (Main bytes' p' eq_refl) as (-> & packed' & -> & _ & [_ M]). rewrite (M (or_introl D1)).
      rewrite D1. rewrite D1 in Lse. cbn [Nat.sub Nat.mul]. rewrite Nat.add_0_r. cbn [Nat.sub Nat.mul] in Lse. destruct seeds; [|discriminate Lse].
      rewrite Eb. reflexivity.
    + destruct (W1 eq_refl).
    + exfalso. destruct (to_bytes_out O fuel' P (Skey pk (map (fresh_row (p_d P)) xs)) buf tp pos HP Vp Hl E') as (i & r & Hi & _). rewrite D1 in Hi.
      exact (Nat.lt_irrefl _ (Nat.le_lt_trans _ _ _ (proj1 Hi) (proj2 Hi))).
  - exists pkb, seeds, pack, xs. split; [exact Eb|]. split; [exact Lpk|]. split; [exact Lse|]. split; [exact Lx|]. split; [exact Fx|]. split; [split; [exact Hpack|exact Bx]|].
    intros bytes' p' E'. exact (proj2 (Main bytes' p' E')).
Qed.

(* C75: a secret key that was loaded from any byte string of the right length and is saved again (into any buffer, with any random tape):
   with one share the same bytes come out, and nothing is drawn; with more shares the public key is kept, the seeds are fresh, and the
   polynomials come out reduced modulo q -- so the polynomial part is kept if and only if all its coefficients were below q. *)
Theorem C75_load_save : forall O fuel fuel' P bytes sk buf tp pos, params_ok P = true ->
  Forall is_byte bytes -> zlen bytes = sk_byte_len P -> zlen buf = sk_byte_len P -> sk_from_bytes O fuel P bytes = Ok sk ->
  sk_to_bytes O fuel' P sk buf (Prng tp pos) <> UB /\
  (p_d P = 1%nat -> sk_to_bytes O fuel' P sk buf (Prng tp pos) = Ok (bytes, Prng tp pos)) /\
  exists pkb seeds packed rows,
    bytes = pkb ++ seeds ++ packed /\ zlen pkb = pk_byte_len P /\
    length seeds = ((p_d P - 1) * Z.to_nat (p_kappa P / 8))%nat /\
    length rows = p_l P /\ Forall is_poly49 rows /\ packed49 rows packed /\
    forall bytes' p', sk_to_bytes O fuel' P sk buf (Prng tp pos) = Ok (bytes', p') ->
      exists packed', bytes' = pkb ++ stream_bytes (tape_of tp) pos ((p_d P - 1) * Z.to_nat (p_kappa P / 8)) ++ packed' /\
        packed49 (if (p_d P =? 1)%nat then rows else map (map (fun x => x mod q)) rows) packed' /\
        (packed' = packed <-> p_d P = 1%nat \/ Forall is_poly rows).
Proof. exact load_save. Qed.
Print Assumptions C75_load_save.

(* C75, continued: after one load and save the key bytes no longer change, but for the seeds *)
Theorem C75_stable : forall O fuel fuel' P bytes sk buf tp pos bytes1 p1 sk1 buf1 tp1 pos1 bytes2 p2, params_ok P = true ->
  Forall is_byte bytes -> zlen bytes = sk_byte_len P -> zlen buf = sk_byte_len P -> zlen buf1 = sk_byte_len P ->
  sk_from_bytes O fuel P bytes = Ok sk -> sk_to_bytes O fuel' P sk buf (Prng tp pos) = Ok (bytes1, p1) ->
  sk_from_bytes O fuel P bytes1 = Ok sk1 -> sk_to_bytes O fuel' P sk1 buf1 (Prng tp1 pos1) = Ok (bytes2, p2) ->
  let n := Z.to_nat (pk_byte_len P) in let m := (n + (p_d P - 1) * Z.to_nat (p_kappa P / 8))%nat in
  firstn n bytes2 = firstn n bytes1 /\ skipn m bytes2 = skipn m bytes1.
Proof.
  intros O fuel fuel' P bytes sk buf tp pos bytes1 p1 sk1 buf1 tp1 pos1 bytes2 p2 HP Hb Lz Lb Lb1 E S1 E1 S2. cbv zeta.
  pose proof (load_save O fuel fuel' P bytes sk buf tp pos HP Hb Lz Lb E) as (_ & One & pkb & seeds & packed & rows & Eb & Lpk & Lse & Lr & Fr & Pr & G).
  destruct (G bytes1 p1 S1) as (packed1 & Eb1 & Pr1 & _).
  destruct (Nat.eq_dec (p_d P) 1) as [D1|D1].
  - specialize (One D1). rewrite S1 in One. apply ok_inj in One. injection One as -> ->.
    pose proof (load_save O fuel fuel' P bytes sk1 buf1 tp1 pos1 HP Hb Lz Lb1 E1) as (_ & One & _). specialize (One D1). rewrite S2 in One.
    apply ok_inj in One. injection One as -> ->. split; reflexivity.
  - assert (B1 : Forall is_byte bytes1).
    { rewrite Eb1. rewrite Eb in Hb. rewrite !Forall_app in *. repeat split; [apply Hb|apply tape_bytes|apply Pr1]. }
    assert (N : (p_d P =? 1)%nat = false) by (apply Nat.eqb_neq; exact D1).
    assert (L1 : zlen bytes1 = sk_byte_len P).
    { rewrite Eb1. rewrite Eb in Lz. rewrite !zlen_app in *. rewrite <- Lz. f_equal. f_equal.
      - unfold zlen. rewrite stream_bytes_length, Lse. reflexivity.
      - destruct Pr as [_ Pr]. destruct Pr1 as [_ Pr1]. unfold saved_rows in Pr1. rewrite N in Pr1.
        assert (X : length (bits_of_bytes packed1) = length (bits_of_bytes packed)).
        { rewrite Pr, Pr1. change (length (codes 49 (concat (map (map (fun x => x mod q)) rows))) = length (codes 49 (concat rows))).
          rewrite !codes_length. f_equal. rewrite <- concat_map, map_length. reflexivity. }
        rewrite !bits_of_bytes_length in X. unfold zlen. lia. }
    pose proof (load_save O fuel fuel' P bytes1 sk1 buf1 tp1 pos1 HP B1 L1 Lb1 E1) as (_ & _ & pkb' & seeds' & packed1' & rows1 & Eb1' & Lpk' & Lse' & Lr' & Fr' & Pr1' & G1).
    destruct (G1 bytes2 p2 S2) as (packed2 & Eb2 & _ & K). rewrite Eb1 in Eb1'. apply app_inj_len in Eb1'; [|unfold zlen in *; lia]. destruct Eb1' as [<- Eb1'].
    apply app_inj_len in Eb1'; [|rewrite stream_bytes_length; symmetry; exact Lse']. destruct Eb1' as [_ <-].
    assert (X : packed2 = packed1).
    { apply K. right. unfold saved_rows in Pr1. rewrite N in Pr1.
      assert (Y : rows1 = map (map (fun x => x mod q)) rows).
      { destruct Pr1 as [_ Pr1]. destruct Pr1' as [_ Pr1']. apply codes49_inj.
        - rewrite map_length, Lr, Lr'. reflexivity.
        - exact Fr'.
        - apply Forall_forall. intros y Hy. apply in_map_iff in Hy. destruct Hy as (x & <- & Hx). rewrite Forall_forall in Fr. apply is_poly_wpoly, map_mod_poly, (proj1 (Fr x Hx)).
        - unfold codes. rewrite <- Pr1, <- Pr1'. reflexivity. }
      rewrite Y. apply Forall_forall. intros y Hy. apply in_map_iff in Hy. destruct Hy as (x & <- & Hx). rewrite Forall_forall in Fr. apply map_mod_poly, (proj1 (Fr x Hx)). }
    rewrite Eb1, Eb2, X. assert (Ln : Z.to_nat (pk_byte_len P) = length pkb) by (rewrite <- Lpk; unfold zlen; apply Nat2Z.id). rewrite Ln. split.
    + rewrite !firstn_app, !firstn_all, Nat.sub_diag, !firstn_O. reflexivity.
    + rewrite !app_assoc. rewrite !skipn_len by (rewrite app_length, stream_bytes_length; reflexivity). reflexivity.
Qed.
Print Assumptions C75_stable.
(* the byte strings of 255s: with one share they come back, and all coefficients are 2^49 - 1; with two shares (here with the example hash
   function) the polynomials come back changed *)
Lemma ones_not_reduced rows m : rows <> [] -> Forall is_poly49 rows -> packed49 rows (repeat 255 m) -> ~ Forall is_poly rows.
Proof.
  intros N F [_ B] R. rewrite bits255 in B. destruct rows as [|p rest]; [exact (N eq_refl)|]. inversion R as [|? ? [Lp Rp] _]; subst. clear F R N.
  destruct p as [|x p]; [discriminate Lp|]. inversion Rp as [|? ? Rx _]; subst. clear Lp Rp. cbn [concat] in B. rewrite <- app_comm_cons, map_cons, concat_cons in B.
  assert (X : bits_of 49 x = repeat true 49).
  { assert (Fx : firstn 49 (repeat true (8 * m)) = bits_of 49 x) by (rewrite B, firstn_app, bits_of_length, Nat.sub_diag, firstn_O, app_nil_r; apply firstn_all2; rewrite bits_of_length; lia).
    assert (Lm : (49 <= 8 * m)%nat) by (apply (f_equal (@length bool)) in B; rewrite repeat_length, app_length, bits_of_length in B; lia).
    rewrite <- Fx. replace (8 * m)%nat with (49 + (8 * m - 49))%nat by lia. rewrite repeat_app, firstn_app, repeat_length, Nat.sub_diag, firstn_O, app_nil_r.
    apply firstn_all2. rewrite repeat_length. lia. }
  clear B. apply (f_equal bits_value) in X. rewrite bits_value_bits_of in X. change (2 ^ Z.of_nat 49) with 562949953421312 in X.
  destruct Rx as [R0 R1]. rewrite q_Q, Q_val in R1. rewrite Z.mod_small in X by lia.
  assert (Y : bits_value (repeat true 49) = 562949953421311) by (vm_compute; reflexivity). lia.
Qed.
Example C75_nonvacuous : forall d, d = 1%nat \/ d = 2%nat ->
  let P := raccoon128_params d in let n := Z.to_nat (sk_byte_len P) in
  params_ok P = true /\ Forall is_byte (repeat 255 n) /\ zlen (repeat 255 n) = sk_byte_len P /\
  exists sk bytes' p', sk_from_bytes ex_G 512 P (repeat 255 n) = Ok sk /\
    sk_to_bytes ex_G 512 P sk (repeat 7 n) (Prng ex_tape 0) = Ok (bytes', p') /\
    (d = 1%nat -> bytes' = repeat 255 n) /\
    (d = 2%nat -> skipn (Z.to_nat (pk_byte_len P) + 16) bytes' <> repeat 255 (n - (Z.to_nat (pk_byte_len P) + 16))).
Proof.
  intros d Hd. cbv zeta. set (P := raccoon128_params d). assert (HP : params_ok P = true) by (destruct Hd as [->| ->]; vm_compute; reflexivity).
  assert (L0 : 0 <= sk_byte_len P) by (destruct Hd as [->| ->]; vm_compute; discriminate).
  set (n := Z.to_nat (sk_byte_len P)). assert (Hb : Forall is_byte (repeat 255 n)) by (apply Forall_repeat; split; [discriminate|reflexivity]).
  assert (L : forall x : Z, zlen (repeat x n) = sk_byte_len P) by (intros x; unfold zlen; rewrite repeat_length; apply Z2Nat.id; exact L0).
  split; [exact HP|]. split; [exact Hb|]. split; [apply L|].
  assert (S : exists sk, sk_from_bytes ex_G 512 P (repeat 255 n) = Ok sk).
  { destruct (sk_from_bytes ex_G 512 P (repeat 255 n)) as [sk| |] eqn:E.
    - exists sk. reflexivity.
    - destruct (proj1 (sk_decode_shape ex_G 512 P _ HP Hb (L 255)) E).
    - apply (from_bytes_out ex_G 512 P _ HP Hb (L 255)) in E. destruct E as (i & r & _ & _ & E).
      destruct (sampleQ_fin ex_G 512 (hdr_K i r) (firstn (kbytes (p_kappa P)) (skipn (Z.to_nat (pk_byte_len P) + (i - 1) * kbytes (p_kappa P)) (repeat 255 n))) (exG_good_hash 512 (le_n _))) as [x X].
      rewrite X in E. discriminate E. }
  destruct S as [sk E]. exists sk. pose proof (load_save ex_G 512 512 P _ sk (repeat 7 n) ex_tape 0 HP Hb (L 255) (L 7) E) as (U & One & pkb & seeds & packed & rows & Eb & Lpk & Lse & Lr & Fr & Pr & G).
  pose proof (sk_decode_shape ex_G 512 P _ HP Hb (L 255)) as (_ & _ & D). destruct (D sk E) as (V & [Ls _] & _). clear D.
  destruct (sk_to_bytes ex_G 512 P sk (repeat 7 n) (Prng ex_tape 0)) as [[bytes' p']| |] eqn:ES.
  - exists bytes', p'. split; [exact E|]. split; [reflexivity|]. split.
    + intros D1. specialize (One D1). apply ok_inj in One. injection One as -> ->. reflexivity.
    + intros D2 X. destruct (G bytes' p' eq_refl) as (packed' & Eb' & _ & K).
      assert (LP : length (pkb ++ seeds) = (Z.to_nat (pk_byte_len P) + 16)%nat).
      { rewrite app_length, Lse. f_equal; [rewrite <- Lpk; unfold zlen; symmetry; apply Nat2Z.id|]. unfold P. rewrite D2. reflexivity. }
      assert (LP' : length (pkb ++ stream_bytes (tape_of ex_tape) 0 ((p_d P - 1) * Z.to_nat (p_kappa P / 8))) = (Z.to_nat (pk_byte_len P) + 16)%nat).
      { rewrite <- LP, !app_length, stream_bytes_length, Lse. reflexivity. }
      rewrite app_assoc in Eb, Eb'. rewrite Eb', <- LP' in X at 1. rewrite skipn_app, skipn_all, Nat.sub_diag in X. cbn [app skipn] in X.
      symmetry in Eb. pose proof (app_repeat _ _ _ _ Eb) as Ep. rewrite LP in Ep. rewrite <- Ep in X. apply K in X. destruct X as [X|X].
      * unfold P in X. rewrite D2 in X. discriminate X.
      * rewrite Ep in Pr. refine (ones_not_reduced _ _ _ Fr Pr X). intros N. clear - N Lr. rewrite N in Lr. discriminate Lr.
  - destruct (U eq_refl).
  - exfalso. apply (to_bytes_out ex_G 512 P sk _ ex_tape 0 HP V Ls) in ES. destruct ES as (i & r & _ & _ & ES).
    destruct (sampleQ_fin ex_G 512 (hdr_K i r) (stream_bytes (tape_of ex_tape) (0 + (i - 1) * kbytes (p_kappa P)) (kbytes (p_kappa P))) (exG_good_hash 512 (le_n _))) as [x X].
    rewrite X in ES. discriminate ES.
Qed.
