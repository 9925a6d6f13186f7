(* Interrupted saving of a key: what is in the buffer, and what it loads as. *)
From Coq Require Import ZArith Lia Bool List Arith.
From Coq Require Import ZifyBool ZifyNat.
From Verif Require Import ModelBase ModelU128 ModelField ModelUtils ModelPoly ModelVec ModelSerial ModelScheme ModelTrace ModelSaveTrace.
From Verif Require Import Spec SpecScheme SpecHash SpecTrace.
From Verif Require Import Words FieldProofs ArithLemmas BytesProofs PolyProofs MaskedProofs SampleProofs PackProofs SkeyProofs MaskedLemmas ParamProofs KeyLemmas KeyLayout VerifyProofs HashLemmas SigEnc TraceProofs SaveTraceProofs.
Import ListNotations.
Open Scope Z_scope.
Ltac Zify.zify_post_hook ::= idtac.

Lemma replay_prefix lg buf m : in_order lg -> (length lg <= length buf)%nat -> (m <= length lg)%nat ->
  replay (firstn m lg) buf = firstn m (map snd lg) ++ skipn m buf.
Proof.
  intros H L Hm. assert (E : length (firstn m lg) = m) by (rewrite firstn_length; lia).
  rewrite replay_in_order; [|apply in_order_firstn; exact H|rewrite E; lia]. rewrite E, firstn_map. reflexivity.
Qed.
Lemma pk_bytes_fun P pk : params_ok P = true -> valid_public (Z.to_nat (p_kappa P / 8)) (p_k P) (pk_seed pk) (pk_t pk) ->
  exists pkb, zlen pkb = pk_byte_len P /\ Forall is_byte pkb /\ public_key_code (pk_seed pk) (pk_t pk) pkb /\
    forall b, zlen b = pk_byte_len P -> pk_to_bytes P pk b = Ok pkb.
Proof.
  intros HP Vp. destruct (params_facts P HP) as (kb & e & F).
  destruct (pk_key_roundtrip P pk (repeat 0 (Z.to_nat (pk_byte_len P))) HP Vp) as (pkb & _ & Lpk & Bpk & Cpk & Dpk).
  { unfold zlen. rewrite repeat_length. pose proof (pf_pk _ _ _ F). lia. }
  exists pkb. repeat (split; [assumption|]). intros b Lb'. destruct (pk_key_roundtrip P pk b HP Vp Lb') as (pkb' & -> & _ & B' & C' & _).
  f_equal. exact (public_key_code_unique _ _ _ _ C' Cpk).
Qed.
(* saving a public key *)
Lemma pk_save_ok P pk buf : params_ok P = true -> valid_public (Z.to_nat (p_kappa P / 8)) (p_k P) (pk_seed pk) (pk_t pk) ->
  zlen buf = pk_byte_len P ->
  exists lg bytes, pk_to_bytes_log P pk buf = (lg, Ok bytes) /\ log_ok buf bytes lg /\ length lg = length buf /\ map snd lg = bytes /\
    public_key_code (pk_seed pk) (pk_t pk) bytes /\ Forall is_byte bytes.
Proof.
  intros HP Vp Lb. destruct (params_facts P HP) as (kb & e & F). destruct (pk_bytes_fun P pk HP Vp) as (pkb & Lpk & Bpk & Cpk & E). specialize (E buf Lb).
  pose proof (pk_to_bytes_forget P pk buf) as FG. rewrite E in FG.
  assert (W : lw (pk_to_bytes_log P pk buf) [] (upto buf) (fun out lg => log_ok buf out lg /\ zlen lg = zlen (pk_seed pk) + 7 * Z.of_nat (p_k P * 64))).
  { unfold pk_to_bytes_log. rewrite (pf_nut _ _ _ F). apply encode_public_key_log_ok. destruct Vp as (_ & _ & V). apply public_vec_iff in V.
    apply pv_flat_length; apply V. }
  destruct (pk_to_bytes_log P pk buf) as [lg r]. cbn [snd] in FG. subst r. cbn [lw app] in W. destruct W as [L Z0].
  assert (LL : length lg = length buf).
  { assert (Zs : zlen (pk_seed pk) = Z.of_nat kb) by (destruct Vp as (V & _); rewrite (k8 P kb e F), Nat2Z.id in V; unfold zlen; rewrite V; reflexivity).
    pose proof (pf_pk _ _ _ F) as EP. rewrite Zs in Z0. unfold zlen in *. lia. }
  exists lg, pkb. split; [reflexivity|]. split; [exact L|]. split; [exact LL|]. split; [exact (full_log _ _ _ L LL)|]. split; assumption.
Qed.
Lemma sk_save_ok O fuel P sk buf tp pos : params_ok P = true ->
  valid_public (Z.to_nat (p_kappa P / 8)) (p_k P) (pk_seed (sk_pkey sk)) (pk_t (sk_pkey sk)) ->
  secret_vec (p_l P) (p_d P) (sk_s sk) -> zlen buf = sk_byte_len P ->
  let '(lg, r) := sk_to_bytes_log O fuel P sk buf (Prng tp pos) in
  in_order lg /\ (length lg <= length buf)%nat /\
  match r with
  | Ok (bytes, _) => map snd lg = bytes
  | UB => False
  | OutOfFuel => exists pk_bytes i, (i <= p_d P - 1)%nat /\ public_key_code (pk_seed (sk_pkey sk)) (pk_t (sk_pkey sk)) pk_bytes /\
      Forall is_byte pk_bytes /\ zlen pk_bytes = pk_byte_len P /\
      map snd lg = pk_bytes ++ stream_bytes (tape_of tp) pos (i * Z.to_nat (p_kappa P / 8))
  end.
Proof.
  intros HP Vp [Hl Hs] Lb. destruct (params_facts P HP) as (kb & e & F).
  pose proof (k8 P kb e F) as E8. pose proof (d1 P kb e F) as Hd. pose proof (pf_sk _ _ _ F) as ES. pose proof (pf_pk _ _ _ F) as EP.
  assert (NN : 0 <= Z.of_nat kb * (Z.of_nat (p_d P) - 1)) by (apply Z.mul_nonneg_nonneg; lia).
  unfold sk_to_bytes_log. cbv zeta. destruct (split3 buf 0 (Z.to_nat (pk_byte_len P))) as (z & b1 & b2 & E & Lz & L1); [unfold zlen in Lb; lia|].
  destruct z; [|discriminate Lz]. cbn [app] in E. subst buf.
  assert (Z1 : zlen b1 = pk_byte_len P) by (unfold zlen; lia).
  assert (E1 : subspan (b1 ++ b2) 0 (pk_byte_len P) = Ok b1).
  { change (b1 ++ b2) with ([] ++ b1 ++ b2). apply subspan_app; [reflexivity|symmetry; exact Z1]. }
  assert (E2 : subspan (b1 ++ b2) (pk_byte_len P) (zlen (b1 ++ b2) - pk_byte_len P) = Ok b2) by (apply subspan_tail; symmetry; exact Z1).
  rewrite E1, E2. cbn [lret lbind app].
  destruct (pk_save_ok P (sk_pkey sk) b1 HP Vp Z1) as (lg1 & pkb & -> & L & LL & EV & Cpk & Bpk). cbn [lbind].
  assert (Zlg1 : zlen lg1 = pk_byte_len P) by (unfold zlen in *; rewrite LL; exact Z1).
  rewrite (pf_kappa _ _ _ F). rewrite zlen_app in Lb.
  assert (Zl : @zlen (list (list Z)) (sk_s sk) = Z.of_nat (p_l P)) by (rewrite <- Hl; reflexivity).
  assert (L2 : zlen b2 = Z.of_nat kb * (Z.of_nat (p_d P) - 1) + 3136 * @zlen (list (list Z)) (sk_s sk)) by (rewrite Zl; lia).
  pose proof (mask_compress_log_ok O fuel kb (p_d P) (sk_s sk) b2 tp pos Hs Hd L2) as M.
  destruct (mask_compress_log O fuel (8 * Z.of_nat kb) (p_d P) (sk_s sk) b2 (Prng tp pos)) as [lg2 r2]. cbn beta iota.
  assert (OG : in_order lg1) by apply L.
  destruct r2 as [[out p]| |].
  - destruct M as [M1 M2]. cbn [lbind lret app]. rewrite app_nil_r. split; [|split].
    + rewrite <- Zlg1. apply shift_order; [exact OG|apply M1].
    + unfold shift_log. rewrite !app_length, map_length. lia.
    + rewrite map_app, shift_snd, EV. f_equal. exact (full_log _ _ _ M1 M2).
  - contradiction.
  - cbn [lbind]. destruct (seeds_log_order _ _ _ _ _ M) as [M1 M2]. split; [|split].
    + rewrite <- Zlg1. apply shift_order; [exact OG|exact M1].
    + unfold shift_log. rewrite !app_length, map_length. rewrite (Z.mul_comm (Z.of_nat kb)), zmul1 in L2 by lia. unfold zlen in L2. lia.
    + destruct M as (i & Hi & ->). exists pkb, i. split; [exact Hi|]. split; [exact Cpk|]. split; [exact Bpk|].
      split; [rewrite <- EV; unfold zlen in *; rewrite map_length; exact Zlg1|].
      rewrite map_app, shift_snd, EV, stores_snd. replace (8 * Z.of_nat kb / 8) with (Z.of_nat kb) by (rewrite (Z.mul_comm 8), Z.div_mul by lia; reflexivity).
      rewrite Nat2Z.id. reflexivity.
Qed.

(* ---------- torn buffers ---------- *)
Definition torn (m : nat) (a b : list Z) : list Z := firstn m a ++ skipn m b.
Lemma torn_self m a : torn m a a = a. Proof. apply firstn_skipn. Qed.
Lemma torn_app m a b a0 b0 : length a = length a0 -> torn m (a ++ b) (a0 ++ b0) = torn m a a0 ++ torn (m - length a) b b0.
Proof.
  intros L. unfold torn. rewrite firstn_app, skipn_app, <- L. destruct (Nat.le_ge_cases m (length a)) as [H|H].
  - replace (m - length a)%nat with 0%nat by lia. cbn [firstn skipn app]. rewrite app_nil_r, app_assoc. reflexivity.
  - rewrite (skipn_all2 a0) by lia. cbn [app]. rewrite app_nil_r, <- app_assoc. reflexivity.
Qed.
Lemma torn_length m a b : length a = length b -> length (torn m a b) = length a.
Proof. intros L. unfold torn. rewrite app_length, firstn_length, skipn_length. lia. Qed.
Lemma torn_all m a b : length a = length b -> (length a <= m)%nat -> torn m a b = a.
Proof. intros L H. unfold torn. rewrite firstn_all2 by lia. rewrite skipn_all2 by lia. apply app_nil_r. Qed.
Lemma Forall_torn (Q : Z -> Prop) m a b : Forall Q a -> Forall Q b -> Forall Q (torn m a b).
Proof. intros. apply Forall_app. split; [apply Forall_firstn|apply Forall_skipn]; assumption. Qed.

Lemma packed_split xs n C : length xs = n -> Forall (fun p => length p = 512%nat) xs -> packed49 xs C -> forall r, (r <= n)%nat ->
  length C = (3136 * n)%nat /\
  packed49 (firstn r xs) (firstn (3136 * r) C) /\ packed49 (skipn r xs) (skipn (3136 * r) C).
Proof.
  intros Lx F [B E] r Hr. fold (codes 49 (concat xs)) in E.
  assert (CL : forall l : list (list Z), Forall (fun p => length p = 512%nat) l -> length (codes 49 (concat l)) = (49 * (512 * length l))%nat).
  { intros l Hl. rewrite codes_length. replace (length (concat l)) with (512 * length l)%nat; [reflexivity|]. induction Hl as [|p l Hp _ IH]; [reflexivity|]. cbn [concat length]. rewrite app_length, <- IH, Hp. lia. }
  assert (LC : length C = (3136 * n)%nat).
  { apply (f_equal (@length bool)) in E. rewrite bits_of_bytes_length, (CL xs F), Lx in E. lia. }
  split; [exact LC|]. rewrite <- (firstn_skipn (3136 * r) C) in E, B. rewrite bits_of_bytes_app in E. apply Forall_app in B.
  rewrite <- (firstn_skipn r xs) in E at 1. rewrite concat_app, codes_app in E. apply app_len_inv in E.
  - destruct E as [E1 E2]. split; (split; [apply B|assumption]).
  - rewrite bits_of_bytes_length, firstn_length, CL by (apply Forall_firstn; exact F). rewrite firstn_length. lia.
Qed.
Lemma packed_inj xs ys C : length xs = length ys -> Forall wpoly xs -> Forall wpoly ys -> packed49 xs C -> packed49 ys C -> xs = ys.
Proof. intros L Fx Fy [_ E1] [_ E2]. apply codes49_inj; try assumption. unfold codes. rewrite <- E1, <- E2. reflexivity. Qed.
Lemma fresh_unmask d row : unmask (fresh_row d (unmask row)) = unmask row.
Proof. apply unmask_fresh; [apply is_poly_wpoly, unmask_poly|]. intros k Hk. rewrite coef_unmask by exact Hk. apply Zmod_mod. Qed.
Lemma fresh_unmask_map d s : map unmask (map (fresh_row d) (map unmask s)) = map unmask s.
Proof. rewrite !map_map. apply map_ext. intros row. apply fresh_unmask. Qed.
(* what a load of a torn buffer gives *)
Definition torn_result (m N1 base l : nat) (pk1 pk0 pk' : pkey) (U1 U0 U' : list (list Z)) : Prop :=
  ((N1 <= m)%nat -> pk' = pk1) /\ (pk1 = pk0 -> pk' = pk1) /\
  (forall r, (r <= l)%nat -> (base + 3136 * r <= m)%nat -> firstn r U' = firstn r U1) /\
  (forall r, (r <= l)%nat -> (m <= base + 3136 * r)%nat -> skipn r U' = skipn r U0) /\
  (U1 = U0 -> U' = U1).
Lemma torn_load_gen O fuel P m pk1 pk0 s1 s0 A1 A0 X1 X0 C1 C0 sk' : params_ok P = true ->
  valid_public (Z.to_nat (p_kappa P / 8)) (p_k P) (pk_seed pk1) (pk_t pk1) ->
  valid_public (Z.to_nat (p_kappa P / 8)) (p_k P) (pk_seed pk0) (pk_t pk0) ->
  length s1 = p_l P -> length s0 = p_l P ->
  public_key_code (pk_seed pk1) (pk_t pk1) A1 -> public_key_code (pk_seed pk0) (pk_t pk0) A0 ->
  zlen A1 = pk_byte_len P -> zlen A0 = pk_byte_len P -> 
  length X1 = ((p_d P - 1) * Z.to_nat (p_kappa P / 8))%nat -> length X0 = ((p_d P - 1) * Z.to_nat (p_kappa P / 8))%nat ->
  length C1 = length C0 -> packed49 (map unmask s0) C0 ->
  ((length A1 + length X1 < m)%nat -> packed49 (map unmask s1) C1) ->
  Forall is_byte (A1 ++ X1 ++ C1) -> Forall is_byte (A0 ++ X0 ++ C0) ->
  sk_from_bytes O fuel P (torn m (A1 ++ X1 ++ C1) (A0 ++ X0 ++ C0)) = Ok sk' ->
  torn_result m (length A1) (length A1 + length X1) (p_l P) pk1 pk0 (sk_pkey sk') (map unmask s1) (map unmask s0) (map unmask (sk_s sk')).
Proof.
  intros HP V1 V0 L1 L0 CA1 CA0 ZA1 ZA0 LX1 LX0 LC PC0 PC1 B1 B0 E. destruct (params_facts P HP) as (kb & e & F).
  pose proof (k8 P kb e F) as E8. pose proof (d1 P kb e F) as Hd. pose proof (pf_sk _ _ _ F) as ES. pose proof (pf_pk _ _ _ F) as EP.
  rewrite E8, Nat2Z.id in LX1, LX0.
  assert (LA : length A1 = length A0) by (unfold zlen in *; lia).
  assert (WU : forall s, Forall wpoly (map unmask s)).
  { intros s. apply Forall_forall. intros y Hy. apply in_map_iff in Hy. destruct Hy as (row & <- & _). apply is_poly_wpoly, unmask_poly. }
  assert (F512 : forall xs, Forall wpoly xs -> Forall (fun p => length p = 512%nat) xs) by (intros xs H; eapply Forall_impl; [|exact H]; intros p Hp; apply Hp).
  pose proof (packed_split (map unmask s0) (p_l P) C0 ltac:(rewrite map_length; exact L0) (F512 _ (WU s0)) PC0) as SP0.
  destruct (SP0 0%nat (Nat.le_0_l _)) as (LC0 & _ & _).
  set (T := torn m (A1 ++ X1 ++ C1) (A0 ++ X0 ++ C0)) in *.
  assert (LT : zlen T = sk_byte_len P).
  { unfold zlen, T. rewrite torn_length by (rewrite !app_length; lia). rewrite !app_length. rewrite ES. rewrite (Z.mul_comm (Z.of_nat kb)), zmul1 by exact Hd. unfold zlen in *. lia. }
  assert (BT : Forall is_byte T) by (apply Forall_torn; assumption).
  assert (ET : T = torn m A1 A0 ++ torn (m - length A1) X1 X0 ++ torn (m - length A1 - length X1) C1 C0).
  { unfold T. rewrite torn_app by exact LA. rewrite torn_app by lia. reflexivity. }
  clearbody T.
  destruct (sk_from_bytes_ok P kb e F O fuel T BT LT) as (pkb & seeds & pack & xs & Eb & Lpk & Lse & Lx & Fx & Bx & G).
  assert (Hb1 : Forall is_byte pkb /\ Forall is_byte pack) by (rewrite Eb, !Forall_app in BT; tauto).
  destruct (pk_bytes_roundtrip P pkb HP (proj1 Hb1) Lpk) as (pk & Dpk & Vp & Cp & _).
  destruct (G pk Dpk) as [W _]. apply wp_split in W. destruct W as [_ W2]. rewrite (W2 _ E). cbn [sk_pkey sk_s].
  rewrite ET in Eb. apply app_len_inv in Eb; [|rewrite torn_length by exact LA; unfold zlen in *; lia]. destruct Eb as [EA Eb].
  apply app_len_inv in Eb; [|rewrite torn_length; lia]. destruct Eb as [_ EC].
  assert (PX : packed49 xs pack) by (split; [apply Hb1|exact Bx]).
  pose proof (packed_split xs (p_l P) pack Lx (F512 _ Fx) PX) as SP.
  set (k := (m - length A1 - length X1)%nat) in *.
  assert (Hk : k = 0%nat \/ packed49 (map unmask s1) C1 /\ (length A1 + length X1 < m)%nat).
  { destruct (Nat.le_gt_cases m (length A1 + length X1)) as [H|H]; [left; unfold k; lia|right; split; [apply PC1; exact H|exact H]]. }
  split; [|split; [|split; [|split]]].
  - intros Hm. rewrite torn_all in EA by assumption. apply (public_key_code_inj P pk pk1 pkb HP Vp V1 Cp). rewrite <- EA. exact CA1.
  - intros <-. rewrite (public_key_code_unique _ _ _ _ CA0 CA1), torn_self in EA. apply (public_key_code_inj P pk pk1 pkb HP Vp V1 Cp). rewrite <- EA. exact CA1.
  - intros r Hr Hm. destruct r as [|r]; [reflexivity|]. destruct Hk as [Hk|[Hk Hm2]]; [unfold k in Hk; lia|].
    destruct (packed_split (map unmask s1) (p_l P) C1 ltac:(rewrite map_length; exact L1) (F512 _ (WU s1)) Hk (S r) Hr) as (_ & Q1 & _).
    destruct (SP (S r) Hr) as (_ & Q2 & _). rewrite <- EC in Q2.
    assert (EF : firstn (3136 * S r) (torn k C1 C0) = firstn (3136 * S r) C1).
    { assert (H3 : (3136 * S r <= k)%nat) by (unfold k; lia). assert (H4 : (3136 * S r <= length C1)%nat) by lia.
      unfold torn. rewrite firstn_app, firstn_firstn, firstn_length. rewrite Nat.min_l by exact H3.
      replace (3136 * S r - Nat.min k (length C1))%nat with 0%nat by lia. cbn [firstn]. apply app_nil_r. }
    rewrite EF in Q2. pose proof (packed_inj (firstn (S r) xs) (firstn (S r) (map unmask s1)) _ ltac:(rewrite !firstn_length, map_length; lia)
       (Forall_firstn _ _ _ Fx) (Forall_firstn _ _ _ (WU s1)) Q2 Q1) as EX.
    rewrite <- (fresh_unmask_map (p_d P) s1). rewrite !firstn_map. rewrite EX. rewrite !firstn_map. reflexivity.
  - intros r Hr Hm. destruct (SP0 r Hr) as (_ & _ & Q1). destruct (SP r Hr) as (_ & _ & Q2). rewrite <- EC in Q2.
    assert (EF : skipn (3136 * r) (torn k C1 C0) = skipn (3136 * r) C0).
    { assert (H3 : (k <= 3136 * r)%nat) by (unfold k; lia). assert (H4 : (3136 * r <= length C1)%nat) by lia.
      unfold torn. rewrite skipn_app, (skipn_all2 (firstn k C1)) by (rewrite firstn_length; lia). cbn [app]. rewrite firstn_length. rewrite Nat.min_l by lia. rewrite skipn_add. f_equal. lia. }
    rewrite EF in Q2. pose proof (packed_inj (skipn r xs) (skipn r (map unmask s0)) _ ltac:(rewrite !skipn_length, map_length; lia)
       (Forall_skipn _ _ _ Fx) (Forall_skipn _ _ _ (WU s0)) Q2 Q1) as EX.
    rewrite <- (fresh_unmask_map (p_d P) s0). rewrite !skipn_map. rewrite EX. rewrite !skipn_map. reflexivity.
  - intros EU. assert (EP0 : packed49 (map unmask s0) (torn k C1 C0)).
    { destruct Hk as [->|[Hk _]]; [exact PC0|]. rewrite EU in Hk. destruct Hk as [K1 K2]. destruct PC0 as [K3 K4].
      assert (C1 = C0) by (apply bits_of_bytes_inj; try assumption; rewrite K2, K4; reflexivity). subst C1. rewrite torn_self. split; assumption. }
    rewrite EC in EP0. rewrite (packed_inj xs (map unmask s0) pack ltac:(rewrite map_length; lia) Fx (WU s0) PX EP0), EU. apply fresh_unmask_map.
Qed.
(* the layout of a saved key *)
Lemma saved_layout O fuel P sk buf tp pos bytes p : params_ok P = true ->
  valid_public (Z.to_nat (p_kappa P / 8)) (p_k P) (pk_seed (sk_pkey sk)) (pk_t (sk_pkey sk)) ->
  masked_vec (p_l P) (p_d P) (sk_s sk) -> zlen buf = sk_byte_len P ->
  sk_to_bytes O fuel P sk buf (Prng tp pos) = Ok (bytes, p) ->
  exists A X C, bytes = A ++ X ++ C /\ public_key_code (pk_seed (sk_pkey sk)) (pk_t (sk_pkey sk)) A /\ zlen A = pk_byte_len P /\
    length X = ((p_d P - 1) * Z.to_nat (p_kappa P / 8))%nat /\ packed49 (map unmask (sk_s sk)) C /\ Forall is_byte bytes /\ zlen bytes = sk_byte_len P.
Proof.
  intros HP Vp Vm Lb E. destruct (params_facts P HP) as (kb & e & F). pose proof (d1 P kb e F) as Hd. pose proof (k8 P kb e F) as E8.
  pose proof (secret_of_masked _ _ _ Hd Vm) as Vs.
  destruct (sk_roundtrip O fuel P sk buf tp pos HP Vp Vs Lb) as [_ RT]. destruct (RT bytes p E) as (LB & BB & _).
  destruct (sk_leak O fuel P sk buf tp pos bytes p HP Vp Vm Lb E) as [PK _].
  destruct (sk_layout O fuel P sk buf tp pos bytes p HP Vp Vs Lb E) as (A & ys & C & EB & _ & CA & _). cbv zeta in EB.
  destruct (pk_bytes_fun P (sk_pkey sk) HP Vp) as (pkb & Lpk & _ & Cpk & _). pose proof (public_key_code_unique _ _ _ _ CA Cpk) as EA. subst pkb.
  exists A, (stream_bytes (tape_of tp) pos ((p_d P - 1) * Z.to_nat (p_kappa P / 8))), C. repeat (split; [assumption|]).
  split; [apply stream_bytes_length|]. split; [|split; assumption].
  replace (skipn _ bytes) with C in PK; [exact PK|]. rewrite EB, app_assoc. rewrite E8, Nat2Z.id.
  replace (Z.to_nat (pk_byte_len P + (Z.of_nat (p_d P) - 1) * Z.of_nat kb)) with (length (A ++ stream_bytes (tape_of tp) pos ((p_d P - 1) * kb))).
  - rewrite skipn_app, skipn_all, Nat.sub_diag. reflexivity.
  - rewrite app_length, stream_bytes_length. rewrite <- Lpk, zmul1 by exact Hd. unfold zlen. rewrite <- Nat2Z.inj_add, Nat2Z.id. reflexivity.
Qed.
Lemma sk_torn O fuel P sk1 sk0 buf0 tp0 pos0 bytes0 p0 tp pos lg r m sk' : params_ok P = true ->
  valid_public (Z.to_nat (p_kappa P / 8)) (p_k P) (pk_seed (sk_pkey sk0)) (pk_t (sk_pkey sk0)) -> masked_vec (p_l P) (p_d P) (sk_s sk0) ->
  valid_public (Z.to_nat (p_kappa P / 8)) (p_k P) (pk_seed (sk_pkey sk1)) (pk_t (sk_pkey sk1)) -> masked_vec (p_l P) (p_d P) (sk_s sk1) ->
  zlen buf0 = sk_byte_len P -> sk_to_bytes O fuel P sk0 buf0 (Prng tp0 pos0) = Ok (bytes0, p0) ->
  sk_to_bytes_log O fuel P sk1 bytes0 (Prng tp pos) = (lg, r) -> (m <= length lg)%nat ->
  sk_from_bytes O fuel P (replay (firstn m lg) bytes0) = Ok sk' ->
  torn_result m (Z.to_nat (pk_byte_len P)) (Z.to_nat (pk_byte_len P + (Z.of_nat (p_d P) - 1) * (p_kappa P / 8))) (p_l P)
    (sk_pkey sk1) (sk_pkey sk0) (sk_pkey sk') (map unmask (sk_s sk1)) (map unmask (sk_s sk0)) (map unmask (sk_s sk')).
Proof.
  intros HP V0 M0 V1 M1 Lb E0 ELG Hm E. destruct (params_facts P HP) as (kb & e & F). pose proof (d1 P kb e F) as Hd. pose proof (k8 P kb e F) as E8.
  destruct (saved_layout O fuel P sk0 buf0 tp0 pos0 bytes0 p0 HP V0 M0 Lb E0) as (A0 & X0 & C0 & EB0 & CA0 & ZA0 & LX0 & PC0 & B0 & LB0).
  pose proof (secret_of_masked _ _ _ Hd M1) as Vs. pose proof (sk_save_ok O fuel P sk1 bytes0 tp pos HP V1 Vs LB0) as SV. rewrite ELG in SV.
  destruct SV as (SO & SL & SR). rewrite replay_prefix in E by assumption.
  assert (NUM : forall (A X : list Z), zlen A = pk_byte_len P -> length X = ((p_d P - 1) * Z.to_nat (p_kappa P / 8))%nat ->
     Z.to_nat (pk_byte_len P) = length A /\ Z.to_nat (pk_byte_len P + (Z.of_nat (p_d P) - 1) * (p_kappa P / 8)) = (length A + length X)%nat).
  { intros A X HA HX. rewrite HX, E8, Nat2Z.id, <- HA, zmul1 by exact Hd. unfold zlen. rewrite <- Nat2Z.inj_add, !Nat2Z.id. split; reflexivity. }
  destruct r as [[bytes1 p1]| |].
  - pose proof (sk_to_bytes_forget O fuel P sk1 bytes0 (Prng tp pos)) as FG. rewrite ELG in FG. cbn [snd] in FG. symmetry in FG.
    destruct (saved_layout O fuel P sk1 bytes0 tp pos bytes1 p1 HP V1 M1 LB0 FG) as (A1 & X1 & C1 & EB1 & CA1 & ZA1 & LX1 & PC1 & B1 & LB1).
    destruct (NUM A1 X1 ZA1 LX1) as [N1 N2]. rewrite N1, N2. rewrite SR in E.
    assert (LC : length C1 = length C0).
    { rewrite EB1, !zlen_app in LB1. rewrite EB0, !zlen_app in LB0. unfold zlen in *. lia. }
    rewrite EB1 in E, B1. rewrite EB0 in E, B0.
    exact (torn_load_gen O fuel P m (sk_pkey sk1) (sk_pkey sk0) (sk_s sk1) (sk_s sk0) A1 A0 X1 X0 C1 C0 sk' HP V1 V0 (proj1 M1) (proj1 M0) CA1 CA0 ZA1 ZA0 LX1 LX0 LC PC0 (fun _ => PC1) B1 B0 E).
  - contradiction.
  - destruct SR as (A1 & i & Hi & CA1 & BA1 & ZA1 & SR). set (kn := Z.to_nat (p_kappa P / 8)) in *.
    set (X1 := stream_bytes (tape_of tp) pos ((p_d P - 1) * kn)).
    assert (LX1 : length X1 = ((p_d P - 1) * kn)%nat) by apply stream_bytes_length.
    destruct (NUM A1 X1 ZA1 LX1) as [N1 N2]. rewrite N1, N2.
    assert (Hik : (i * kn <= (p_d P - 1) * kn)%nat) by (apply Nat.mul_le_mono_r; exact Hi).
    assert (LL : length lg = (length A1 + i * kn)%nat).
    { rewrite <- (map_length snd), SR, app_length, stream_bytes_length. reflexivity. }
    assert (EF : firstn m (map snd lg) = firstn m (A1 ++ X1 ++ C0)).
    { rewrite SR. unfold X1. replace ((p_d P - 1) * kn)%nat with (i * kn + ((p_d P - 1) * kn - i * kn))%nat by lia. rewrite stream_bytes_app.
      rewrite <- !app_assoc, (app_assoc A1 (stream_bytes (tape_of tp) pos (i * kn))). rewrite (firstn_app m (A1 ++ _)). 
      replace (m - length (A1 ++ stream_bytes (tape_of tp) pos (i * kn)))%nat with 0%nat by (rewrite app_length, stream_bytes_length; lia).
      cbn [firstn]. rewrite app_nil_r. reflexivity. }
    rewrite EF in E. rewrite EB0 in E, B0.
    assert (B1 : Forall is_byte (A1 ++ X1 ++ C0)).
    { apply Forall_app. split; [exact BA1|]. apply Forall_app. split; [apply tape_bytes|apply PC0]. }
    refine (torn_load_gen O fuel P m (sk_pkey sk1) (sk_pkey sk0) (sk_s sk1) (sk_s sk0) A1 A0 X1 X0 C0 C0 sk' HP V1 V0 (proj1 M1) (proj1 M0) CA1 CA0 ZA1 ZA0 LX1 LX0 eq_refl PC0 _ B1 B0 E).
    intros H. rewrite LX1 in H. lia.
Qed.
Lemma torn_buffer_bytes O fuel P sk buf tp pos lg r m : params_ok P = true ->
  valid_public (Z.to_nat (p_kappa P / 8)) (p_k P) (pk_seed (sk_pkey sk)) (pk_t (sk_pkey sk)) ->
  secret_vec (p_l P) (p_d P) (sk_s sk) -> zlen buf = sk_byte_len P -> Forall is_byte buf ->
  sk_to_bytes_log O fuel P sk buf (Prng tp pos) = (lg, r) -> (m <= length lg)%nat ->
  Forall is_byte (replay (firstn m lg) buf) /\ zlen (replay (firstn m lg) buf) = sk_byte_len P.
Proof.
  intros HP Vp Vs Lb Bb ELG Hm. pose proof (sk_save_ok O fuel P sk buf tp pos HP Vp Vs Lb) as SV. rewrite ELG in SV.
  destruct SV as (SO & SL & SR). rewrite replay_prefix by assumption.
  assert (BV : Forall is_byte (map snd lg)).
  { destruct r as [[bytes p]| |]; [|contradiction|].
    - rewrite SR. pose proof (sk_to_bytes_forget O fuel P sk buf (Prng tp pos)) as FG. rewrite ELG in FG. cbn [snd] in FG.
      destruct (sk_roundtrip O fuel P sk buf tp pos HP Vp Vs Lb) as [_ RT]. destruct (RT bytes p (eq_sym FG)) as (_ & BB & _). exact BB.
    - destruct SR as (A & i & _ & _ & BA & _ & ->). apply Forall_app. split; [exact BA|apply tape_bytes]. }
  split.
  - apply Forall_app. split; [apply Forall_firstn; exact BV|apply Forall_skipn; exact Bb].
  - rewrite <- Lb. unfold zlen. rewrite app_length, firstn_length, skipn_length, map_length. lia.
Qed.
