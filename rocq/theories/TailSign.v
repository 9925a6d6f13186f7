(* If key generation, signing, or writing or reading a secret key runs out of waiting time, one of the streams it reads is slow,
   or every attempt of signing was rejected. *)
From Coq Require Import ZArith Lia Bool List Arith.
From Coq Require Import ZifyBool ZifyNat.
From Verif Require Import ModelBase ModelU128 ModelField ModelUtils ModelPoly ModelVec ModelSerial ModelScheme ModelApi.
From Verif Require Import Spec SpecScheme SpecSig SpecVerify SpecEnc SpecTail SpecTailSign.
From Verif Require Import Words FieldProofs ArithLemmas BytesProofs PolyProofs MaskedProofs SampleProofs SampleLemmas NoiseProofs PolyLemmas MaskedLemmas.
From Verif Require Import ParamProofs KeyLemmas PackProofs FinProofs SigEnc SigDec2 SigLemmas SchemeCore VerifyProofs SignProofs SignVerify KeygenProofs FuelProofs TermProofs CountProofs TailProofs.
Import ListNotations.
Open Scope Z_scope.
Ltac Zify.zify_post_hook ::= idtac.

Lemma attempt_is_hash H T p A t s mu n c cp h z : sign_attempt H T p A t s mu n c cp h z -> c = attempt_hash H T p A mu n.
Proof. intros (E & _). exact E. Qed.
Lemma attempt_intro H T p A t s mu n cp : challenge_poly (challenge_stream H (Z.to_nat (r_omega p)) (attempt_hash H T p A mu n)) (Z.to_nat (r_omega p)) cp ->
  exists h z, sign_attempt H T p A t s mu n (attempt_hash H T p A mu n) cp h z.
Proof. intros C. eexists. eexists. split; [reflexivity|]. split; [exact C|]. split; reflexivity. Qed.

(* first member of a range without a decidable property, or all have it *)
Lemma range_dec (Q : nat -> Prop) : (forall i, {Q i} + {~ Q i}) -> forall n, (exists i, (i < n)%nat /\ ~ Q i) \/ (forall i, (i < n)%nat -> Q i).
Proof.
  intros D. induction n as [|n [(i & Hi & H)|IH]].
  - right. intros i Hi. lia.
  - left. exists i. split; [lia|exact H].
  - destruct (D n) as [H|H]; [right|left; exists n; split; [lia|exact H]]. intros i Hi. destruct (Nat.eq_dec i n) as [->|N]; [exact H|apply IH; lia].
Qed.
Lemma oof_dec {A} (r : res A) : {r <> OutOfFuel} + {~ r <> OutOfFuel}.
Proof. destruct r; [left; discriminate|left; discriminate|right; intros H; apply H; reflexivity]. Qed.

Lemma generate_out O fuel P seed tp : params_ok P = true -> good_mask O fuel (p_d P) -> sk_generate O fuel P seed tp = OutOfFuel ->
  exists r c, (r < p_k P)%nat /\ (c < p_l P)%nat /\ sampleQ O fuel (expandA_hdr r c) seed = OutOfFuel.
Proof.
  intros HP G E. destruct (params_facts P HP) as (kb & e & F). pose proof (pf_k _ _ _ F). pose proof (pf_l _ _ _ F).
  apply expandA_out; [lia|lia|]. destruct (expandA O fuel (p_k P) (p_l P) seed) as [A| |] eqn:EA; [| |reflexivity]; exfalso;
    apply (sk_generate_fin O fuel P seed tp); try assumption; try (rewrite EA; discriminate); exists e; exact (pf_d _ _ _ F).
Qed.

Lemma sign_out O fuel P sk msg buf tp A pkb s : params_ok P = true ->
  valid_public (Z.to_nat (p_kappa P / 8)) (p_k P) (pk_seed (sk_pkey sk)) (pk_t (sk_pkey sk)) ->
  masked_vec49 (p_l P) (p_d P) (sk_s sk) -> zlen buf = p_siglen P ->
  public_matrix (hash_of O) (pk_seed (sk_pkey sk)) (p_k P) (p_l P) A ->
  public_key_code (pk_seed (sk_pkey sk)) (pk_t (sk_pkey sk)) pkb ->
  Forall is_poly s -> map transform s = map unmask (sk_s sk) -> good_mask O fuel (p_d P) ->
  let mu := bound_message (hash_of O) (Z.to_nat (2 * p_kappa P / 8)) pkb msg in
  let att := sign_attempt (hash_of O) (tape_of tp) (row_of P) A (rows1 (pk_t (sk_pkey sk))) s mu in
  sk_sign O fuel P sk msg buf tp = OutOfFuel ->
  (exists r c, (r < p_k P)%nat /\ (c < p_l P)%nat /\ sampleQ O fuel (expandA_hdr r c) (pk_seed (sk_pkey sk)) = OutOfFuel) \/
  (exists i, (i < fuel)%nat /\ chal_poly O fuel (p_omega P) (attempt_hash (hash_of O) (tape_of tp) (row_of P) A mu i) = OutOfFuel) \/
  (forall i, (i < fuel)%nat -> exists c cp h z, att i c cp h z /\ ~ acceptable (row_of P) c h z /\ ~ attempt_overruns (row_of P) c h z).
Proof.
  intros HP V Hs Lb PM CP Fs Es G mu att E. destruct (params_facts P HP) as (kb & e & F).
  assert (Ho : (p_omega P < 256)%nat) by (pose proof (pf_omega _ _ _ F); lia). pose proof (pf_k _ _ _ F) as Hk. pose proof (pf_l _ _ _ F) as Hl.
  assert (BACK : forall G : _ -> Prop, G att -> signed O tp P sk msg G).
  { intros G' HG. exists A, pkb, s. do 4 (split; [assumption|]). rewrite (proj2 (sig_len_cl P HP)). exact HG. }
  assert (ALL : forall G : _ -> Prop, signed O tp P sk msg G -> G att).
  { intros G' (A' & pkb' & s' & PM' & CP' & Fs' & Es' & S).
    rewrite <- (public_matrix_fun _ _ _ _ _ _ PM PM'), <- (public_key_code_unique _ _ _ _ CP CP') in S.
    rewrite <- (transform_inj_list s s' Fs Fs' (eq_trans Es (eq_sym Es'))), (proj2 (sig_len_cl P HP)) in S. exact S. }
  assert (ATT : forall i, chal_poly O fuel (p_omega P) (attempt_hash (hash_of O) (tape_of tp) (row_of P) A mu i) <> OutOfFuel ->
     exists c cp h z, att i c cp h z /\ chal_poly O fuel (p_omega P) c <> OutOfFuel).
  { intros i H. unfold att. pose proof (attempt_intro (hash_of O) (tape_of tp) (row_of P) A (rows1 (pk_t (sk_pkey sk))) s mu i) as I. cbn [row_of r_omega] in I. rewrite !Nat2Z.id in I.
    revert H I. generalize (attempt_hash (hash_of O) (tape_of tp) (row_of P) A mu i). intros c H I.
    pose proof (chal_poly_ok O fuel (p_omega P) c Ho) as W. destruct (chal_poly O fuel (p_omega P) c) as [cp| |] eqn:EC; cbn [wp] in W; [|destruct W|congruence].
    destruct (I cp W) as (h & z & AT). exists c, cp, h, z. split; [exact AT|]. rewrite EC. discriminate. }
  clearbody att.
  destruct (expandA O fuel (p_k P) (p_l P) (pk_seed (sk_pkey sk))) as [M| |] eqn:EA.
  3:{ left. apply expandA_out in EA; [exact EA|lia|lia]. }
  all: assert (NE : expandA O fuel (p_k P) (p_l P) (pk_seed (sk_pkey sk)) <> OutOfFuel) by (rewrite EA; discriminate); clear EA; right;
    destruct (range_dec (fun i => chal_poly O fuel (p_omega P) (attempt_hash (hash_of O) (tape_of tp) (row_of P) A mu i) <> OutOfFuel) (fun i => oof_dec _) fuel) as [(i & Hi & H)|H];
    [left; exists i; split; [exact Hi|]; destruct (chal_poly O fuel (p_omega P) _); [destruct (H ltac:(discriminate))|destruct (H ltac:(discriminate))|reflexivity]|right].
  all: destruct fuel as [|f]; [intros i Hi; inversion Hi|];
    pose proof (sign_spec_exact False f O (S f) P sk msg buf tp HP V Hs Lb (or_introl (conj G (conj NE (BACK _ (fun i Hi => ATT i (H i (le_n_S _ _ Hi)))))))) as S; rewrite E in S; cbn [wpx] in S;
    destruct S as [[]|S]; apply ALL in S; intros i Hi; exact (S i Hi (le_S_n _ _ Hi)).
Qed.

(* ---------- secret key bytes ---------- *)
Lemma fn_subspan {A} (l : list A) a n : fn (subspan l a n) (fun _ => True).
Proof. unfold subspan. destruct (_ && _); exact Logic.I. Qed.
Lemma mc_row_fin st row : fn (mc_row st row) (fun _ => True).
Proof.
  destruct st as [o off]. unfold mc_row. apply fn_bind. apply (fn_mono _ (fun _ => True)); [|intros [[[a b] c] e] _; exact Logic.I].
  apply fn_foldM; [exact Logic.I|]. intros [[[a b] c] e] x0 _ _. unfold mc_put.
  apply fn_bind. unfold shl_chk. destruct (_ && _); [|exact Logic.I]. cbn [fn]. apply fn_bind.
  unfold put_le. apply fn_bind. unfold subspan. destruct (_ && _); [|exact Logic.I]. cbn [fn]. unfold write_at. destruct (_ && _); [|exact Logic.I].
  cbn [fn]. apply fn_bind. unfold shr_chk. destruct (_ && _); exact Logic.I.
Qed.
Lemma share_out O fuel kappa s tp : forall n i x out pos,
  foldM (mc_share O fuel kappa s) (seq i n) (x, out, Prng tp pos) = OutOfFuel ->
  exists j ridx, (j < n)%nat /\ (ridx < length s)%nat /\
    sampleQ O fuel (hdr_K (i + j) ridx) (stream_bytes (tape_of tp) (pos + j * kbytes kappa) (kbytes kappa)) = OutOfFuel.
Proof.
  induction n as [|n IH]; intros i x out pos E; [discriminate E|]. cbn [seq foldM] in E.
  destruct (mc_share O fuel kappa s (x, out, Prng tp pos) i) as [[[x1 o1] p1]| |] eqn:E1; cbn [bind] in E; [|discriminate E|].
  - assert (Ep : p1 = Prng tp (pos + kbytes kappa)).
    { unfold mc_share in E1. rewrite prng_read_eq in E1. cbn [tape ppos] in E1. apply bind_ok_inv in E1. destruct E1 as (o & _ & E1). apply bind_ok_inv in E1. destruct E1 as (y & _ & E1).
      injection E1 as _ _ <-. reflexivity. }
    subst p1. destruct (IH _ _ _ _ E) as (j & ridx & Hj & Hr & X). exists (S j), ridx. split; [lia|]. split; [exact Hr|].
    replace (i + S j)%nat with (S i + j)%nat by lia. replace (pos + S j * kbytes kappa)%nat with (pos + kbytes kappa + j * kbytes kappa)%nat by (cbn [Nat.mul]; lia). exact X.
  - clear E IH. exists 0%nat. unfold mc_share in E1. rewrite prng_read_eq in E1. cbn [tape ppos] in E1.
    rewrite Nat.add_0_r. cbn [Nat.mul]. rewrite Nat.add_0_r. set (z := stream_bytes (tape_of tp) pos (kbytes kappa)) in *.
    destruct (write_at out _ z) as [o| |] eqn:EW; cbn [bind] in E1; [|discriminate E1|unfold write_at in EW; destruct (_ && _); discriminate EW].
    match type of E1 with bind ?t _ = _ => destruct t as [y| |] eqn:EF end; cbn [bind] in E1; [discriminate E1|discriminate E1|].
    apply foldM_out in EF. destruct EF as (y & ridx & Hr & EF). apply in_seq in Hr. exists ridx. split; [lia|]. split; [lia|].
    destruct (sampleQ O fuel (hdr_K i ridx) z); [discriminate EF|discriminate EF|reflexivity].
Qed.
Lemma to_bytes_out O fuel P sk buf tp pos : params_ok P = true ->
  valid_public (Z.to_nat (p_kappa P / 8)) (p_k P) (pk_seed (sk_pkey sk)) (pk_t (sk_pkey sk)) -> length (sk_s sk) = p_l P ->
  sk_to_bytes O fuel P sk buf (Prng tp pos) = OutOfFuel ->
  exists i r, (1 <= i < p_d P)%nat /\ (r < p_l P)%nat /\
    sampleQ O fuel (hdr_K i r) (stream_bytes (tape_of tp) (pos + (i - 1) * kbytes (p_kappa P)) (kbytes (p_kappa P))) = OutOfFuel.
Proof.
  intros HP V Ls E. unfold sk_to_bytes in E. cbv zeta in E.
  destruct (subspan buf 0 (pk_byte_len P)) as [pkb| |] eqn:E1; cbn [bind] in E; [|discriminate E|unfold subspan in E1; destruct (_ && _); discriminate E1].
  destruct (subspan buf (pk_byte_len P) _) as [skb| |] eqn:E2; cbn [bind] in E; [|discriminate E|unfold subspan in E2; destruct (_ && _); discriminate E2].
  assert (L : zlen pkb = pk_byte_len P).
  { unfold subspan in E1. destruct (_ && _) eqn:C; [|discriminate E1]. injection E1 as E'. rewrite <- E'. unfold zlen in *. rewrite firstn_length, ?skipn_length. change (Z.to_nat 0) with 0%nat. cbn [skipn]. lia. }
  destruct (pk_key_roundtrip P (sk_pkey sk) pkb HP V L) as (r & Er & _). rewrite Er in E. cbn [bind] in E.
  destruct (mask_compress O fuel (p_kappa P) (p_d P) (sk_s sk) skb (Prng tp pos)) as [[a b]| |] eqn:EM; cbn [bind] in E; [discriminate E|discriminate E|].
  unfold mask_compress in EM. cbv zeta in EM.
  destruct (foldM (mc_share O fuel (p_kappa P) (sk_s sk)) _ _) as [[[x out] p]| |] eqn:EF; cbn [bind] in EM.
  - exfalso. destruct (foldM mc_row x _) as [[o f]| |] eqn:EO; cbn [bind] in EM; [discriminate EM|discriminate EM|].
    apply foldM_out in EO. destruct EO as (st & row & _ & EO). pose proof (mc_row_fin st row) as N. rewrite EO in N. destruct N.
  - discriminate EM.
  - apply share_out in EF. destruct EF as (j & r' & Hj & Hr & X). exists (S j), r'. split; [lia|]. split; [rewrite <- Ls; exact Hr|].
    replace (S j - 1)%nat with j by lia. exact X.
Qed.
Lemma md_get_fin s_c st n : fn (md_get s_c st n) (fun _ => True).
Proof.
  destruct st as [[[acc off] b] bbo]. unfold md_get. cbv zeta. apply fn_bind. apply (fn_mono _ _ _ (fn_subspan _ _ _)). intros sp _.
  apply fn_bind. unfold shl_chk. destruct (_ && _); exact Logic.I.
Qed.
Lemma from_bytes_out O fuel P bytes : params_ok P = true -> Forall is_byte bytes -> zlen bytes = sk_byte_len P ->
  sk_from_bytes O fuel P bytes = OutOfFuel ->
  exists i r, (1 <= i < p_d P)%nat /\ (r < p_l P)%nat /\
    sampleQ O fuel (hdr_K i r) (firstn (kbytes (p_kappa P)) (skipn (Z.to_nat (pk_byte_len P) + (i - 1) * kbytes (p_kappa P)) bytes)) = OutOfFuel.
Proof.
  intros HP B L E. unfold sk_from_bytes in E. cbv zeta in E.
  destruct (subspan bytes 0 (pk_byte_len P)) as [pkb| |] eqn:E1; cbn [bind] in E; [|discriminate E|unfold subspan in E1; destruct (_ && _); discriminate E1].
  destruct (subspan bytes (pk_byte_len P) _) as [skb| |] eqn:E2; cbn [bind] in E; [|discriminate E|unfold subspan in E2; destruct (_ && _); discriminate E2].
  destruct (params_facts P HP) as (kb & e & F). pose proof (pf_kappa _ _ _ F) as EK. pose proof (pf_pk _ _ _ F) as EL.
  apply subspan_inv in E1. destruct E1 as (_ & _ & _ & L1 & a & c & Eb & La). destruct a; [|unfold zlen in La; cbn [length] in La; lia]. cbn [app] in Eb. clear La.
  rewrite Eb in E2 at 2. rewrite <- L1 in E2 at 1 2. rewrite Eb, subspan_tail in E2 by reflexivity. injection E2 as <-.
  assert (Bp : Forall is_byte pkb) by (rewrite Eb, Forall_app in B; apply B).
  destruct (pk_bytes_roundtrip P pkb HP Bp L1) as (pk & Epk & _). rewrite Epk in E. cbn [bind] in E.
  destruct (mask_decompress O fuel (p_kappa P) (p_l P) (p_d P) c) as [s| |] eqn:EM; cbn [bind] in E; [discriminate E|discriminate E|].
  unfold mask_decompress in EM. destruct (md_rows c (p_d P) (p_l P) _) as [[s off]| |] eqn:ER; cbn [bind] in EM; [|discriminate EM|].
  - apply foldM_out in EM. destruct EM as (s1 & i & Hi & EM). apply foldM_out in EM. destruct EM as (s2 & r & Hr & EM). apply in_seq in Hi, Hr.
    destruct (subspan c _ _) as [sg| |] eqn:ES; cbn [bind] in EM; [|discriminate EM|unfold subspan in ES; destruct (_ && _); discriminate ES].
    exists i, r. split; [lia|]. split; [lia|].
    assert (EX : firstn (kbytes (p_kappa P)) (skipn (Z.to_nat (pk_byte_len P) + (i - 1) * kbytes (p_kappa P)) bytes) = sg).
    { assert (E8 : p_kappa P / 8 = Z.of_nat kb) by (rewrite EK, (Z.mul_comm 8), Z.div_mul by lia; reflexivity).
      unfold subspan in ES. destruct (_ && _) in ES; [|discriminate ES]. injection ES as <-. unfold kbytes. rewrite E8, Nat2Z.id.
      replace (Z.of_nat i - 1) with (Z.of_nat (i - 1)) by lia. rewrite <- Nat2Z.inj_mul, Nat2Z.id. generalize ((i - 1) * kb)%nat. intros m.
      assert (EN : Z.to_nat (pk_byte_len P) = length pkb) by (rewrite <- L1; apply Nat2Z.id). rewrite EN, Eb, skipn_app.
      rewrite (skipn_all2 pkb) by (clear; lia). replace (length pkb + m - length pkb)%nat with m by (clear; lia). reflexivity. }
    rewrite EX. destruct (sampleQ O fuel (hdr_K i r) sg); [discriminate EM|discriminate EM|reflexivity].
  - exfalso. unfold md_rows in ER. apply foldM_out in ER. destruct ER as ([s off] & x & _ & ER).
    match type of ER with bind ?t _ = _ => destruct t as [[[[row o1] o2] o3]| |] eqn:EG end; cbn [bind] in ER; [discriminate ER|discriminate ER|].
    apply foldM_out in EG. destruct EG as (st & n & _ & EG). pose proof (md_get_fin c st n) as N. rewrite EG in N. destruct N.
Qed.
