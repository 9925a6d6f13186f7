(* Key serialization, for the accepted parameter sets. *)
From Coq Require Import ZArith Lia Bool List Arith.
From Coq Require Import ZifyBool ZifyNat.
From Verif Require Import ModelBase ModelU128 ModelField ModelUtils ModelPoly ModelVec ModelSerial ModelScheme.
From Verif Require Import Spec SpecScheme.
From Verif Require Import Words FieldProofs ArithLemmas BytesProofs PolyProofs Cong NttEval MaskedProofs SampleProofs PackProofs SkeyProofs MaskedLemmas ParamProofs.
Import ListNotations.
Open Scope Z_scope.
Ltac Zify.zify_post_hook ::= idtac.

(* what all parameter sets have in common *)
Record pfacts (P : params) (kb e : nat) : Prop := {
  pf_kappa : p_kappa P = 8 * Z.of_nat kb;
  pf_kb : (16 <= kb <= 32)%nat;
  pf_k : (5 <= p_k P <= 9)%nat;
  pf_l : (4 <= p_l P <= 7)%nat;
  pf_d : p_d P = (2 ^ e)%nat;
  pf_e : (e <= 5)%nat;
  pf_nut : p_nut P = 42;
  pf_nuw : p_nuw P = 44;
  pf_ut : 4 <= p_ut P <= 7;
  pf_uw : 39 <= p_uw P <= 41;
  pf_rep : (2 <= p_rep P <= 8)%nat;
  pf_repd : (p_rep P * p_d P <= 128)%nat;
  pf_omega : (19 <= p_omega P <= 44)%nat;
  pf_Binf : 41954689765971 <= p_Binf P <= 50958538642039;
  pf_B22 : 0 < p_B22 P <= 38439957299;
  pf_siglen : 11524 <= p_siglen P <= 20330;
  pf_pk : pk_byte_len P = Z.of_nat kb + 448 * Z.of_nat (p_k P);
  pf_sk : sk_byte_len P = pk_byte_len P + (Z.of_nat kb * (Z.of_nat (p_d P) - 1) + 3136 * Z.of_nat (p_l P)) }.
Lemma params_facts P : params_ok P = true -> exists kb e, pfacts P kb e.
Proof.
  intros H. apply params_ok_cases in H. destruct H as (d & Hd & H). cbn [dvals In] in Hd.
  assert (E : exists e, d = (2 ^ e)%nat /\ (e <= 5)%nat).
  { destruct Hd as [<-|[<-|[<-|[<-|[<-|[<-|[]]]]]]]; [exists 0%nat|exists 1%nat|exists 2%nat|exists 3%nat|exists 4%nat|exists 5%nat]; split; try reflexivity; lia. }
  destruct E as (e & Ee & He).
  destruct H as [->|[->| ->]]; [exists 16%nat, e|exists 24%nat, e|exists 32%nat, e];
    (repeat (destruct Hd as [<-|Hd]; [constructor; try assumption; try (vm_compute; reflexivity);
       (vm_compute; first [lia | split; (discriminate || reflexivity || lia)]) |]); contradiction).
Qed.

Lemma subspan_tail {A} (a b : list A) off : off = zlen a -> subspan (a ++ b) off (zlen (a ++ b) - off) = Ok b.
Proof.
  intros ->. rewrite zlen_app. replace (zlen a + zlen b - zlen a) with (zlen b) by lia.
  rewrite <- (app_nil_r (a ++ b)), <- app_assoc. apply subspan_app; reflexivity.
Qed.
(* ---------- public keys ---------- *)
Lemma public_vec_iff k t : public_vec k t <->
  length t = k /\ Forall (fun row => exists p, row = [p] /\ length p = PN) t /\
  Forall (fun x => 0 <= x < 2 ^ Z.of_nat 7) (pv_flat t).
Proof.
  unfold public_vec, pv_flat. change (2 ^ Z.of_nat 7) with 128. split.
  - intros [L F]. split; [exact L|]. split.
    + eapply Forall_impl; [|exact F]. intros row (p & E & Lp & _). exists p. split; assumption.
    + clear L. induction F as [|row t (p & -> & _ & Fp) Ft IH]; cbn [map concat nth]; [constructor|].
      apply Forall_app. split; assumption.
  - intros (L & F & G). split; [exact L|]. clear L. induction F as [|row t (p & -> & Lp) Ft IH]; [constructor|].
    cbn [map concat nth] in G. apply Forall_app in G. destruct G as [G1 G2]. constructor; [|apply IH; exact G2].
    exists p. repeat split; try assumption; rewrite Forall_forall in G1; apply G1; assumption.
Qed.
Lemma pv_flat_length k t : length t = k -> Forall (fun row => exists p, row = [p] /\ length p = PN) t ->
  length (pv_flat t) = (8 * (k * 64))%nat.
Proof.
  intros <- F. unfold pv_flat. induction F as [|row t (p & -> & Lp) Ft IH]; [reflexivity|].
  cbn [map concat nth length]. rewrite app_length, IH, Lp. unfold PN. lia.
Qed.
Lemma pk_bytes_roundtrip P bytes : params_ok P = true -> Forall is_byte bytes -> zlen bytes = pk_byte_len P ->
  exists pk, pk_from_bytes P bytes = Ok pk /\
    valid_public (Z.to_nat (p_kappa P / 8)) (p_k P) (pk_seed pk) (pk_t pk) /\
    public_key_code (pk_seed pk) (pk_t pk) bytes /\
    forall buf, zlen buf = pk_byte_len P -> pk_to_bytes P pk buf = Ok bytes.
Proof.
  intros HP Hb L. destruct (params_facts P HP) as (kb & e & F). pose proof (pf_kappa _ _ _ F) as EK. pose proof (pf_pk _ _ _ F) as EL.
  assert (E8 : p_kappa P / 8 = Z.of_nat kb) by (rewrite EK, (Z.mul_comm 8), Z.div_mul by lia; reflexivity).
  destruct (decode_public_key_ok (p_kappa P) (p_k P) bytes) as (seed & t & pack & D & Eb & Ls & Bp & Lt & Ft & Rt); [lia|exact Hb|lia|].
  assert (Hs : Forall is_byte seed /\ Forall is_byte pack) by (rewrite Eb, Forall_app in Hb; exact Hb).
  exists (Pkey seed t). unfold pk_from_bytes, pk_to_bytes. rewrite (pf_nut _ _ _ F), D. cbn [bind pk_seed pk_t].
  split; [reflexivity|]. split; [|split].
  - split; [unfold zlen in Ls; lia|]. split; [apply Hs|]. apply public_vec_iff. repeat split; assumption.
  - exists pack. repeat split; [exact Eb|apply Hs|exact Bp].
  - intros buf Lb. destruct (encode_public_key_ok seed t buf (p_k P * 64)) as (pack' & E & Fp & Bp' & Lp).
    + apply pv_flat_length; assumption.
    + lia.
    + rewrite E, Eb. f_equal. f_equal. apply bits_of_bytes_inj; [exact Fp|apply Hs|]. rewrite Bp', Bp. reflexivity.
Qed.
Lemma pk_key_roundtrip P pk buf : params_ok P = true ->
  valid_public (Z.to_nat (p_kappa P / 8)) (p_k P) (pk_seed pk) (pk_t pk) -> zlen buf = pk_byte_len P ->
  exists bytes, pk_to_bytes P pk buf = Ok bytes /\ zlen bytes = pk_byte_len P /\ Forall is_byte bytes /\
    public_key_code (pk_seed pk) (pk_t pk) bytes /\ pk_from_bytes P bytes = Ok pk.
Proof.
  intros HP (Ls & Bs & Vt) Lb. destruct (params_facts P HP) as (kb & e & F). pose proof (pf_kappa _ _ _ F) as EK. pose proof (pf_pk _ _ _ F) as EL.
  assert (E8 : p_kappa P / 8 = Z.of_nat kb) by (rewrite EK, (Z.mul_comm 8), Z.div_mul by lia; reflexivity).
  destruct pk as [seed t]. cbn [pk_seed pk_t] in *. apply public_vec_iff in Vt. destruct Vt as (Lt & Ft & Rt).
  destruct (encode_public_key_ok seed t buf (p_k P * 64)) as (pack & E & Fp & Bp & Lp).
  { apply pv_flat_length; assumption. }
  { unfold zlen in *. lia. }
  exists (seed ++ pack). unfold pk_to_bytes, pk_from_bytes. rewrite (pf_nut _ _ _ F). cbn [pk_seed pk_t]. split; [exact E|].
  assert (Lz : zlen (seed ++ pack) = pk_byte_len P) by (rewrite zlen_app; unfold zlen in *; lia).
  split; [exact Lz|]. assert (Bb : Forall is_byte (seed ++ pack)) by (apply Forall_app; split; assumption).
  split; [exact Bb|]. split; [exists pack; repeat split; assumption|].
  destruct (decode_public_key_ok (p_kappa P) (p_k P) (seed ++ pack)) as (seed' & t' & pack' & D & Eb & Ls' & Bp' & Lt' & Ft' & Rt'); [lia|exact Bb|lia|].
  rewrite D. cbn [bind]. apply app_inj_len in Eb; [|unfold zlen in *; lia]. destruct Eb as [<- <-]. f_equal. f_equal.
  rewrite <- (rows_of_pv_flat (p_k P) t Lt Ft), <- (rows_of_pv_flat (p_k P) t' Lt' Ft'). f_equal.
  symmetry. apply (codes_inj 7); try assumption.
  - rewrite (pv_flat_length (p_k P)), (pv_flat_length (p_k P)) by assumption. reflexivity.
  - rewrite <- Bp, <- Bp'. reflexivity.
Qed.

(* ---------- secret keys ---------- *)
Lemma combine_unmask d row : (0 < d)%nat -> mp_ok d row -> combine_shares (d - 1) row = unmask row.
Proof.
  intros Hd [L F]. unfold combine_shares. destruct row as [|a row]; [cbn in L; lia|]. inversion F; subst.
  cbn [nth skipn]. rewrite firstn_all2 by (cbn [length]; lia).
  assert (G : is_poly (fold_left poly_add row a) /\ forall k, coef (fold_left poly_add row a) k == coef a k + usum k row)
    by (apply fold_add_gen; assumption).
  destruct G as [G1 G2]. apply poly_ext; [apply G1|apply unmask_poly|]. intros k Hk. rewrite coef_unmask by exact Hk.
  rewrite usum_cons. rewrite <- (mod_q_reduced (coef (fold_left poly_add row a) k)) by (apply is_poly_coef'; exact G1). apply G2.
Qed.
Lemma unmask_fresh d p row : wpoly p -> (forall k, (k < 512)%nat -> coef p k == usum k row) ->
  unmask (fresh_row d p) = unmask row.
Proof.
  intros Hp H. apply unmask_ext. intros k Hk. unfold fresh_row. rewrite usum_cons.
  rewrite usum_repeat; [|intros j; rewrite poly_zero_eq; apply coef_ring_zero]. rewrite Z.add_0_r. apply H. exact Hk.
Qed.
Lemma fresh_kshares d p : (1 <= d)%nat -> wpoly p -> kshares d (fresh_row d p).
Proof.
  intros Hd Hp. unfold fresh_row. split; [cbn [length]; rewrite repeat_length; lia|]. cbn [nth skipn]. split; [exact Hp|].
  apply Forall_forall. intros x Hx. apply repeat_spec in Hx. subst x. rewrite poly_zero_eq. apply ring_zero_poly.
Qed.
Lemma concat_inj512 (a b : list (list Z)) : length a = length b -> Forall (fun p => length p = 512%nat) a -> Forall (fun p => length p = 512%nat) b ->
  concat a = concat b -> a = b.
Proof.
  intros L Fa. revert b L. induction Fa as [|x a Hx Ha IH]; intros [|y b] L Fb E; cbn in L; try lia; [reflexivity|].
  inversion Fb; subst. cbn [concat] in E. apply app_inj_len in E; [|lia]. destruct E as [-> E]. f_equal. apply IH; try assumption; lia.
Qed.
Lemma Forall_concat {A} (P : A -> Prop) (l : list (list A)) : Forall (Forall P) l -> Forall P (concat l).
Proof. induction 1 as [|x l Hx Hl IH]; [constructor|]. cbn [concat]. apply Forall_app. split; assumption. Qed.
Lemma codes49_inj (a b : list (list Z)) : length a = length b -> Forall wpoly a -> Forall wpoly b ->
  codes 49 (concat a) = codes 49 (concat b) -> a = b.
Proof.
  intros L Fa Fb E.
  assert (G : forall a, Forall wpoly a -> Forall (fun x => 0 <= x < 2 ^ Z.of_nat 49) (concat a) /\ Forall (fun p => length p = 512%nat) a /\ length (concat a) = (length a * 512)%nat).
  { clear. intros a F. split; [|split].
    - apply Forall_concat. eapply Forall_impl; [|exact F]. intros p Hp. exact (proj2 Hp).
    - eapply Forall_impl; [|exact F]. intros p Hp. apply Hp.
    - induction F as [|x a Hx Ha IH]; [reflexivity|]. cbn [concat length]. rewrite app_length, IH. rewrite (proj1 Hx). lia. }
  destruct (G a Fa) as (A1 & A2 & A3). destruct (G b Fb) as (B1 & B2 & B3).
  apply concat_inj512; try assumption. apply (codes_inj 49); try assumption. lia.
Qed.

Section SK.
  Variables (P : params) (kb e : nat).
  Hypothesis F : pfacts P kb e.
  Lemma k8 : p_kappa P / 8 = Z.of_nat kb.
  Proof. rewrite (pf_kappa _ _ _ F), (Z.mul_comm 8), Z.div_mul by lia. reflexivity. Qed.
  Lemma d1 : (1 <= p_d P)%nat.
  Proof. rewrite (pf_d _ _ _ F). pose proof (Nat.pow_nonzero 2 e). lia. Qed.

  (* serialization: public key, tape bytes, packed sum of the shares *)
  Lemma sk_to_bytes_ok O fuel sk buf tp pos pkb :
    Forall (kshares (p_d P)) (sk_s sk) -> length (sk_s sk) = p_l P -> zlen buf = sk_byte_len P ->
    (forall b, zlen b = pk_byte_len P -> pk_to_bytes P (sk_pkey sk) b = Ok pkb) ->
    wp (sk_to_bytes O fuel P sk buf (Prng tp pos)) (fun '(bytes, p) =>
      p = Prng tp (pos + (p_d P - 1) * kb) /\
      (forall sidx ridx, (1 <= sidx < p_d P)%nat -> (ridx < p_l P)%nat ->
          exists r, sampleQ O fuel (hdr_K sidx ridx) (stream_bytes (tape_of tp) (pos + (sidx - 1) * kb) kb) = Ok r) /\
      exists pack, bytes = pkb ++ stream_bytes (tape_of tp) pos ((p_d P - 1) * kb) ++ pack /\
        zlen pack = 3136 * Z.of_nat (p_l P) /\ Forall is_byte pack /\
        bits_of_bytes pack = codes 49 (concat (map (combine_shares (p_d P - 1)) (sk_s sk)))).
  Proof.
    intros Hs Hl Lb Hpk. pose proof (pf_sk _ _ _ F) as ES. pose proof (pf_pk _ _ _ F) as EP. pose proof d1 as Hd.
    assert (NN : 0 <= Z.of_nat kb * (Z.of_nat (p_d P) - 1)) by (apply Z.mul_nonneg_nonneg; lia).
    unfold sk_to_bytes. destruct (split3 buf 0 (Z.to_nat (pk_byte_len P))) as (z & b1 & b2 & E & Lz & L1); [unfold zlen in Lb; lia|].
    destruct z; [|discriminate]. cbn [app] in E. subst buf.
    assert (Z1 : zlen b1 = pk_byte_len P) by (unfold zlen; lia).
    change (b1 ++ b2) with ([] ++ b1 ++ b2). rewrite subspan_app by (symmetry; assumption || reflexivity). cbn [app bind].
    assert (E2 : subspan (b1 ++ b2) (pk_byte_len P) (zlen (b1 ++ b2) - pk_byte_len P) = Ok b2).
    { apply subspan_tail. symmetry. exact Z1. }
    rewrite E2. cbn [bind]. rewrite (Hpk b1 Z1). cbn [bind]. apply wp_bind.
    rewrite (pf_kappa _ _ _ F). rewrite zlen_app in Lb.
    eapply wp_mono; [apply mask_compress_ok; [exact Hs|exact Hd|]|].
    - assert (Zl : @zlen (list (list Z)) (sk_s sk) = Z.of_nat (p_l P)) by (rewrite <- Hl; reflexivity). rewrite Zl. lia.
    - intros [out p] (-> & HS & pack & -> & Lp & Fp & Bp). cbn [wp]. split; [reflexivity|]. split; [rewrite <- Hl; exact HS|].
      exists pack. split; [reflexivity|]. assert (Zl : @zlen (list (list Z)) (sk_s sk) = Z.of_nat (p_l P)) by (rewrite <- Hl; reflexivity). rewrite Zl in Lp.
      repeat split; assumption.
  Qed.
  Lemma sk_from_bytes_ok O fuel bytes : Forall is_byte bytes -> zlen bytes = sk_byte_len P ->
    exists pkb seeds pack xs, bytes = pkb ++ seeds ++ pack /\ zlen pkb = pk_byte_len P /\ length seeds = ((p_d P - 1) * kb)%nat /\
      length xs = p_l P /\ Forall wpoly xs /\ bits_of_bytes pack = codes 49 (concat xs) /\
      forall pk, pk_from_bytes P pkb = Ok pk ->
        wp (sk_from_bytes O fuel P bytes) (fun sk => sk = Skey pk (map (fresh_row (p_d P)) xs)) /\
        ((forall sidx ridx, (1 <= sidx < p_d P)%nat -> (ridx < p_l P)%nat ->
            exists r, sampleQ O fuel (hdr_K sidx ridx) (firstn kb (skipn ((sidx - 1) * kb) (seeds ++ pack))) = Ok r) ->
         sk_from_bytes O fuel P bytes = Ok (Skey pk (map (fresh_row (p_d P)) xs))).
  Proof.
    intros Hb Lb. pose proof (pf_sk _ _ _ F) as ES. pose proof (pf_pk _ _ _ F) as EP. pose proof d1 as Hd.
    assert (NN : 0 <= Z.of_nat kb * (Z.of_nat (p_d P) - 1)) by (apply Z.mul_nonneg_nonneg; lia).
    destruct (split3 bytes 0 (Z.to_nat (pk_byte_len P))) as (z & b1 & b2 & E & Lz & L1); [unfold zlen in Lb; lia|].
    destruct z; [|discriminate]. cbn [app] in E. subst bytes.
    assert (Z1 : zlen b1 = pk_byte_len P) by (unfold zlen; lia). apply Forall_app in Hb. destruct Hb as [Hb1 Hb2].
    destruct (mask_decompress_ok O fuel kb (p_l P) (p_d P) b2 Hb2 Hd) as (seeds & pack & xs & E & Ls & Lx & Fx & Bp & W & G).
    { rewrite zlen_app in Lb. lia. }
    exists b1, seeds, pack, xs. rewrite <- E. split; [reflexivity|]. split; [exact Z1|]. split; [exact Ls|]. split; [exact Lx|].
    split; [exact Fx|]. split; [exact Bp|]. intros pk Epk.
    assert (E0 : forall k, bind (subspan (b1 ++ b2) 0 (pk_byte_len P)) k = k b1 :> res skey).
    { intros k. change (b1 ++ b2) with ([] ++ b1 ++ b2). rewrite subspan_app by (symmetry; assumption || reflexivity). reflexivity. }
    assert (E2 : subspan (b1 ++ b2) (pk_byte_len P) (zlen (b1 ++ b2) - pk_byte_len P) = Ok b2).
    { apply subspan_tail. symmetry. exact Z1. }
    unfold sk_from_bytes. rewrite E0, E2. cbn [bind]. rewrite Epk. cbn [bind]. rewrite (pf_kappa _ _ _ F). split.
    - apply wp_bind. eapply wp_mono; [exact W|]. intros s ->. reflexivity.
    - intros HS. unfold pvec, mpoly, poly in *. rewrite (G HS). reflexivity.
  Qed.
End SK.
Lemma secret_vec_k l d s : secret_vec l d s <-> length s = l /\ Forall (kshares d) s.
Proof. reflexivity. Qed.
Lemma secret_of_masked l d s : (1 <= d)%nat -> masked_vec l d s -> secret_vec l d s.
Proof.
  intros Hd [L F]. split; [exact L|]. eapply Forall_impl; [|exact F]. intros row Hrow. apply kshares_ok; [lia|exact Hrow].
Qed.

(* what a serialized secret key contains, and what deserialization makes of it *)
Lemma sk_roundtrip O fuel P sk buf tp pos : params_ok P = true ->
  valid_public (Z.to_nat (p_kappa P / 8)) (p_k P) (pk_seed (sk_pkey sk)) (pk_t (sk_pkey sk)) ->
  secret_vec (p_l P) (p_d P) (sk_s sk) -> zlen buf = sk_byte_len P ->
  sk_to_bytes O fuel P sk buf (Prng tp pos) <> UB /\
  forall bytes p, sk_to_bytes O fuel P sk buf (Prng tp pos) = Ok (bytes, p) ->
    zlen bytes = sk_byte_len P /\ Forall is_byte bytes /\
    exists sk', sk_from_bytes O fuel P bytes = Ok sk' /\
      sk_pkey sk' = sk_pkey sk /\ map unmask (sk_s sk') = map unmask (sk_s sk) /\
      secret_vec (p_l P) (p_d P) (sk_s sk').
Proof.
  intros HP Vp [Hl Hs] Lb. destruct (params_facts P HP) as (kb & e & F).
  pose proof (k8 P kb e F) as E8. pose proof (d1 P kb e F) as Hd.
  destruct (pk_key_roundtrip P (sk_pkey sk) (repeat 0 (Z.to_nat (pk_byte_len P))) HP Vp) as (pkb & _ & Lpk & Bpk & Cpk & Dpk).
  { unfold zlen. rewrite repeat_length. pose proof (pf_pk _ _ _ F). lia. }
  assert (Hpk : forall b, zlen b = pk_byte_len P -> pk_to_bytes P (sk_pkey sk) b = Ok pkb).
  { intros b Lb'. destruct (pk_key_roundtrip P (sk_pkey sk) b HP Vp Lb') as (pkb' & -> & _ & B' & (p1 & -> & F1 & C1) & _).
    destruct Cpk as (p2 & -> & F2 & C2). f_equal. f_equal. apply bits_of_bytes_inj; try assumption. rewrite C1, C2. reflexivity. }
  pose proof (sk_to_bytes_ok P kb e F O fuel sk buf tp pos pkb Hs Hl Lb Hpk) as W. apply wp_split in W. destruct W as [W1 W2].
  split; [exact W1|]. intros bytes p E. specialize (W2 _ E). cbn beta iota in W2. destruct W2 as (-> & HS & pack & Eb & Lp & Fp & Bp).
  assert (Lz : zlen bytes = sk_byte_len P).
  { rewrite Eb, !zlen_app, Lp, Lpk. unfold zlen. rewrite stream_bytes_length. rewrite (pf_sk _ _ _ F). rewrite <- zmul1 by exact Hd. lia. }
  assert (Bb : Forall is_byte bytes) by (rewrite Eb; repeat (apply Forall_app; split); try assumption; apply tape_bytes).
  split; [exact Lz|]. split; [exact Bb|].
  destruct (sk_from_bytes_ok P kb e F O fuel bytes Bb Lz) as (pkb' & seeds & pack' & xs & Eb' & Lpk' & Lse & Lx & Fx & Bx & G).
  rewrite Eb in Eb'. apply app_inj_len in Eb'; [|unfold zlen in *; lia]. destruct Eb' as [<- Eb'].
  assert (Eb2 := Eb'). apply app_inj_len in Eb'; [|rewrite stream_bytes_length; lia]. destruct Eb' as [<- <-].
  destruct (G _ Dpk) as [_ G2]. eexists. split; [apply G2|].
  { intros sidx ridx H1 H2. destruct (HS sidx ridx H1 H2) as [r Hr]. exists r. rewrite <- Hr. f_equal.
    rewrite skipn_app, stream_bytes_length. rewrite firstn_app.
    assert (M : ((sidx - 1) * kb + kb <= (p_d P - 1) * kb)%nat) by (pose proof (Nat.mul_le_mono_r (S (sidx - 1)) (p_d P - 1) kb ltac:(lia)); lia).
    rewrite stream_bytes_sub by lia. rewrite skipn_length, stream_bytes_length.
    replace (kb - ((p_d P - 1) * kb - (sidx - 1) * kb))%nat with 0%nat by lia. cbn [firstn]. rewrite app_nil_r. reflexivity. }
  cbn [sk_pkey sk_s]. split; [reflexivity|].
  assert (Ex : xs = map (combine_shares (p_d P - 1)) (sk_s sk)).
  { apply codes49_inj; [rewrite map_length; rewrite Lx; symmetry; exact Hl|exact Fx| |rewrite <- Bx, Bp; reflexivity].
    apply Forall_forall. intros y Hy. apply in_map_iff in Hy. destruct Hy as (row & <- & Hrow). rewrite Forall_forall in Hs.
    apply (combine_w _ _ (Hs row Hrow)). }
  split.
  - rewrite map_map, Ex, map_map. apply map_ext_in. intros row Hrow. rewrite Forall_forall in Hs.
    destruct (combine_w _ _ (Hs row Hrow) (p_d P - 1)) as [C1 C2]. apply unmask_fresh; [exact C1|].
    intros k Hk. rewrite C2. rewrite firstn_all2; [reflexivity|]. pose proof (proj1 (Hs row Hrow)). unfold mpoly, poly in *. lia.
  - apply secret_vec_k. split; [rewrite map_length; exact Lx|]. apply Forall_forall. intros y Hy. apply in_map_iff in Hy.
    destruct Hy as (x & <- & Hx). apply fresh_kshares; [exact Hd|]. rewrite Forall_forall in Fx. apply Fx. exact Hx.
Qed.
(* the stored polynomials are the unmasked secret itself *)
Lemma sk_leak O fuel P sk buf tp pos bytes p : params_ok P = true ->
  valid_public (Z.to_nat (p_kappa P / 8)) (p_k P) (pk_seed (sk_pkey sk)) (pk_t (sk_pkey sk)) ->
  masked_vec (p_l P) (p_d P) (sk_s sk) -> zlen buf = sk_byte_len P ->
  sk_to_bytes O fuel P sk buf (Prng tp pos) = Ok (bytes, p) ->
  packed49 (map unmask (sk_s sk)) (skipn (Z.to_nat (pk_byte_len P + (Z.of_nat (p_d P) - 1) * (p_kappa P / 8))) bytes) /\
  exists sk', sk_from_bytes O fuel P bytes = Ok sk' /\
    sk_s sk' = map (fun row => unmask row :: repeat ring_zero (p_d P - 1)) (sk_s sk).
Proof.
  intros HP Vp Vm Lb E. destruct (params_facts P HP) as (kb & e & F).
  pose proof (k8 P kb e F) as E8. pose proof (d1 P kb e F) as Hd.
  pose proof (secret_of_masked _ _ _ Hd Vm) as [Hl Hs]. destruct Vm as [_ Vm].
  destruct (pk_key_roundtrip P (sk_pkey sk) (repeat 0 (Z.to_nat (pk_byte_len P))) HP Vp) as (pkb & _ & Lpk & Bpk & Cpk & Dpk).
  { unfold zlen. rewrite repeat_length. pose proof (pf_pk _ _ _ F). lia. }
  assert (Hpk : forall b, zlen b = pk_byte_len P -> pk_to_bytes P (sk_pkey sk) b = Ok pkb).
  { intros b Lb'. destruct (pk_key_roundtrip P (sk_pkey sk) b HP Vp Lb') as (pkb' & -> & _ & B' & (p1 & -> & F1 & C1) & _).
    destruct Cpk as (p2 & -> & F2 & C2). f_equal. f_equal. apply bits_of_bytes_inj; try assumption. rewrite C1, C2. reflexivity. }
  pose proof (sk_to_bytes_ok P kb e F O fuel sk buf tp pos pkb Hs Hl Lb Hpk) as W. apply wp_split in W. destruct W as [W1 W2].
  specialize (W2 _ E). cbn beta iota in W2. destruct W2 as (-> & HS & pack & Eb & Lp & Fp & Bp).
  assert (Em : map (combine_shares (p_d P - 1)) (sk_s sk) = map unmask (sk_s sk)).
  { apply map_ext_in. intros row Hrow. apply combine_unmask; [exact Hd|]. rewrite Forall_forall in Vm. apply Vm. exact Hrow. }
  split.
  - replace (skipn _ bytes) with pack; [split; [exact Fp|]; rewrite Bp; unfold codes; rewrite Em; reflexivity|].
    rewrite Eb, E8. rewrite app_assoc.
    replace (Z.to_nat (pk_byte_len P + (Z.of_nat (p_d P) - 1) * Z.of_nat kb)) with (length (pkb ++ stream_bytes (tape_of tp) pos ((p_d P - 1) * kb))).
    + rewrite skipn_app, skipn_all, Nat.sub_diag. reflexivity.
    + rewrite app_length, stream_bytes_length. rewrite <- Lpk. rewrite zmul1 by exact Hd. unfold zlen. rewrite <- Nat2Z.inj_add, Nat2Z.id. reflexivity.
  - assert (Lz : zlen bytes = sk_byte_len P).
    { rewrite Eb, !zlen_app, Lp, Lpk. unfold zlen. rewrite stream_bytes_length. rewrite (pf_sk _ _ _ F). rewrite <- zmul1 by exact Hd. lia. }
    assert (Bb : Forall is_byte bytes) by (rewrite Eb; repeat (apply Forall_app; split); try assumption; apply tape_bytes).
    destruct (sk_from_bytes_ok P kb e F O fuel bytes Bb Lz) as (pkb' & seeds & pack' & xs & Eb' & Lpk' & Lse & Lx & Fx & Bx & G).
    rewrite Eb in Eb'. apply app_inj_len in Eb'; [|unfold zlen in *; lia]. destruct Eb' as [<- Eb'].
    apply app_inj_len in Eb'; [|rewrite stream_bytes_length; lia]. destruct Eb' as [<- <-].
    destruct (G _ Dpk) as [_ G2]. eexists. split; [apply G2|].
    { intros sidx ridx H1 H2. destruct (HS sidx ridx H1 H2) as [r Hr]. exists r. rewrite <- Hr. f_equal.
      rewrite skipn_app, stream_bytes_length. rewrite firstn_app.
      assert (M : ((sidx - 1) * kb + kb <= (p_d P - 1) * kb)%nat) by (pose proof (Nat.mul_le_mono_r (S (sidx - 1)) (p_d P - 1) kb ltac:(lia)); lia).
      rewrite stream_bytes_sub by lia. rewrite skipn_length, stream_bytes_length.
      replace (kb - ((p_d P - 1) * kb - (sidx - 1) * kb))%nat with 0%nat by lia. cbn [firstn]. rewrite app_nil_r. reflexivity. }
    cbn [sk_s]. assert (Ex : xs = map unmask (sk_s sk)).
    { apply codes49_inj; [rewrite map_length; rewrite Lx; symmetry; exact Hl|exact Fx| |rewrite <- Bx, Bp, Em; reflexivity].
      apply Forall_forall. intros y Hy. apply in_map_iff in Hy. destruct Hy as (row & <- & Hrow). apply is_poly_wpoly, unmask_poly. }
    rewrite Ex, map_map. apply map_ext. intros row. unfold fresh_row. rewrite poly_zero_eq. reflexivity.
Qed.
Lemma sk_decode_shape O fuel P bytes : params_ok P = true -> Forall is_byte bytes -> zlen bytes = sk_byte_len P ->
  sk_from_bytes O fuel P bytes <> UB /\
  (p_d P = 1%nat -> exists sk, sk_from_bytes O fuel P bytes = Ok sk) /\
  forall sk, sk_from_bytes O fuel P bytes = Ok sk ->
    valid_public (Z.to_nat (p_kappa P / 8)) (p_k P) (pk_seed (sk_pkey sk)) (pk_t (sk_pkey sk)) /\
    secret_vec (p_l P) (p_d P) (sk_s sk) /\
    Forall (fun row => forall i, (1 <= i < p_d P)%nat -> nth i row [] = ring_zero) (sk_s sk) /\
    exists pk_bytes seeds packed, bytes = pk_bytes ++ seeds ++ packed /\
      public_key_code (pk_seed (sk_pkey sk)) (pk_t (sk_pkey sk)) pk_bytes /\
      Z.of_nat (length seeds) = (Z.of_nat (p_d P) - 1) * (p_kappa P / 8) /\
      packed49 (map (fun row => nth 0 row []) (sk_s sk)) packed.
Proof.
  intros HP Hb Lz. destruct (params_facts P HP) as (kb & e & F).
  pose proof (k8 P kb e F) as E8. pose proof (d1 P kb e F) as Hd.
  destruct (sk_from_bytes_ok P kb e F O fuel bytes Hb Lz) as (pkb & seeds & pack & xs & Eb & Lpk & Lse & Lx & Fx & Bx & G).
  assert (Hb1 : Forall is_byte pkb /\ Forall is_byte pack) by (rewrite Eb, !Forall_app in Hb; tauto).
  destruct (pk_bytes_roundtrip P pkb HP (proj1 Hb1) Lpk) as (pk & Dpk & Vp & Cp & _).
  destruct (G pk Dpk) as [W G2]. apply wp_split in W. destruct W as [W1 W2]. split; [exact W1|]. split.
  - intros D1. eexists. apply G2. intros; lia.
  - intros sk Esk. rewrite (W2 _ Esk). cbn [sk_pkey sk_s]. split; [exact Vp|]. split; [|split].
    + apply secret_vec_k. split; [rewrite map_length; exact Lx|]. apply Forall_forall. intros y Hy. apply in_map_iff in Hy.
      destruct Hy as (x & <- & Hx). apply fresh_kshares; [exact Hd|]. rewrite Forall_forall in Fx. apply Fx. exact Hx.
    + apply Forall_forall. intros y Hy. apply in_map_iff in Hy. destruct Hy as (x & <- & Hx). intros i Hi. unfold fresh_row.
      destruct i as [|i]; [lia|]. cbn [nth]. rewrite poly_zero_eq. apply (repeat_spec (p_d P - 1)). apply nth_In. rewrite repeat_length. lia.
    + exists pkb, seeds, pack. split; [exact Eb|]. split; [exact Cp|]. split; [rewrite Lse, E8, zmul1 by exact Hd; reflexivity|].
      split; [apply Hb1|]. rewrite map_map. cbn [fresh_row nth]. rewrite map_id. exact Bx.
Qed.
