(* Property theorem about the time that key generation, signing and secret key conversion need. *)
From Coq Require Import ZArith List Bool Lia.
From Verif Require Import ModelBase ModelField ModelUtils ModelPoly ModelVec ModelSerial ModelScheme.
From Verif Require Import Spec SpecScheme SpecSig SpecVerify SpecEnc SpecTail SpecTailSign.
From Verif Require Import FieldProofs ArithLemmas ParamProofs KeyLemmas SigEnc KeyExamples SampleProofs SampleLemmas MaskedProofs NoiseProofs PolyLemmas MaskedLemmas FinProofs CountProofs TailProofs TailSign SignExact ExOracle PropTail.
Import ListNotations.
Open Scope Z_scope.

(* C73: with the rare sets of windows of C72: key generation waits longer than [fuel] only if the window of a matrix stream of
   its seed is in ws; signing only if such a window is in ws, or the window of the challenge hash of one of the first [fuel]
   attempts is in ws', or all of the first [fuel] attempts are rejected; writing (reading) a secret key only if the window of the
   stream of a share key drawn from the tape (read from the bytes) is in ws; refreshing a key never.  For two or more shares the
   words of the mask generator, whose state is never seeded, are assumed to contain enough values below q. *)
Theorem C73_waiting : forall b omega b', (0 < omega < 256)%nat -> exists ws ws',
  rare ws (512 * b * 7) (512 * (2 ^ 49 - q) ^ Z.of_nat b) ((2 ^ 49) ^ Z.of_nat b) /\
  rare ws' (omega * b' * 2) (Z.of_nat omega * (Z.of_nat omega - 1) ^ Z.of_nat b') (512 ^ Z.of_nat b') /\
  forall O fuel P, params_ok P = true -> p_omega P = omega -> (512 * b <= fuel)%nat -> (omega * b' <= fuel)%nat ->
  let H := hash_of O in
  let slow stream := In (stream_bytes stream 0 (512 * b * 7)) ws in
  let kb := Z.to_nat (p_kappa P / 8) in
  ((2 <= p_d P)%nat -> window_accepts (fun t => a0 (Nat.iter t (ascon_permute O 6) ascon_zero) mod 2 ^ 49) fuel) ->
  (forall seed tp, sk_generate O fuel P seed tp = OutOfFuel ->
     exists r c, (r < p_k P)%nat /\ (c < p_l P)%nat /\ slow (matrix_stream H seed r c)) /\
  (forall sk, sk_refresh O fuel P sk <> OutOfFuel) /\
  (forall sk msg buf tp A pkb s,
     valid_public kb (p_k P) (pk_seed (sk_pkey sk)) (pk_t (sk_pkey sk)) -> masked_vec49 (p_l P) (p_d P) (sk_s sk) -> zlen buf = p_siglen P ->
     public_matrix H (pk_seed (sk_pkey sk)) (p_k P) (p_l P) A -> public_key_code (pk_seed (sk_pkey sk)) (pk_t (sk_pkey sk)) pkb ->
     Forall is_poly s -> map transform s = map unmask (sk_s sk) ->
     let mu := bound_message H (Z.to_nat (2 * p_kappa P / 8)) pkb msg in
     let att := sign_attempt H (tape_of tp) (row_of P) A (rows1 (pk_t (sk_pkey sk))) s mu in
     sk_sign O fuel P sk msg buf tp = OutOfFuel ->
     (exists r c, (r < p_k P)%nat /\ (c < p_l P)%nat /\ slow (matrix_stream H (pk_seed (sk_pkey sk)) r c)) \/
     (exists i, (i < fuel)%nat /\
        In (stream_bytes (challenge_stream H omega (attempt_hash H (tape_of tp) (row_of P) A mu i)) 0 (omega * b' * 2)) ws') \/
     (forall i, (i < fuel)%nat -> exists c cp h z, att i c cp h z /\ ~ acceptable (row_of P) c h z /\ ~ attempt_overruns (row_of P) c h z)) /\
  (forall sk buf tp pos, valid_public kb (p_k P) (pk_seed (sk_pkey sk)) (pk_t (sk_pkey sk)) -> length (sk_s sk) = p_l P ->
     sk_to_bytes O fuel P sk buf (Prng tp pos) = OutOfFuel ->
     exists i r, (1 <= i < p_d P)%nat /\ (r < p_l P)%nat /\
       slow (H ([75; Z.of_nat i; Z.of_nat r; 0; 0; 0; 0; 0] ++ stream_bytes (tape_of tp) (pos + (i - 1) * kb) kb))) /\
  (forall bytes, Forall is_byte bytes -> zlen bytes = sk_byte_len P -> sk_from_bytes O fuel P bytes = OutOfFuel ->
     exists i r, (1 <= i < p_d P)%nat /\ (r < p_l P)%nat /\
       slow (H ([75; Z.of_nat i; Z.of_nat r; 0; 0; 0; 0; 0] ++ firstn kb (skipn (Z.to_nat (pk_byte_len P) + (i - 1) * kb) bytes)))).
Proof.
  intros b omega b' Ho. destruct (uniform_tail b) as (ws & H1 & H2 & H3 & H4). destruct (challenge_tail omega b' Ho) as (ws' & C1 & C2 & C3 & C4).
  exists ws, ws'. split; [split; [exact H1|split; [exact H2|split; [apply Z.pow_pos_nonneg; lia|exact H3]]]|].
  split; [split; [exact C1|split; [exact C2|split; [apply Z.pow_pos_nonneg; lia|exact C3]]]|].
  intros O fuel P HP Eo Hf Hf' H slow kb G. destruct (params_facts P HP) as (kb' & e & F).
  pose proof (pf_k _ _ _ F) as Hk. pose proof (pf_l _ _ _ F) as Hl.
  assert (M : forall seed r c, (r < p_k P)%nat -> (c < p_l P)%nat -> sampleQ O fuel (expandA_hdr r c) seed = OutOfFuel -> slow (matrix_stream H seed r c)).
  { intros seed r c Hr Hc X. unfold slow, H. rewrite matrix_stream_hdr by lia. exact (H4 O fuel _ _ Hf X). }
  assert (Hd : (p_d P <= 256)%nat).
  { pose proof (pf_rep _ _ _ F) as Hrep. pose proof (pf_repd _ _ _ F) as Hrd. destruct (p_rep P); [lia|]. nia. }
  assert (K : forall i r z, (1 <= i < p_d P)%nat -> (r < p_l P)%nat -> sampleQ O fuel (hdr_K i r) z = OutOfFuel ->
    slow (H ([75; Z.of_nat i; Z.of_nat r; 0; 0; 0; 0; 0] ++ z))).
  { intros i r z Hi Hr X. pose proof (H4 O fuel _ _ Hf X) as Y. unfold hdr_K in Y. rewrite !Z.mod_small in Y by lia. exact Y. }
  split; [|split; [|split; [|split]]].
  - intros seed tp E. destruct (generate_out O fuel P seed tp HP G E) as (r & c & Hr & Hc & X). exists r, c. split; [exact Hr|]. split; [exact Hc|]. exact (M _ _ _ Hr Hc X).
  - intros sk. apply sk_refresh_fin; [exact G|exists e; exact (pf_d _ _ _ F)].
  - intros sk msg buf tp A pkb s V Hs Lb PM CP Fs Es mu att E.
    destruct (sign_out O fuel P sk msg buf tp A pkb s HP V Hs Lb PM CP Fs Es G E) as [(r & c & Hr & Hc & X)|[(i & Hi & X)|X]].
    + left. exists r, c. split; [exact Hr|]. split; [exact Hc|]. exact (M _ _ _ Hr Hc X).
    + right. left. exists i. split; [exact Hi|]. rewrite Eo in X. exact (C4 O fuel _ Hf' X).
    + right. right. exact X.
  - intros sk buf tp pos V Ls E. destruct (to_bytes_out O fuel P sk buf tp pos HP V Ls E) as (i & r & Hi & Hr & X). exists i, r. split; [exact Hi|]. split; [exact Hr|]. exact (K _ _ _ Hi Hr X).
  - intros bytes B L E. destruct (from_bytes_out O fuel P bytes HP B L E) as (i & r & Hi & Hr & X). exists i, r. split; [exact Hi|]. split; [exact Hr|]. exact (K _ _ _ Hi Hr X).
Qed.
Print Assumptions C73_waiting.
(* attempt_hash is the challenge hash of the attempts of C28 and C55 *)
Theorem C73_attempt_hash : forall H T p A t s mu n c cp h z, sign_attempt H T p A t s mu n c cp h z -> c = attempt_hash H T p A mu n.
Proof. exact attempt_is_hash. Qed.
Print Assumptions C73_attempt_hash.
(* with the hash function of C72 that always gives the byte 255 and one share (no masks), key generation never finishes, and with two
   shares the all-zero key is never read *)
Example C73_nonvacuous : forall fuel,
  (forall seed tp, sk_generate ones_O fuel (raccoon128_params 1) seed tp = OutOfFuel) /\
  (exists bytes, Forall is_byte bytes /\ zlen bytes = sk_byte_len (raccoon128_params 2) /\ sk_from_bytes ones_O fuel (raccoon128_params 2) bytes = OutOfFuel).
Proof.
  intros fuel. destruct (C72_nonvacuous fuel) as [X _]. split.
  - intros seed tp. unfold sk_generate. cbv zeta.
    assert (E : expandA ones_O fuel (p_k (raccoon128_params 1)) (p_l (raccoon128_params 1)) seed = OutOfFuel); [|rewrite E; reflexivity].
    change (p_k (raccoon128_params 1)) with 5%nat. change (p_l (raccoon128_params 1)) with 4%nat. unfold expandA. cbn [seq foldM]. rewrite X. reflexivity.
  - set (P := raccoon128_params 2). assert (HP : params_ok P = true) by (vm_compute; reflexivity).
    exists (repeat 0 (Z.to_nat (sk_byte_len P))). assert (B : Forall is_byte (repeat 0 (Z.to_nat (sk_byte_len P)))) by (apply Forall_repeat; split; [discriminate|reflexivity]).
    assert (L : zlen (repeat 0 (Z.to_nat (sk_byte_len P))) = sk_byte_len P) by (unfold zlen; rewrite repeat_length; apply Z2Nat.id; vm_compute; discriminate).
    split; [exact B|]. split; [exact L|]. pose proof (proj1 (sk_decode_shape ones_O fuel P _ HP B L)) as NU.
    destruct (sk_from_bytes ones_O fuel P _) as [sk| |] eqn:E; [exfalso|destruct (NU eq_refl)|reflexivity]. clear NU B L.
    unfold sk_from_bytes in E. cbv zeta in E. apply bind_ok_inv in E. destruct E as (pkb & _ & E). apply bind_ok_inv in E. destruct E as (skb & _ & E).
    apply bind_ok_inv in E. destruct E as (pk & _ & E). apply bind_ok_inv in E. destruct E as (v & E & _). unfold mask_decompress in E.
    apply bind_ok_inv in E. destruct E as ([w off] & _ & E). change (p_d P - 1)%nat with 1%nat in E. change (p_l P) with 4%nat in E. cbn [seq foldM] in E.
    apply bind_ok_inv in E. destruct E as (w1 & E & _). apply bind_ok_inv in E. destruct E as (w2 & E & _). apply bind_ok_inv in E. destruct E as (sg & _ & E).
    rewrite X in E. discriminate E.
Qed.
