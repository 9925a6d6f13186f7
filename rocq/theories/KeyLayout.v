(* What a serialized secret key consists of. *)
From Coq Require Import ZArith Lia Bool List Arith.
From Verif Require Import ModelBase ModelU128 ModelField ModelUtils ModelPoly ModelVec ModelSerial ModelScheme.
From Verif Require Import Spec SpecScheme SpecHash.
From Verif Require Import FieldProofs ArithLemmas BytesProofs PackProofs SkeyProofs PolyProofs SampleProofs SampleLemmas PolyLemmas MaskedProofs MaskedLemmas ParamProofs KeyLemmas SigEnc.
Import ListNotations.
Open Scope Z_scope.
Ltac Zify.zify_post_hook ::= idtac.

Lemma dvals_small P : params_ok P = true -> (p_d P <= 32)%nat.
Proof.
  intros HP. destruct (params_ok_cases P HP) as (d & Id & C). cbn [dvals In] in Id.
  destruct C as [->|[->| ->]]; cbn [p_d raccoon128_params raccoon192_params raccoon256_params]; lia.
Qed.
Lemma sk_layout : forall O fuel P sk buf tp pos bytes p, params_ok P = true ->
  valid_public (Z.to_nat (p_kappa P / 8)) (p_k P) (pk_seed (sk_pkey sk)) (pk_t (sk_pkey sk)) ->
  secret_vec (p_l P) (p_d P) (sk_s sk) -> zlen buf = sk_byte_len P ->
  sk_to_bytes O fuel P sk buf (Prng tp pos) = Ok (bytes, p) ->
  let m := Z.to_nat (p_kappa P / 8) in let seed i := stream_bytes (tape_of tp) (pos + (i - 1) * m) m in
  exists pk_bytes xs packed,
    bytes = pk_bytes ++ stream_bytes (tape_of tp) pos ((p_d P - 1) * m) ++ packed /\ p = Prng tp (pos + (p_d P - 1) * m) /\
    public_key_code (pk_seed (sk_pkey sk)) (pk_t (sk_pkey sk)) pk_bytes /\ length xs = p_l P /\ packed49 xs packed /\
    (forall i, (1 <= i < p_d P)%nat -> firstn m (skipn ((i - 1) * m) (stream_bytes (tape_of tp) pos ((p_d P - 1) * m))) = seed i) /\
    (forall i r, (1 <= i < p_d P)%nat -> (r < p_l P)%nat ->
       exists mask, is_poly mask /\ uniform_poly (hash_of O (query_input (hq_share i r (seed i)))) mask).
Proof.
  intros O fuel P sk buf tp pos bytes p HP Vp [Hl Hs] Lb E. destruct (params_facts P HP) as (kb & e & F).
  pose proof (k8 P kb e F) as E8. pose proof (d1 P kb e F) as Hd. pose proof (pf_l _ _ _ F) as Pl. pose proof (dvals_small P HP) as Pd. cbv zeta. rewrite E8, Nat2Z.id.
  destruct (pk_key_roundtrip P (sk_pkey sk) (repeat 0 (Z.to_nat (pk_byte_len P))) HP Vp) as (pkb & _ & Lpk & Bpk & Cpk & Dpk).
  { unfold zlen. rewrite repeat_length. pose proof (pf_pk _ _ _ F). lia. }
  assert (Hpk : forall b, zlen b = pk_byte_len P -> pk_to_bytes P (sk_pkey sk) b = Ok pkb).
  { intros b Lb'. destruct (pk_key_roundtrip P (sk_pkey sk) b HP Vp Lb') as (pkb' & -> & _ & B' & (p1 & -> & F1 & C1) & _).
    destruct Cpk as (p2 & -> & F2 & C2). f_equal. f_equal. apply bits_of_bytes_inj; try assumption. rewrite C1, C2. reflexivity. }
  pose proof (sk_to_bytes_ok P kb e F O fuel sk buf tp pos pkb Hs Hl Lb Hpk) as W. apply wp_split in W. destruct W as [_ W2].
  specialize (W2 _ E). cbn beta iota in W2. destruct W2 as (-> & HS & pack & Eb & Lp & Fp & Bp).
  exists pkb, (map (combine_shares (p_d P - 1)) (sk_s sk)), pack. split; [exact Eb|]. split; [reflexivity|]. split; [exact Cpk|].
  split; [rewrite map_length; exact Hl|]. split; [split; [exact Fp|exact Bp]|]. split.
  - intros i Hi. apply stream_bytes_sub.
    pose proof (Nat.mul_le_mono_r (S (i - 1)) (p_d P - 1) kb ltac:(lia)). lia.
  - intros i r Hi Hr. destruct (HS i r Hi Hr) as (x & Ex). exists x.
    destruct (uniform_facts O fuel) as (US & _). pose proof (US (hdr_K i r) (stream_bytes (tape_of tp) (pos + (i - 1) * kb) kb)) as X. cbv zeta in X.
    unfold poly in *. rewrite Ex in X. assert (EI : query_input (hq_share i r (stream_bytes (tape_of tp) (pos + (i - 1) * kb) kb)) = hdr_K i r ++ stream_bytes (tape_of tp) (pos + (i - 1) * kb) kb).
    { unfold hdr_K, query_input. rewrite !Z.mod_small by lia. reflexivity. }
    rewrite EI. destruct (512 <=? length (accepted49 _ fuel))%nat eqn:EL in X; [|discriminate X]. apply Nat.leb_le in EL. apply ok_inj in X. subst x.
    assert (U : uniform_poly (hash_of O (hdr_K i r ++ stream_bytes (tape_of tp) (pos + (i - 1) * kb) kb)) (firstn 512 (accepted49 (hash_of O (hdr_K i r ++ stream_bytes (tape_of tp) (pos + (i - 1) * kb) kb)) fuel))) by (exists fuel; split; [exact EL|reflexivity]).
    split; [|exact U]. exact (uniform_poly_poly _ _ U).
Qed.
