(* What the seed handed to key generation determines, and a concrete instance of the external code whose noise
   streams show the random tape. *)
From Coq Require Import ZArith Lia Bool List Arith.
From Coq Require Import ZifyBool ZifyNat.
From Verif Require Import ModelBase ModelU128 ModelField ModelUtils ModelPoly ModelVec ModelSerial ModelScheme.
From Verif Require Import Spec SpecScheme SpecSig SpecVerify SpecHash.
From Verif Require Import Words FieldProofs ArithLemmas BytesProofs PolyProofs Cong MaskedProofs SampleProofs SampleLemmas PolyLemmas MaskedLemmas.
From Verif Require Import ParamProofs KeyLemmas FinProofs ExOracle ExGood SchemeCore SignProofs KeygenProofs HashQueries SigEnc ExSign ExOver.
Import ListNotations.
Open Scope Z_scope.
Ltac Zify.zify_post_hook ::= idtac.

Lemma generated_secret O O' fuel fuel' P seed seed' tp tp' sk sk' : params_ok P = true -> shake256 O = shake256 O' ->
  Forall is_byte seed -> length seed = Z.to_nat (p_kappa P / 8) -> Forall is_byte seed' -> length seed' = Z.to_nat (p_kappa P / 8) ->
  (forall i, (i < p_l P * row_bytes (row_of P))%nat -> tp i = tp' i) ->
  sk_generate O fuel P seed tp = Ok sk -> sk_generate O' fuel' P seed' tp' = Ok sk' ->
  map unmask (sk_s sk) = map unmask (sk_s sk').
Proof.
  intros HP EH B L B' L' ET E E'.
  pose proof (generate_spec O fuel P seed tp HP B L) as G. rewrite E in G. cbn [wp] in G. destruct G as (_ & _ & _ & A & _ & G & _).
  pose proof (generate_spec O' fuel' P seed' tp' HP B' L') as G'. rewrite E' in G'. cbn [wp] in G'. destruct G' as (_ & _ & _ & A' & _ & G' & _).
  rewrite G, G'. f_equal. apply noise_ext.
  - intros i r j s _ _ _ _ x. unfold hash_of. rewrite EH. reflexivity.
  - intros x Hx. unfold tape_of. rewrite ET; [reflexivity|]. lia.
Qed.
Lemma saved_seed P pk buf bytes : params_ok P = true ->
  valid_public (Z.to_nat (p_kappa P / 8)) (p_k P) (pk_seed pk) (pk_t pk) -> zlen buf = pk_byte_len P ->
  pk_to_bytes P pk buf = Ok bytes -> firstn (Z.to_nat (p_kappa P / 8)) bytes = pk_seed pk.
Proof.
  intros HP V Lb E. destruct (pk_key_roundtrip P pk buf HP V Lb) as (b & E' & _ & _ & (packed & EB & _) & _). rewrite E in E'. apply ok_inj in E'. subst b.
  rewrite EB. destruct V as (LS & _). rewrite <- LS, firstn_app, Nat.sub_diag, firstn_all. cbn [firstn]. apply app_nil_r.
Qed.

(* matrix streams are zero, noise streams begin with the first byte of their seed *)
Definition ext_val (m : list Z) (i : nat) : Z :=
  let h := hd 0 m in
  if h =? 65 then 0
  else if h =? 117 then (if (i =? 0)%nat then nth 8 m 0 mod 128 else 0)
  else (Z.of_nat (length m) + Z.of_nat i) mod 128.
Definition ex_T : oracles := {|
  shake256 := fun m i => ex_byte (ext_val m i);
  ascon_permute := fun _ st => Ascon ((a0 st + 1) mod 2 ^ 40) (a1 st) (a2 st) (a3 st) (a4 st);
  ascon80pq_iv := 0
|}.
Lemma ext_range m i : 0 <= ext_val m i < 128.
Proof. unfold ext_val. destruct (_ =? 65); [lia|]. destruct (_ =? 117); [destruct (i =? 0)%nat; [|lia]|]; apply Z.mod_pos_bound; reflexivity. Qed.
Lemma exT_hash m i : hash_of ex_T m i = ext_val m i.
Proof. unfold hash_of, ex_T, shake256. rewrite ex_byte_val. apply Z.mod_small. pose proof (ext_range m i). lia. Qed.
Lemma exT_good_hash fuel : (512 <= fuel)%nat -> good_hash ex_T fuel.
Proof.
  intros H m. unfold accepted49. rewrite filter_all; [rewrite map_length, seq_length; exact H|].
  intros x Hx. apply in_map_iff in Hx. destruct Hx as (t & <- & _). apply Z.ltb_lt, small_bytes_candidate.
  intros i. rewrite exT_hash. apply ext_range.
Qed.
Lemma exT_good_mask fuel d : (512 <= fuel)%nat -> good_mask ex_T fuel d.
Proof. exact (exG_good_mask fuel d). Qed.
Lemma exT_runs P seed tp fuel : params_ok P = true -> Forall is_byte seed -> length seed = Z.to_nat (p_kappa P / 8) -> (512 <= fuel)%nat ->
  exists sk, sk_generate ex_T fuel P seed tp = Ok sk /\
    map unmask (sk_s sk) = map transform (noise (hash_of ex_T) (tape_of tp) (row_of P) (p_ut P) (p_l P) 0).
Proof.
  intros HP Hb Ls Hf. destruct (params_facts P HP) as (kb & e & F).
  pose proof (generate_spec ex_T fuel P seed tp HP Hb Ls) as G.
  assert (NF : sk_generate ex_T fuel P seed tp <> OutOfFuel) by (apply sk_generate_fin; [apply (fn_ok _ (fun _ => True)), expandA_fin, exT_good_hash, Hf|apply exT_good_mask, Hf|exists e; exact (pf_d _ _ _ F)]).
  destruct (sk_generate ex_T fuel P seed tp) as [sk| |]; cbn [wp] in G; [|destruct G|congruence].
  exists sk. split; [reflexivity|]. destruct G as (_ & _ & _ & A & _ & G5 & _). exact G5.
Qed.
(* coefficient 0 of the first noise polynomial under a constant tape *)
Lemma exT_coef P b v : params_ok P = true -> byteZ b = v -> 0 <= v < 2 ->
  coef (nth 0 (noise (hash_of ex_T) (tape_of (fun _ => b)) (row_of P) (p_ut P) (p_l P) 0) []) 0 = Z.of_nat (p_rep P * p_d P) * v.
Proof.
  intros HP Hb Hv. destruct (params_facts P HP) as (kb & e & F). pose proof (pf_ut _ _ _ F) as Hut. pose proof (pf_l _ _ _ F) as Hl. pose proof (pf_repd _ _ _ F) as Hrd.
  pose proof (pf_kappa _ _ _ F) as Hk. pose proof (pf_kb _ _ _ F) as Hkb.
  assert (Ekb : Z.to_nat (p_kappa P / 8) = kb) by (rewrite Hk, Z.mul_comm, Z.div_mul by discriminate; apply Nat2Z.id).
  unfold noise, noise_vec. cbn [row_of r_kappa r_rep r_d]. rewrite !Nat2Z.id, Ekb.
  destruct (p_l P) as [|l]; [lia|]. cbn [seq map nth]. unfold noise_poly, coef. cbn [seq map nth].
  assert (S : forall i j, noise_sample (noise_stream (hash_of ex_T) (tape_of (fun _ => b)) kb (p_d P) 0 (0 + 0 * (p_rep P * p_d P * kb)) i j) (p_ut P) 0 = v).
  { intros i j. unfold noise_sample. assert (E : (p_ut P + 7) / 8 = 1) by (symmetry; apply (Z.div_unique _ _ _ (p_ut P - 1)); lia). rewrite E.
    change (Z.to_nat 1) with 1%nat. unfold stream_bytes at 1. cbn [Nat.mul seq map le_value]. unfold noise_stream. rewrite exT_hash. unfold ext_val. cbn [app hd Z.eqb Pos.eqb Nat.eqb nth].
    destruct kb as [|kb]; [lia|]. unfold stream_bytes. cbn [seq map nth]. unfold tape_of. rewrite Hb, (Z.mod_small v) by lia.
    replace (v + 256 * 0) with v by ring. unfold signed_bits.
    assert (W : 2 < 2 ^ (p_ut P - 1) < 2 ^ p_ut P).
    { split; [apply (Z.lt_le_trans _ (2 ^ 2)); [reflexivity|apply Z.pow_le_mono_r; lia]|apply Z.pow_lt_mono_r; lia]. }
    rewrite (Z.mod_small v) by lia. replace (v <? 2 ^ (p_ut P - 1)) with true by lia. reflexivity. }
  unfold noise_coef. rewrite (Zsum_ext _ _ (fun _ => Z.of_nat (p_d P) * v)).
  - rewrite Zsum_const, Z.mul_assoc, <- Nat2Z.inj_mul. apply Z.mod_small. rewrite q_Q, Q_val. generalize dependent (p_rep P * p_d P)%nat. intros n Hn _.
    assert (n <= 128)%nat by exact Hn. clear - H Hv. nia.
  - intros i _. rewrite (Zsum_ext _ _ (fun _ => v)); [apply Zsum_const|]. intros j _. apply S.
Qed.
Lemma exT_differ P seed fuel : params_ok P = true -> Forall is_byte seed -> length seed = Z.to_nat (p_kappa P / 8) -> (512 <= fuel)%nat ->
  exists sk sk', sk_generate ex_T fuel P seed (fun _ => Byte.x00) = Ok sk /\ sk_generate ex_T fuel P seed (fun _ => Byte.x01) = Ok sk' /\
    map unmask (sk_s sk) <> map unmask (sk_s sk').
Proof.
  intros HP Hb Ls Hf. destruct (exT_runs P seed (fun _ => Byte.x00) fuel HP Hb Ls Hf) as (sk & E & U). destruct (exT_runs P seed (fun _ => Byte.x01) fuel HP Hb Ls Hf) as (sk' & E' & U').
  exists sk, sk'. split; [exact E|]. split; [exact E'|]. rewrite U, U'. intros X.
  destruct (noise_polys (hash_of ex_T) (tape_of (fun _ => Byte.x00)) (row_of P) (p_ut P) (p_l P) 0) as [F0 _].
  destruct (noise_polys (hash_of ex_T) (tape_of (fun _ => Byte.x01)) (row_of P) (p_ut P) (p_l P) 0) as [F1 _].
  apply transform_inj_list in X; [|exact F0|exact F1].
  pose proof (exT_coef P Byte.x00 0 HP eq_refl ltac:(lia)) as C0. pose proof (exT_coef P Byte.x01 1 HP eq_refl ltac:(lia)) as C1. rewrite X in C0. rewrite C0 in C1.
  destruct (params_facts P HP) as (kb & e & F). pose proof (pf_rep _ _ _ F) as Hrep. pose proof (d1 P kb e F) as Hd.
  assert (1 <= p_rep P * p_d P)%nat by (clear - Hrep Hd; destruct (p_rep P); [lia|]; cbn [Nat.mul]; lia). clear - C1 H. lia.
Qed.
