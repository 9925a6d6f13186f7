(* Property theorems about the seed handed to key generation: secret_key.hpp:62-96, public_key.hpp:135. *)
From Coq Require Import ZArith List Bool Lia.
From Verif Require Import ModelBase ModelU128 ModelField ModelUtils ModelPoly ModelVec ModelSerial ModelScheme.
From Verif Require Import Spec SpecScheme SpecSig SpecVerify.
From Verif Require Import FieldProofs Cong ArithLemmas KeyExamples MaskedProofs ParamProofs KeyLemmas SigEnc KeygenProofs ExOracle ExGood ExSign SeedLemmas.
Import ListNotations.
Open Scope Z_scope.
Ltac Zify.zify_post_hook ::= idtac.

(* C80: the secret does not depend on the seed.  Two generations with different seeds, different mask generators and
   different bounds on waiting, whose random bytes agree on the part used for the secret, have the same secret. *)
Theorem C80_secret_ignores_seed : forall O O' fuel fuel' P seed seed' tp tp' sk sk', params_ok P = true -> shake256 O = shake256 O' ->
  Forall is_byte seed -> length seed = Z.to_nat (p_kappa P / 8) -> Forall is_byte seed' -> length seed' = Z.to_nat (p_kappa P / 8) ->
  (forall i, (i < p_l P * (p_rep P * p_d P * Z.to_nat (p_kappa P / 8)))%nat -> tp i = tp' i) ->
  sk_generate O fuel P seed tp = Ok sk -> sk_generate O' fuel' P seed' tp' = Ok sk' ->
  map unmask (sk_s sk) = map unmask (sk_s sk').
Proof.
  intros O O' fuel fuel' P seed seed' tp tp' sk sk' HP EH B L B' L' ET. apply generated_secret; try assumption.
  intros i Hi. apply ET. unfold row_bytes, row_of in Hi. cbn [r_rep r_d r_kappa] in Hi. rewrite !Nat2Z.id in Hi. exact Hi.
Qed.
Print Assumptions C80_secret_ignores_seed.

(* C80: the seed is public: it is stored as the first bytes of the serialized public key, so that different seeds
   give different public keys. *)
Theorem C80_seed_is_public : forall O fuel P seed tp sk buf bytes, params_ok P = true ->
  Forall is_byte seed -> length seed = Z.to_nat (p_kappa P / 8) ->
  sk_generate O fuel P seed tp = Ok sk -> zlen buf = pk_byte_len P -> pk_to_bytes P (sk_pkey sk) buf = Ok bytes ->
  firstn (Z.to_nat (p_kappa P / 8)) bytes = seed.
Proof.
  intros O fuel P seed tp sk buf bytes HP B L E Lb EB. pose proof (generate_spec O fuel P seed tp HP B L) as G. rewrite E in G. cbn [wp] in G.
  destruct G as (G1 & G2 & _). rewrite (saved_seed P (sk_pkey sk) buf bytes HP G2 Lb EB). exact G1.
Qed.
Print Assumptions C80_seed_is_public.
Theorem C80_seeds_separate_keys : forall O O' fuel fuel' P seed seed' tp tp' sk sk' buf buf' bytes bytes', params_ok P = true ->
  Forall is_byte seed -> length seed = Z.to_nat (p_kappa P / 8) -> Forall is_byte seed' -> length seed' = Z.to_nat (p_kappa P / 8) ->
  sk_generate O fuel P seed tp = Ok sk -> sk_generate O' fuel' P seed' tp' = Ok sk' ->
  zlen buf = pk_byte_len P -> pk_to_bytes P (sk_pkey sk) buf = Ok bytes -> zlen buf' = pk_byte_len P -> pk_to_bytes P (sk_pkey sk') buf' = Ok bytes' ->
  seed <> seed' -> bytes <> bytes'.
Proof.
  intros O O' fuel fuel' P seed seed' tp tp' sk sk' buf buf' bytes bytes' HP B L B' L' E E' Lb EB Lb' EB' N X. apply N.
  rewrite <- (C80_seed_is_public O fuel P seed tp sk buf bytes HP B L E Lb EB), X. exact (C80_seed_is_public O' fuel' P seed' tp' sk' buf' bytes' HP B' L' E' Lb' EB').
Qed.
Print Assumptions C80_seeds_separate_keys.

(* C80: hence a seed is no backup of a key: there is a hash function for which, with every parameter set and every
   seed, generating twice from that seed can give two keys with different secrets. *)
Theorem C80_seed_is_no_backup : exists O, forall P seed fuel, params_ok P = true ->
  Forall is_byte seed -> length seed = Z.to_nat (p_kappa P / 8) -> (512 <= fuel)%nat ->
  exists tp tp' sk sk', sk_generate O fuel P seed tp = Ok sk /\ sk_generate O fuel P seed tp' = Ok sk' /\
    map unmask (sk_s sk) <> map unmask (sk_s sk').
Proof.
  exists ex_T. intros P seed fuel HP B L Hf. exists (fun _ => Byte.x00), (fun _ => Byte.x01). exact (exT_differ P seed fuel HP B L Hf).
Qed.
Print Assumptions C80_seed_is_no_backup.

(* two Raccoon-256 keys with eight shares from different seeds and the same random bytes *)
Example C80_nonvacuous : let P := raccoon256_params 8 in params_ok P = true /\
  exists sk sk' bytes bytes', sk_generate ex_G 512 P (repeat 77 32) ex_tape = Ok sk /\ sk_generate ex_G 512 P (repeat 78 32) ex_tape = Ok sk' /\
    pk_to_bytes P (sk_pkey sk) (repeat 0 (Z.to_nat (pk_byte_len P))) = Ok bytes /\ pk_to_bytes P (sk_pkey sk') (repeat 0 (Z.to_nat (pk_byte_len P))) = Ok bytes' /\
    bytes <> bytes' /\ map unmask (sk_s sk) = map unmask (sk_s sk').
Proof.
  intros P. assert (HP : params_ok P = true) by (vm_compute; reflexivity). split; [exact HP|].
  assert (B : forall x, 0 <= x < 256 -> Forall is_byte (repeat x 32)) by (intros x Hx; apply Forall_repeat; exact Hx).
  assert (B1 : Forall is_byte (repeat 77 32)) by (apply B; lia). assert (B2 : Forall is_byte (repeat 78 32)) by (apply B; lia).
  destruct (exG_generate P (repeat 77 32) ex_tape 512 HP B1 eq_refl (le_n _)) as (sk & E & _).
  destruct (exG_generate P (repeat 78 32) ex_tape 512 HP B2 eq_refl (le_n _)) as (sk' & E' & _).
  pose proof (generate_spec ex_G 512 P (repeat 77 32) ex_tape HP B1 eq_refl) as G. rewrite E in G. cbn [wp] in G. destruct G as (_ & V & _).
  pose proof (generate_spec ex_G 512 P (repeat 78 32) ex_tape HP B2 eq_refl) as G. rewrite E' in G. cbn [wp] in G. destruct G as (_ & V' & _).
  assert (Lb : zlen (repeat 0 (Z.to_nat (pk_byte_len P))) = pk_byte_len P) by (unfold zlen; rewrite repeat_length; apply Z2Nat.id; discriminate).
  destruct (pk_key_roundtrip P (sk_pkey sk) _ HP V Lb) as (bytes & EB & _). destruct (pk_key_roundtrip P (sk_pkey sk') _ HP V' Lb) as (bytes' & EB' & _).
  exists sk, sk', bytes, bytes'. split; [exact E|]. split; [exact E'|]. split; [exact EB|]. split; [exact EB'|]. split.
  - apply (C80_seeds_separate_keys ex_G ex_G 512 512 P (repeat 77 32) (repeat 78 32) ex_tape ex_tape sk sk' _ _ bytes bytes' HP B1 eq_refl B2 eq_refl E E' Lb EB Lb EB'). discriminate.
  - apply (C80_secret_ignores_seed ex_G ex_G 512 512 P (repeat 77 32) (repeat 78 32) ex_tape ex_tape sk sk' HP eq_refl B1 eq_refl B2 eq_refl (fun _ _ => eq_refl) E E').
Qed.
