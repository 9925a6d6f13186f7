(* Property theorems about messages that overlap the signature buffer: secret_key.hpp:101-208, public_key.hpp:58-132. *)
From Coq Require Import ZArith List Bool Lia.
From Verif Require Import ModelBase ModelU128 ModelField ModelUtils ModelPoly ModelVec ModelSerial ModelScheme ModelAlias.
From Verif Require Import Spec SpecScheme SpecSig SpecVerify.
From Verif Require Import FieldProofs Cong ArithLemmas BytesProofs MaskedProofs ParamProofs MaskedLemmas KeyLemmas FuelProofs SigEnc SignVerify AliasLemmas ExOracle ExGood ExSign.
Import ListNotations.
Open Scope Z_scope.
Ltac Zify.zify_post_hook ::= idtac.

(* C79: the message may lie anywhere in the memory that holds the signature buffer, also partly or wholly inside
   that buffer.  Signing does what it does for a message held elsewhere with the bytes the span had when the call
   was made: it returns in the same cases, and then the buffer holds the same signature and no other byte of the
   memory has changed. *)
Theorem C79_sign_overlap : forall O fuel P sk before buf after moff msg tp,
  zlen buf = p_siglen P -> subspan (before ++ buf ++ after) moff (zlen msg) = Ok msg ->
  match sk_sign O fuel P sk msg buf tp with
  | Ok sig => sign_at O fuel P sk (before ++ buf ++ after) moff (zlen msg) (zlen before) tp = Ok (before ++ sig ++ after)
  | UB => sign_at O fuel P sk (before ++ buf ++ after) moff (zlen msg) (zlen before) tp = UB
  | OutOfFuel => sign_at O fuel P sk (before ++ buf ++ after) moff (zlen msg) (zlen before) tp = OutOfFuel
  end.
Proof.
  intros O fuel P sk a buf c moff msg tp Lb EM. rewrite (sign_at_eq O fuel P sk (a ++ buf ++ c) msg buf a c moff (zlen msg) (zlen a) tp EM eq_refl eq_refl Lb).
  destruct (sk_sign O fuel P sk msg buf tp); reflexivity.
Qed.
Print Assumptions C79_sign_overlap.

(* C79: the signature so made is one for the bytes the message span had at the call, whatever is there now. *)
Theorem C79_overlap_verifies : forall O fuel P sk before buf after moff msg tp mem, params_ok P = true ->
  valid_public (Z.to_nat (p_kappa P / 8)) (p_k P) (pk_seed (sk_pkey sk)) (pk_t (sk_pkey sk)) ->
  masked_vec49 (p_l P) (p_d P) (sk_s sk) ->
  zlen buf = p_siglen P -> subspan (before ++ buf ++ after) moff (zlen msg) = Ok msg ->
  sign_at O fuel P sk (before ++ buf ++ after) moff (zlen msg) (zlen before) tp = Ok mem ->
  exists sig, mem = before ++ sig ++ after /\ zlen sig = zlen buf /\
    valid_signature (hash_of O) (row_of P) (pk_seed (sk_pkey sk)) (pk_t (sk_pkey sk)) msg sig /\
    verify O fuel P (sk_pkey sk) msg sig = Ok true.
Proof.
  intros O fuel P sk a buf c moff msg tp mem HP V M Lb EM E.
  rewrite (sign_at_eq O fuel P sk (a ++ buf ++ c) msg buf a c moff (zlen msg) (zlen a) tp EM eq_refl eq_refl Lb) in E.
  destruct (sk_sign O fuel P sk msg buf tp) as [sig| |] eqn:ES; cbn [place] in E; [|discriminate E|discriminate E].
  exists sig. split; [exact (eq_sym (ok_inj _ _ E))|]. destruct (sign_verifies O fuel P sk msg buf tp sig HP V M Lb ES) as (L & _ & VS & VV).
  split; [rewrite L, Lb; reflexivity|]. split; assumption.
Qed.
Print Assumptions C79_overlap_verifies.

(* C79: if the two spans do not overlap, the message is still there, and verifying the two spans of the resulting
   memory accepts. *)
Theorem C79_disjoint_verifies : forall O fuel P sk before buf after moff msg tp mem, params_ok P = true ->
  valid_public (Z.to_nat (p_kappa P / 8)) (p_k P) (pk_seed (sk_pkey sk)) (pk_t (sk_pkey sk)) ->
  masked_vec49 (p_l P) (p_d P) (sk_s sk) ->
  zlen buf = p_siglen P -> subspan (before ++ buf ++ after) moff (zlen msg) = Ok msg ->
  moff + zlen msg <= zlen before \/ zlen before + p_siglen P <= moff ->
  sign_at O fuel P sk (before ++ buf ++ after) moff (zlen msg) (zlen before) tp = Ok mem ->
  subspan mem moff (zlen msg) = Ok msg /\ verify_at O fuel P (sk_pkey sk) mem moff (zlen msg) (zlen before) = Ok true.
Proof.
  intros O fuel P sk a buf c moff msg tp mem HP V M Lb EM D E.
  destruct (C79_overlap_verifies O fuel P sk a buf c moff msg tp mem HP V M Lb EM E) as (sig & -> & L & _ & VV).
  assert (K : subspan (a ++ sig ++ c) moff (zlen msg) = Ok msg).
  { rewrite (subspan_keep a sig buf c moff (zlen msg) L); [exact EM|]. rewrite L, Lb. exact D. }
  split; [exact K|]. unfold verify_at. rewrite K. cbn [bind]. rewrite subspan_app by (try reflexivity; rewrite L; symmetry; exact Lb). cbn [bind]. exact VV.
Qed.
Print Assumptions C79_disjoint_verifies.

(* a raccoon-128 key that signs a 32-byte message held inside the signature buffer, for every random tape *)
Example C79_nonvacuous : let P := raccoon128_params 2 in params_ok P = true /\
  valid_public (Z.to_nat (p_kappa P / 8)) (p_k P) (pk_seed (sk_pkey ex_sk)) (pk_t (sk_pkey ex_sk)) /\
  masked_vec49 (p_l P) (p_d P) (sk_s ex_sk) /\
  forall before after msg pre post tp, zlen msg = 32 -> zlen (pre ++ msg ++ post) = p_siglen P ->
    subspan (before ++ (pre ++ msg ++ post) ++ after) (zlen before + zlen pre) (zlen msg) = Ok msg /\
    exists mem, sign_at ex_G 512 P ex_sk (before ++ (pre ++ msg ++ post) ++ after) (zlen before + zlen pre) (zlen msg) (zlen before) tp = Ok mem.
Proof.
  intros P. split; [vm_compute; reflexivity|]. split; [exact ex_sk_public|]. split; [apply masked_49; exact ex_sk_masked|].
  intros before after msg pre post tp Lm Lb.
  assert (EM : subspan (before ++ (pre ++ msg ++ post) ++ after) (zlen before + zlen pre) (zlen msg) = Ok msg).
  { rewrite <- !app_assoc. rewrite (app_assoc before). apply subspan_app; [rewrite zlen_app; reflexivity|reflexivity]. }
  split; [exact EM|]. destruct (ex_sk_signs msg _ tp Lb) as (sig & ES).
  pose proof (C79_sign_overlap ex_G 512 P ex_sk before _ after _ msg tp Lb EM) as G. fold P in ES. rewrite ES in G. eexists. exact G.
Qed.

(* and one that signs any message held right behind the signature buffer, where the spans do not overlap *)
Example C79_disjoint_nonvacuous : let P := raccoon128_params 2 in forall before buf msg tp, zlen buf = p_siglen P ->
  exists mem, sign_at ex_G 512 P ex_sk (before ++ buf ++ msg) (zlen before + p_siglen P) (zlen msg) (zlen before) tp = Ok mem /\
    verify_at ex_G 512 P (sk_pkey ex_sk) mem (zlen before + p_siglen P) (zlen msg) (zlen before) = Ok true.
Proof.
  intros P before buf msg tp Lb.
  assert (EM : subspan (before ++ buf ++ msg) (zlen before + p_siglen P) (zlen msg) = Ok msg).
  { rewrite (app_assoc before). rewrite <- (app_nil_r msg) at 1. apply subspan_app; [rewrite zlen_app, Lb; reflexivity|reflexivity]. }
  destruct (ex_sk_signs msg _ tp Lb) as (sig & ES). pose proof (C79_sign_overlap ex_G 512 P ex_sk before _ _ _ msg tp Lb EM) as G. fold P in ES. rewrite ES in G.
  eexists. split; [exact G|]. destruct C79_nonvacuous as (HP & V & M & _).
  exact (proj2 (C79_disjoint_verifies ex_G 512 P ex_sk before buf msg _ msg tp _ HP V M Lb EM (or_intror (Z.le_refl _)) G)).
Qed.
