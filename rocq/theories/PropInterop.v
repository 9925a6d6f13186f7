(* Property theorem about keys and signatures of different masking orders. *)
From Coq Require Import ZArith List Bool Lia.
From Verif Require Import ModelBase ModelField ModelUtils ModelPoly ModelVec ModelSerial ModelScheme.
From Verif Require Import Spec SpecScheme SpecSig SpecVerify.
From Verif Require Import ArithLemmas ParamProofs KeyLemmas KeyExamples SignVerify ExGood ExSign.
Import ListNotations.
Open Scope Z_scope.
Ltac Zify.zify_post_hook ::= idtac.

(* C70: within a security level the number of shares is invisible outside the signer: public keys and signatures have
   the same lengths, the same encodings and the same verdicts, so bytes signed with d shares verify under the exported
   public key with d' shares.  Between levels the lengths of public keys and of signatures differ, and the length of an
   exported secret key determines level and number of shares. *)
Theorem C70_interoperability : forall P P', params_ok P = true -> params_ok P' = true ->
  (p_kappa P = p_kappa P' ->
     pk_byte_len P = pk_byte_len P' /\ p_siglen P = p_siglen P' /\
     (forall pk buf, pk_to_bytes P pk buf = pk_to_bytes P' pk buf) /\
     (forall bytes, pk_from_bytes P bytes = pk_from_bytes P' bytes) /\
     (forall O fuel pk msg sig, verify O fuel P pk msg sig = verify O fuel P' pk msg sig) /\
     (forall O fuel sk msg buf tp sig pkbuf,
        valid_public (Z.to_nat (p_kappa P / 8)) (p_k P) (pk_seed (sk_pkey sk)) (pk_t (sk_pkey sk)) ->
        masked_vec49 (p_l P) (p_d P) (sk_s sk) -> zlen buf = p_siglen P -> zlen pkbuf = pk_byte_len P ->
        sk_sign O fuel P sk msg buf tp = Ok sig ->
        exists bytes pk', pk_to_bytes P (sk_pkey sk) pkbuf = Ok bytes /\ pk_from_bytes P' bytes = Ok pk' /\
          verify O fuel P' pk' msg sig = Ok true)) /\
  (p_kappa P <> p_kappa P' -> pk_byte_len P <> pk_byte_len P' /\ p_siglen P <> p_siglen P') /\
  (sk_byte_len P = sk_byte_len P' -> P = P').
Proof.
  intros P P' HP HP'.
  assert (EQ : p_kappa P = p_kappa P' -> p_k P = p_k P' /\ p_l P = p_l P' /\ p_nut P = p_nut P' /\ p_nuw P = p_nuw P' /\
    p_omega P = p_omega P' /\ p_siglen P = p_siglen P' /\ p_Binf P = p_Binf P' /\ p_B22 P = p_B22 P').
  { destruct (params_ok_cases P HP) as (d & _ & [->|[->| ->]]); destruct (params_ok_cases P' HP') as (d' & _ & [->|[->| ->]]);
      intros E; solve [discriminate E|repeat split]. }
  split; [|split].
  - intros E. destruct (EQ E) as (Ek & El & Et & Ew & Eo & Es & Ei & E2).
    assert (EPL : pk_byte_len P = pk_byte_len P') by (unfold pk_byte_len; rewrite E, Ek, Et; reflexivity).
    assert (EPT : forall pk buf, pk_to_bytes P pk buf = pk_to_bytes P' pk buf) by (intros; unfold pk_to_bytes; rewrite Et; reflexivity).
    assert (EPF : forall bytes, pk_from_bytes P bytes = pk_from_bytes P' bytes) by (intros; unfold pk_from_bytes; rewrite E, Ek, Et; reflexivity).
    assert (EV : forall O fuel pk msg sig, verify O fuel P pk msg sig = verify O fuel P' pk msg sig).
    { intros. unfold verify, bind_msg. rewrite E, Ek, El, Et, Ew, Eo, Ei, E2, EPT, EPL. reflexivity. }
    split; [exact EPL|]. split; [exact Es|]. split; [exact EPT|]. split; [exact EPF|]. split; [exact EV|].
    intros O fuel sk msg buf tp sig pkbuf V M Lb Lp ES.
    destruct (sign_verifies O fuel P sk msg buf tp sig HP V M Lb ES) as (_ & _ & _ & H).
    destruct (pk_key_roundtrip P (sk_pkey sk) pkbuf HP V Lp) as (bytes & E1 & _ & _ & _ & E2').
    exists bytes, (sk_pkey sk). split; [exact E1|]. split; [rewrite <- EPF; exact E2'|]. rewrite <- EV. exact H.
  - intros N. pose proof (byte_lengths P HP) as B. pose proof (byte_lengths P' HP') as B'. lia.
  - intros E. pose proof (byte_lengths P HP) as B. pose proof (byte_lengths P' HP') as B'.
    assert (Hd : 1 <= Z.of_nat (p_d P) <= 32 /\ 1 <= Z.of_nat (p_d P') <= 32).
    { destruct (params_ok_cases P HP) as (d & Hd & C). destruct (params_ok_cases P' HP') as (d' & Hd' & C').
      assert (X : p_d P = d /\ p_d P' = d') by (destruct C as [->|[->| ->]]; destruct C' as [->|[->| ->]]; split; reflexivity).
      destruct X as [-> ->]. cbn [dvals In] in Hd, Hd'. lia. }
    assert (K : p_kappa P = p_kappa P' /\ p_d P = p_d P') by lia. destruct K as [K D].
    apply params_ok_rows in HP. apply params_ok_rows in HP'.
    assert (R : row_of P = row_of P') by (apply row_key; [assumption|assumption|exact K|cbn; lia]).
    destruct P, P'. unfold row_of in R. cbn in R. inversion R. f_equal; lia.
Qed.
Print Assumptions C70_interoperability.
(* a Raccoon-128 key with two shares signs every message; the signature verifies with 32 shares *)
Example C70_nonvacuous : forall msg tp, let P := raccoon128_params 2 in let P' := raccoon128_params 32 in
  params_ok P = true /\ params_ok P' = true /\ P <> P' /\ p_kappa P = p_kappa P' /\
  exists sig bytes pk', sk_sign ex_G 512 P ex_sk msg (repeat 171 (Z.to_nat 11524)) tp = Ok sig /\
    pk_to_bytes P (sk_pkey ex_sk) (repeat 7 (Z.to_nat 2256)) = Ok bytes /\ pk_from_bytes P' bytes = Ok pk' /\
    verify ex_G 512 P' pk' msg sig = Ok true.
Proof.
  intros msg tp P P'. assert (HP : params_ok P = true) by (vm_compute; reflexivity). assert (HP' : params_ok P' = true) by (vm_compute; reflexivity).
  split; [exact HP|]. split; [exact HP'|]. split; [intros E; apply (f_equal p_d) in E; discriminate E|]. split; [reflexivity|].
  assert (Lb : zlen (repeat 171 (Z.to_nat 11524)) = 11524) by (unfold zlen; rewrite repeat_length; apply Z2Nat.id; lia).
  assert (Lp : zlen (repeat 7 (Z.to_nat 2256)) = pk_byte_len P) by (unfold zlen; rewrite repeat_length, Z2Nat.id by lia; reflexivity).
  destruct (ex_sk_signs msg _ tp Lb) as (sig & ES).
  destruct (C70_interoperability P P' HP HP') as [H _]. destruct (H eq_refl) as (_ & _ & _ & _ & _ & G).
  destruct (G ex_G 512%nat ex_sk msg _ tp sig _ ex_sk_public (masked_49 _ _ _ ex_sk_masked) Lb Lp ES) as (bytes & pk' & E1 & E2 & E3).
  exists sig, bytes, pk'. split; [exact ES|]. split; [exact E1|]. split; [exact E2|exact E3].
Qed.
