(* Property theorem about repeated randomness. *)
From Coq Require Import ZArith List Bool Lia.
From Verif Require Import ModelBase ModelField ModelUtils ModelPoly ModelVec ModelSerial ModelScheme.
From Verif Require Import Spec SpecScheme SpecSig SpecVerify SpecReuse.
From Verif Require Import ParamProofs KeyExamples ExGood ExSign ReuseProofs ExReuse.
Import ListNotations.
Open Scope Z_scope.

(* C71: two signatures of one key made from the same output of the random device: each is the first acceptable
   attempt, and if the same attempt was accepted in both calls then the difference of the two responses is the secret
   times the difference of the two challenges; if that difference has an inverse u, the secret is the product with u,
   computed from the two signatures alone. *)
Theorem C71_repeated_randomness : forall O fuel fuel' P sk msg msg' buf buf' tp sig sig', params_ok P = true ->
  valid_public (Z.to_nat (p_kappa P / 8)) (p_k P) (pk_seed (sk_pkey sk)) (pk_t (sk_pkey sk)) ->
  masked_vec49 (p_l P) (p_d P) (sk_s sk) -> zlen buf = p_siglen P -> zlen buf' = p_siglen P ->
  sk_sign O fuel P sk msg buf tp = Ok sig -> sk_sign O fuel' P sk msg' buf' tp = Ok sig' ->
  exists A pkb s,
    public_matrix (hash_of O) (pk_seed (sk_pkey sk)) (p_k P) (p_l P) A /\
    public_key_code (pk_seed (sk_pkey sk)) (pk_t (sk_pkey sk)) pkb /\
    Forall is_poly s /\ map transform s = map unmask (sk_s sk) /\
    let first m := first_accepted (hash_of O) (tape_of tp) (row_of P) A (rows1 (pk_t (sk_pkey sk))) s
                     (bound_message (hash_of O) (Z.to_nat (2 * p_kappa P / 8)) pkb m) in
    exists n c cp h z n' c' cp' h' z', first msg n c cp h z /\ first msg' n' c' cp' h' z' /\
      signature_code c h z sig /\ signature_code c' h' z' sig' /\
      (n = n' ->
       response_difference (p_l P) z z' = map (fun si => ring_mul si (ring_sub cp cp')) s /\
       forall u, is_poly u -> ring_mul (ring_sub cp cp') u = 1 :: repeat 0 511 ->
         s = map (fun x => ring_mul x u) (response_difference (p_l P) z z')).
Proof. exact same_randomness. Qed.
Print Assumptions C71_repeated_randomness.
(* a hash function and a key with a secret different from zero such that for every tape the messages (0) and (1) are
   signed at the same (first) attempt and the difference of the challenges has an inverse *)
Example C71_nonvacuous : forall tp, let P := raccoon128_params 2 in let buf := repeat 171 (Z.to_nat 11524) in
  params_ok P = true /\ valid_public 16 5 (pk_seed (sk_pkey ex_sk)) (pk_t (sk_pkey ex_sk)) /\ masked_vec49 4 2 (sk_s ex_sk) /\
  zlen buf = 11524 /\
  (exists sig, sk_sign ex_R 512 P ex_sk [0] buf tp = Ok sig) /\ (exists sig, sk_sign ex_R 512 P ex_sk [1] buf tp = Ok sig) /\
  forall A pkb s n c cp h z n' c' cp' h' z',
    public_matrix (hash_of ex_R) (pk_seed (sk_pkey ex_sk)) 5 4 A ->
    public_key_code (pk_seed (sk_pkey ex_sk)) (pk_t (sk_pkey ex_sk)) pkb ->
    Forall is_poly s -> map transform s = map unmask (sk_s ex_sk) ->
    let first m := first_accepted (hash_of ex_R) (tape_of tp) (row_of P) A (rows1 (pk_t (sk_pkey ex_sk))) s
                     (bound_message (hash_of ex_R) 32 pkb m) in
    first [0] n c cp h z -> first [1] n' c' cp' h' z' ->
    n = n' /\ exists u, is_poly u /\ ring_mul (ring_sub cp cp') u = 1 :: repeat 0 511.
Proof.
  intros tp P buf. assert (Lb : zlen buf = 11524) by (unfold zlen, buf; rewrite repeat_length; apply Z2Nat.id; discriminate).
  split; [vm_compute; reflexivity|]. split; [exact ex_sk_public|]. split; [exact (masked_49 _ _ _ ex_sk_masked)|]. split; [exact Lb|].
  split; [apply exR_signs, Lb|]. split; [apply exR_signs, Lb|].
  intros A pkb s n c cp h z n' c' cp' h' z' PM Cpk Fs Es first F0 F1.
  destruct (exR_first tp pkb A s 0 n c cp h z Cpk PM Fs Es F0) as [-> E0]. destruct (exR_first tp pkb A s 1 n' c' cp' h' z' Cpk PM Fs Es F1) as [-> E1].
  split; [reflexivity|]. rewrite E0, E1. exact (ex_intro _ _ ex_ch_unit).
Qed.
