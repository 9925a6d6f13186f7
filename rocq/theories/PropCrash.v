(* Property theorems about interrupted signing: secret_key.hpp:101-208, serialization.hpp:205-340. *)
From Coq Require Import ZArith List Bool Lia Arith.
From Verif Require Import ModelBase ModelField ModelUtils ModelPoly ModelVec ModelSerial ModelScheme ModelTrace.
From Verif Require Import Spec SpecScheme SpecSig SpecVerify SpecApi SpecTrace.
From Verif Require Import MaskedProofs PolyLemmas MaskedLemmas ParamProofs KeyLemmas ExOracle ExGood KeyExamples SigEnc TraceProofs VerifyProofs SignProofs TraceSign ExSign.
Import ListNotations.
Open Scope Z_scope.

(* The functions with the log of stores compute exactly what the functions without it compute. *)
Theorem C76_log_faithful : forall O fuel P sk msg buf tp c h z out,
  snd (sk_sign_tr O fuel P sk msg buf tp) = sk_sign O fuel P sk msg buf tp /\
  ('(r, _) <- encode_sig_log c h z out ;; Ok r) = encode_sig c h z out.
Proof. intros. split; [apply sign_drop|apply encode_drop]. Qed.
Print Assumptions C76_log_faithful.

(* One call of the encoder, whatever it returns: it stores to the indices 0, 1, 2, ... in this order,
   never twice to one index, and never past the end; interrupted after any number of stores the
   destination holds the first bytes of the encoding followed by what it held before. *)
Theorem C76_encoder_stores : forall c h z buf ok out lg, Forall is_byte c -> (length c <= length buf)%nat ->
  encode_sig_log c h z buf = Ok (ok, out, lg) ->
  in_order lg /\ (length lg <= length buf)%nat /\ begins_encoding c h z (map snd lg) /\
  (forall m, replay (firstn m lg) buf = firstn m (map snd lg) ++ skipn (Nat.min m (length lg)) buf) /\
  out = replay lg buf /\ (ok = true -> length lg = length buf).
Proof.
  intros c h z buf ok out lg Bc Lc E. destruct (encode_log c h z buf ok out lg Bc ltac:(unfold zlen; lia) E) as ((O1 & O2 & O3) & BE & FULL).
  split; [exact O1|]. split; [exact O2|]. split; [exact BE|]. split; [|split; [|exact FULL]].
  - intros m. rewrite replay_in_order; [|apply in_order_firstn; exact O1|rewrite firstn_length; lia]. rewrite firstn_map, firstn_length. reflexivity.
  - rewrite replay_in_order by assumption. exact O3.
Qed.
Print Assumptions C76_encoder_stores.

(* Signing interrupted after any number m of stores to the caller's buffer (also a signing call that never
   returns): the buffer holds the first j bytes of the encoding of some attempt i, followed by what
   attempts 0, ..., i - 1 left there; pass i stores only to 0, 1, 2, ... in this order and only bytes of
   the encoding of attempt i.  A call that returns has stored every byte of the signature in its last
   pass, and the buffer then holds the signature. *)
Theorem C76_crash_points : forall O fuel P sk msg buf tp A pkb s logs r, params_ok P = true ->
  valid_public (Z.to_nat (p_kappa P / 8)) (p_k P) (pk_seed (sk_pkey sk)) (pk_t (sk_pkey sk)) ->
  masked_vec49 (p_l P) (p_d P) (sk_s sk) -> zlen buf = p_siglen P ->
  public_matrix (hash_of O) (pk_seed (sk_pkey sk)) (p_k P) (p_l P) A ->
  public_key_code (pk_seed (sk_pkey sk)) (pk_t (sk_pkey sk)) pkb ->
  Forall is_poly s -> map transform s = map unmask (sk_s sk) ->
  sk_sign_tr O fuel P sk msg buf tp = (logs, r) ->
  let att := sign_attempt (hash_of O) (tape_of tp) (row_of P) A (rows1 (pk_t (sk_pkey sk))) s
               (bound_message (hash_of O) (Z.to_nat (2 * p_kappa P / 8)) pkb msg) in
  (forall i lg, nth_error logs i = Some lg -> exists c cp h z, att i c cp h z /\
     in_order lg /\ (length lg <= length buf)%nat /\ begins_encoding c h z (map snd lg)) /\
  (forall m, exists i j, (j <= length (nth i logs []))%nat /\
     replay (firstn m (concat logs)) buf = firstn j (map snd (nth i logs [])) ++ skipn j (replay (concat (firstn i logs)) buf)) /\
  (forall sig, r = Ok sig -> sig = replay (concat logs) buf /\
     exists logs' lg, logs = logs' ++ [lg] /\ length lg = length buf /\ sig = map snd lg).
Proof.
  intros O fuel P sk msg buf tp A pkb s logs r HP V Hs Lb PM CP Fs Es E att.
  destruct (sign_stores O fuel P sk msg buf tp A pkb s logs r HP V Hs Lb PM CP Fs Es E) as [G1 G2].
  split; [exact G1|]. split; [|exact G2]. intros m. apply (crash_split buf logs buf eq_refl).
  intros i lg H. destruct (G1 i lg H) as (c & cp & h & z & _ & O1 & O2 & _). split; assumption.
Qed.
Print Assumptions C76_crash_points.

(* an encoding of 9 bytes, one that fails after one byte, and the hypotheses of the theorem about signing
   for a key that signs every message *)
Example C76_nonvacuous :
  encode_sig_log [7] [3; -1] [2 ^ 41] (repeat 9 9) =
    Ok (true, [7; 167; 0; 0; 0; 0; 0; 3; 0], [(0, 7); (1, 167); (2, 0); (3, 0); (4, 0); (5, 0); (6, 0); (7, 3); (8, 0)]) /\
  encode_sig_log [7] [3; -1; 1] [2 ^ 41] (repeat 9 5) = Ok (false, [7; 167; 9; 9; 9], [(0, 7); (1, 167)]) /\
  (forall msg tp buf, zlen buf = 11524 -> exists A pkb s logs sig,
     params_ok (raccoon128_params 2) = true /\ valid_public 16 5 (pk_seed (sk_pkey ex_sk)) (pk_t (sk_pkey ex_sk)) /\ masked_vec49 4 2 (sk_s ex_sk) /\
     public_matrix (hash_of ex_G) (pk_seed (sk_pkey ex_sk)) 5 4 A /\ public_key_code (pk_seed (sk_pkey ex_sk)) (pk_t (sk_pkey ex_sk)) pkb /\
     Forall is_poly s /\ map transform s = map unmask (sk_s ex_sk) /\
     sk_sign_tr ex_G 512 (raccoon128_params 2) ex_sk msg buf tp = (logs, Ok sig)).
Proof.
  split; [vm_compute; reflexivity|]. split; [vm_compute; reflexivity|].
  intros msg tp buf Lb. assert (HP : params_ok (raccoon128_params 2) = true) by (vm_compute; reflexivity).
  assert (M : masked_vec49 4 2 (sk_s ex_sk)) by (apply masked_49; exact ex_sk_masked).
  destruct (ex_sk_signs msg buf tp Lb) as (sig & E).
  pose proof (sign_spec_exact True 0 ex_G 512 (raccoon128_params 2) ex_sk msg buf tp HP ex_sk_public M Lb (or_intror Logic.I)) as S.
  rewrite E in S. destruct S as (_ & _ & _ & A & pkb & s & PM & CP & Fs & Es & _).
  pose proof (sign_drop ex_G 512 (raccoon128_params 2) ex_sk msg buf tp) as D. rewrite E in D.
  destruct (sk_sign_tr ex_G 512 (raccoon128_params 2) ex_sk msg buf tp) as [logs r]. cbn [snd] in D. subst r.
  exists A, pkb, s, logs, sig. split; [exact HP|]. split; [exact ex_sk_public|]. split; [exact M|]. split; [exact PM|]. split; [exact CP|]. split; [exact Fs|]. split; [exact Es|reflexivity].
Qed.
