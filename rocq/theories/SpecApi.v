(* Vocabulary for statements about histories of API calls. *)
From Coq Require Import ZArith List.
From Coq.Init Require Byte.
From Verif Require Import ModelBase ModelUtils ModelVec ModelScheme ModelApi.
From Verif Require Import Spec.
Import ListNotations.
Open Scope Z_scope.

(* the buffers passed to a call have the static size of the span types *)
Definition op_ok (P : params) (op : api_op) : Prop :=
  match op with
  | op_sk_reload buf _ => zlen buf = sk_byte_len P
  | op_pk_reload buf => zlen buf = pk_byte_len P
  | op_sign _ buf _ => zlen buf = p_siglen P
  | op_verify _ sig => zlen sig = p_siglen P /\ Forall is_byte sig
  | _ => True
  end.
(* messages signed by a call; message and signature pairs verified by a call *)
Definition signs (op : api_op) : list (list Z) := match op with op_sign msg _ _ => [msg] | _ => [] end.
Definition verifies (op : api_op) : list (list Z * list Z) := match op with op_verify msg sig => [(msg, sig)] | _ => [] end.
(* objects made by generate or read from bytes *)
Definition api_start (O : oracles) (fuel : nat) (P : params) (st : api_state) : Prop :=
  (exists seed tp, Forall is_byte seed /\ length seed = Z.to_nat (p_kappa P / 8) /\ api_generate O fuel P seed tp = Ok st) \/
  (exists bytes, Forall is_byte bytes /\ zlen bytes = sk_byte_len P /\ api_load O fuel P bytes = Ok st).

(* the calls of a history that have a visible result: signing (message and random tape) and verifying *)
Inductive visible_call : Type :=
| vis_sign (msg : list Z) (tp : nat -> Byte.byte)
| vis_verify (msg sig : list Z).
Definition visible (op : api_op) : list visible_call :=
  match op with op_sign msg _ tp => [vis_sign msg tp] | op_verify msg sig => [vis_verify msg sig] | _ => [] end.
