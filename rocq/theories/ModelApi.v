(* The public API types (raccoon128.hpp, raccoon192.hpp, raccoon256.hpp): a client that holds one secret
   key object and one public key object and calls the member functions in any order.  The three headers
   differ only in the parameters, which are the argument [P] here (ModelUtils: raccoon128_params, ...). *)
From Coq Require Import ZArith List.
From Coq.Init Require Import Byte.
From Verif Require Import ModelBase ModelUtils ModelVec ModelScheme.
Import ListNotations.
Open Scope Z_scope.

(* calls on the objects; random device outputs and previous contents of destination buffers are
   arguments of the call *)
Inductive api_op : Type :=
| op_refresh                                            (* sk.refresh(), raccoon128.hpp:99 *)
| op_sk_reload (buf : list Z) (tp : nat -> byte)        (* sk.as_bytes(b); sk = raccoon128_skey_t(b), :74-78, :71 *)
| op_pk_reload (buf : list Z)                           (* pk.as_bytes(b); pk = raccoon128_pkey_t(b), :46, :43 *)
| op_get_pkey                                           (* pk = sk.get_pkey(), :90 *)
| op_sign (msg buf : list Z) (tp : nat -> byte)         (* sk.sign(msg, b), :93-96 *)
| op_verify (msg sig : list Z).                         (* pk.verify(msg, sig), :52-55 *)

(* the two objects, the signatures produced so far with their messages, and the results of the calls of
   verify so far *)
Record api_state : Type := Api { a_sk : skey; a_pk : pkey; a_signed : list (list Z * list Z); a_verified : list bool }.

(* raccoon128.hpp:32-100 (and the same lines of raccoon192.hpp, raccoon256.hpp); all member functions
   except refresh are const.  as_bytes of a secret key uses a fresh prng_t (:76). *)
Definition api_step (O : oracles) (fuel : nat) (P : params) (st : api_state) (op : api_op) : res api_state :=
  match op with
  | op_refresh =>
      sk <- sk_refresh O fuel P (a_sk st) ;;
      Ok (Api sk (a_pk st) (a_signed st) (a_verified st))
  | op_sk_reload buf tp =>
      '(bytes, _) <- sk_to_bytes O fuel P (a_sk st) buf (prng_new tp) ;;
      sk <- sk_from_bytes O fuel P bytes ;;
      Ok (Api sk (a_pk st) (a_signed st) (a_verified st))
  | op_pk_reload buf =>
      bytes <- pk_to_bytes P (a_pk st) buf ;;
      pk <- pk_from_bytes P bytes ;;
      Ok (Api (a_sk st) pk (a_signed st) (a_verified st))
  | op_get_pkey => Ok (Api (a_sk st) (sk_pkey (a_sk st)) (a_signed st) (a_verified st))
  | op_sign msg buf tp =>
      sig <- sk_sign O fuel P (a_sk st) msg buf tp ;;
      Ok (Api (a_sk st) (a_pk st) (a_signed st ++ [(msg, sig)]) (a_verified st))
  | op_verify msg sig =>
      b <- verify O fuel P (a_pk st) msg sig ;;
      Ok (Api (a_sk st) (a_pk st) (a_signed st) (a_verified st ++ [b]))
  end.
Definition api_run (O : oracles) (fuel : nat) (P : params) (st : api_state) (ops : list api_op) : res api_state :=
  foldM (api_step O fuel P) ops st.

(* the first two objects: generated from a seed (raccoon128.hpp:84-87), or a secret key read from bytes
   (:71); the public key object is the one held in the secret key (:90) *)
Definition api_generate (O : oracles) (fuel : nat) (P : params) (seed : list Z) (tp : nat -> byte) : res api_state :=
  sk <- sk_generate O fuel P seed tp ;; Ok (Api sk (sk_pkey sk) [] []).
Definition api_load (O : oracles) (fuel : nat) (P : params) (bytes : list Z) : res api_state :=
  sk <- sk_from_bytes O fuel P bytes ;; Ok (Api sk (sk_pkey sk) [] []).
