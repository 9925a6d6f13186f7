(* Property theorems about memory accesses of the serialization routines. *)
From Coq Require Import ZArith List Bool Lia.
From Verif Require Import ModelBase ModelField ModelUtils ModelPoly ModelVec ModelSerial ModelScheme ModelMem.
From Verif Require Import Spec SpecScheme.
From Verif Require Import BytesProofs MaskedProofs MaskedLemmas KeyLemmas KeyExamples MemProofs MemKeys HashLemmas.
Import ListNotations.
Open Scope Z_scope.

(* C41, signatures: [encode_sig_mem] and [decode_sig_mem] (ModelMem.v) stop with [Oob] at an access
   outside an array and continue with an arbitrary value after any other undefined operation.  For all
   contents of all arrays of the declared sizes, whatever those values are and however long the loops
   run, no access is outside an array and every array keeps its length. *)
Theorem C41_signature_accesses :
  (forall cl nh nz c h z sig, zlen c = cl -> length h = nh -> length z = nz -> cl <= zlen sig < 2 ^ 60 ->
     always (encode_sig_mem cl nh nz c h z sig) (fun r => zlen (snd r) = zlen sig)) /\
  (forall fuel sig c h z, zlen c <= zlen sig < 2 ^ 60 ->
     always (decode_sig_mem fuel sig c h z) (fun '(_, c', h', z') =>
       zlen c' = zlen c /\ zlen h' = zlen h /\ zlen z' = zlen z)).
Proof. exact (conj encode_mem_ok decode_mem_ok). Qed.
Print Assumptions C41_signature_accesses.

(* [always] with any condition excludes accesses outside an array *)
Theorem C41_always_excludes_oob : forall A (p : prog A) R, always p R -> safe p.
Proof. exact @always_safe. Qed.
Print Assumptions C41_always_excludes_oob.

(* C41, the two models agree: whenever the execution in ModelSerial.v returns a value (no undefined
   operation), the execution in ModelMem.v returns the same value, and the decoder never waits. *)
Theorem C41_models_agree :
  (forall c h z sig r, zlen c <= zlen sig -> zlen sig < 2 ^ 60 -> encode_sig c h z sig = Ok r ->
     encode_sig_mem (zlen c) (length h) (length z) c h z sig = Ret r) /\
  (forall sig c h z o fuel, zlen c <= zlen sig < 2 ^ 60 -> (length sig + length h + length z + 66 <= fuel)%nat ->
     decode_sig (zlen c) (length h) (length z) sig = Ok o ->
     match o with
     | Some (c', h', z') => decode_sig_mem fuel sig c h z = Ret (true, c', h', z')
     | None => exists c' h' z', decode_sig_mem fuel sig c h z = Ret (false, c', h', z')
     end).
Proof. exact (conj encode_agree decode_agree). Qed.
Print Assumptions C41_models_agree.

(* C41, keys: in ModelSerial.v every undefined operation, an access outside an array in particular, ends
   the execution with [UB].  For arbitrary coefficients in arrays of the declared sizes and arbitrary
   byte strings of the declared length no execution does, and the outputs have the declared length. *)
Theorem C41_key_accesses : forall P, params_ok P = true ->
  (forall seed t buf, zlen seed = p_kappa P / 8 -> length t = p_k P ->
     Forall (fun row => exists p, row = [p] /\ length p = 512%nat) t -> zlen buf = pk_byte_len P ->
     exists bytes, pk_to_bytes P (Pkey seed t) buf = Ok bytes /\ zlen bytes = pk_byte_len P) /\
  (forall bytes, Forall is_byte bytes -> zlen bytes = pk_byte_len P -> exists pk, pk_from_bytes P bytes = Ok pk) /\
  (forall O fuel seed t s buf tape, zlen seed = p_kappa P / 8 -> length t = p_k P ->
     Forall (fun row => exists p, row = [p] /\ length p = 512%nat) t ->
     length s = p_l P -> Forall (fun row => length row = p_d P /\ Forall (fun p => length p = 512%nat) row) s ->
     zlen buf = sk_byte_len P ->
     sk_to_bytes O fuel P (Skey (Pkey seed t) s) buf (prng_new tape) <> UB /\
     forall bytes p, sk_to_bytes O fuel P (Skey (Pkey seed t) s) buf (prng_new tape) = Ok (bytes, p) ->
       zlen bytes = sk_byte_len P) /\
  (forall O fuel bytes, Forall is_byte bytes -> zlen bytes = sk_byte_len P -> sk_from_bytes O fuel P bytes <> UB).
Proof. exact key_accesses. Qed.
Print Assumptions C41_key_accesses.

(* the signature on which verification has undefined behaviour (C04) is covered: decoding it in
   ModelMem.v reaches an undefined shift, continues with arbitrary words, and stays inside the arrays *)
Example C41_nonvacuous :
  Forall is_byte cut_sig128 /\ zlen cut_sig128 = 11524 /\
  decode_sig 32 (5 * 512) (4 * 512) cut_sig128 = UB /\
  forall fuel, safe (decode_sig_mem fuel cut_sig128 (repeat 0 32) (repeat 0 (5 * 512)) (repeat 0 (4 * 512))).
Proof. exact c41_example. Qed.
(* the checker of accesses is not trivial: with a destination shorter than the hash the encoder leaves it *)
Example C41_can_fail : ~ safe (encode_sig_mem 32 0 0 (repeat 0 32) [] [] (repeat 0 31)).
Proof. cbn. tauto. Qed.
