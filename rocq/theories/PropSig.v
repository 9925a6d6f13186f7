(* Property theorems about the signature encoding and the norm check: serialization.hpp:205-538,
   signature.hpp:88-166. *)
From Coq Require Import ZArith List Bool Lia.
From Verif Require Import ModelBase ModelField ModelUtils ModelPoly ModelVec ModelSerial ModelScheme.
From Verif Require Import Spec SpecScheme SpecSig.
From Verif Require Import SigEnc SigDec2 SigLemmas NormProofs.
Import ListNotations.
Open Scope Z_scope.

(* a small signature used in the examples below: 2 challenge bytes, 3 hints, 3 responses *)
Definition ex_h : list Z := [3; -1; 0].
Definition ex_z : list Z := [5; -2199023255555; 0].
Definition ex_bytes : list Z := [7; 9; 167; 10; 0; 0; 0; 0; 24; 0; 0; 0; 0; 88; 0; 0; 0; 0; 0; 0; 0; 0; 0; 0].
Example ex_encode : encode_sig [7; 9] ex_h ex_z (repeat 171 24) = Ok (true, ex_bytes).
Proof. vm_compute. reflexivity. Qed.
Example ex_decode : decode_sig 2 3 3 ex_bytes = Ok (Some ([7; 9], ex_h, ex_z)).
Proof. vm_compute. reflexivity. Qed.

(* C05: whatever byte string decodes, it is the canonical encoding of the decoded values (including
   zero padding up to its end) and has the requested dimensions; two byte strings of the same length
   that decode to the same values are equal. *)
Theorem C05_not_malleable :
  (forall cl nh nz bytes c h z, Forall is_byte bytes -> 0 <= cl < zlen bytes ->
     decode_sig cl nh nz bytes = Ok (Some (c, h, z)) ->
     zlen c = cl /\ Forall is_byte c /\ length h = nh /\ length z = nz /\ windows_fit h z /\
     signature_code c h z bytes) /\
  (forall cl nh nz a b r, Forall is_byte a -> Forall is_byte b -> 0 <= cl < zlen a -> zlen a = zlen b ->
     decode_sig cl nh nz a = Ok (Some r) -> decode_sig cl nh nz b = Ok (Some r) -> a = b).
Proof.
  split; [|exact decode_injective].
  intros cl nh nz bytes c h z Hb Hc E. pose proof (decode_sound cl nh nz bytes Hb Hc) as S. rewrite E in S. exact S.
Qed.
Print Assumptions C05_not_malleable.
Example C05_nonvacuous : Forall is_byte ex_bytes /\ decode_sig 2 3 3 ex_bytes = Ok (Some ([7; 9], ex_h, ex_z)) /\
  (* one flipped padding bit, or one set bit behind the last code word, is rejected *)
  decode_sig 2 3 3 (firstn 23 ex_bytes ++ [1]) = Ok None /\
  decode_sig 2 3 3 (firstn 14 ex_bytes ++ [5] ++ skipn 15 ex_bytes) <> Ok (Some ([7; 9], ex_h, ex_z)).
Proof.
  split; [repeat constructor; unfold is_byte; lia|]. split; [exact ex_decode|]. split; [vm_compute; reflexivity|vm_compute; discriminate].
Qed.

(* C06: a successful encoding decodes to exactly the encoded values (signatures have at least two
   response coefficients; every parameter set has at least 2048). *)
Theorem C06_encode_decode : forall c h z buf bytes, Forall is_byte c -> zlen c <= zlen buf -> (2 <= length z)%nat ->
  encode_sig c h z buf = Ok (true, bytes) ->
  decode_sig (zlen c) (length h) (length z) bytes = Ok (Some (c, h, z)).
Proof. exact encode_decode. Qed.
Print Assumptions C06_encode_decode.
Example C06_nonvacuous : encode_sig [7; 9] ex_h ex_z (repeat 171 24) = Ok (true, ex_bytes) /\
  decode_sig 2 3 3 ex_bytes = Ok (Some ([7; 9], ex_h, ex_z)).
Proof. exact (conj ex_encode ex_decode). Qed.

(* C07: for hints up to 54 and responses below 2^43 in absolute value, encoding reports success
   exactly if the code words fit, and then the bytes are the canonical encoding, whatever the
   destination held before; otherwise it reports failure. *)
Theorem C07_encoding_exact : forall c h z buf, Forall is_byte c -> zlen c <= zlen buf -> z <> [] ->
  Forall (fun x => Z.abs x <= 54) h -> Forall (fun x => Z.abs x < 2 ^ 43) z ->
  (8 * Z.of_nat (length c) + Z.of_nat (length (sig_code h z)) <= 8 * Z.of_nat (length buf) ->
     exists bytes, encode_sig c h z buf = Ok (true, bytes) /\ length bytes = length buf /\
       Forall is_byte bytes /\ signature_code c h z bytes /\
       forall buf', length buf' = length buf -> encode_sig c h z buf' = Ok (true, bytes)) /\
  (8 * Z.of_nat (length buf) < 8 * Z.of_nat (length c) + Z.of_nat (length (sig_code h z)) ->
     exists out, encode_sig c h z buf = Ok (false, out) /\ length out = length buf).
Proof. exact encode_exact_small. Qed.
Print Assumptions C07_encoding_exact.
Example C07_nonvacuous :
  Forall (fun x => Z.abs x <= 54) ex_h /\ Forall (fun x => Z.abs x < 2 ^ 43) ex_z /\
  encode_sig [7; 9] ex_h ex_z (repeat 171 24) = Ok (true, ex_bytes) /\
  exists out, encode_sig [7; 9] ex_h ex_z (repeat 171 18) = Ok (false, out).
Proof.
  split; [repeat constructor; cbn; lia|]. split; [repeat constructor; cbn; lia|]. split; [exact ex_encode|].
  eexists. vm_compute. reflexivity.
Qed.

(* C08 is false: responses that satisfy all norm bounds of Raccoon-128 and whose code words fit the
   signature length are never encoded successfully (one coefficient 30 * 2^40 needs more bits than the
   64-bit buffer has). *)
Theorem C08_every_response_encodes_refuted : exists h z,
  length h = (5 * 512)%nat /\ length z = (4 * 512)%nat /\
  norms_ok 44 (p_Binf (raccoon128_params 1)) (p_B22 (raccoon128_params 1)) h z /\
  8 * 32 + Z.of_nat (length (sig_code h z)) <= 8 * p_siglen (raccoon128_params 1) /\
  forall c buf bytes, Forall is_byte c -> length c = 32%nat -> Z.of_nat (length buf) = p_siglen (raccoon128_params 1) ->
    encode_sig c h z buf <> Ok (true, bytes).
Proof. exact (ex_intro _ c08_h (ex_intro _ c08_z c08_counter)). Qed.
Print Assumptions C08_every_response_encodes_refuted.

(* C08, what holds: success is possible only if every code word fits the bit buffer (buffer_fits), and
   if it does and the bits fit the length, encoding succeeds without undefined behaviour and decoding
   returns the same values. *)
Theorem C08_every_response_encodes_partial :
  (forall c h z buf bytes, Forall is_byte c -> zlen c <= zlen buf -> z <> [] ->
     encode_sig c h z buf = Ok (true, bytes) ->
     buffer_fits h z /\ 8 * Z.of_nat (length c) + Z.of_nat (length (sig_code h z)) <= 8 * Z.of_nat (length buf)) /\
  (forall c h z buf, Forall is_byte c -> zlen c <= zlen buf -> (2 <= length z)%nat -> buffer_fits h z ->
     8 * Z.of_nat (length c) + Z.of_nat (length (sig_code h z)) <= 8 * Z.of_nat (length buf) ->
     exists bytes, encode_sig c h z buf = Ok (true, bytes) /\ length bytes = length buf /\
       decode_sig (zlen c) (length h) (length z) bytes = Ok (Some (c, h, z))) /\
  (forall h z, Forall (fun x => Z.abs x <= 54) h -> Forall (fun x => Z.abs x < 2 ^ 43) z -> z <> [] -> buffer_fits h z).
Proof. exact (conj encode_needs_buffer (conj encode_lossless small_buffer_fits)). Qed.
Print Assumptions C08_every_response_encodes_partial.
Example C08_nonvacuous : buffer_fits ex_h ex_z /\
  8 * Z.of_nat (length [7; 9]) + Z.of_nat (length (sig_code ex_h ex_z)) <= 8 * Z.of_nat (length (repeat 171 24)).
Proof.
  split; [|vm_compute; discriminate]. apply small_buffer_fits; [repeat constructor; cbn; lia|repeat constructor; cbn; lia|discriminate].
Qed.

(* C29: for every parameter set, every hint vector of 64-bit integers other than the minimum and every
   centred response vector of the right length, the check has no undefined behaviour and accepts
   exactly if all three bounds hold. *)
Theorem C29_norm_check_exact : forall P s, params_ok P = true ->
  length (sg_h s) = (p_k P * 512)%nat -> length (sg_z s) = (p_l P * 512)%nat ->
  Forall (fun x => - two63 < x < two63) (sg_h s) -> Forall (fun x => - (q / 2) <= x <= q / 2) (sg_z s) ->
  exists b, check_bounds (p_nuw P) (p_Binf P) (p_B22 P) s = Ok b /\
    (b = true <-> norms_ok (p_nuw P) (p_Binf P) (p_B22 P) (sg_h s) (sg_z s)).
Proof. exact check_bounds_params. Qed.
Print Assumptions C29_norm_check_exact.
Example C29_nonvacuous :
  params_ok (raccoon128_params 2) = true /\ length c08_h = (p_k (raccoon128_params 2) * 512)%nat /\
  length c08_z = (p_l (raccoon128_params 2) * 512)%nat /\
  norms_ok 44 (p_Binf (raccoon128_params 2)) (p_B22 (raccoon128_params 2)) c08_h c08_z /\
  (* the Euclidean bound is not implied by the two others *)
  ~ norms_ok 44 (p_Binf (raccoon128_params 2)) (p_B22 (raccoon128_params 2)) (repeat 0 2560) (repeat (2 ^ 45) 2048).
Proof. exact c29_example. Qed.
