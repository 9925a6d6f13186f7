(* The calls of one attempt of the signing loop (secret_key.hpp:135-207) and the values they return, in terms of
   SpecSchemeProbe.v and SpecSignProbe.v. *)
From Coq Require Import ZArith List Bool.
From Verif Require Import ModelBase ModelU128 ModelField ModelUtils ModelPoly ModelVec ModelSerial ModelScheme.
From Verif Require Import Spec SpecMask SpecProbe SpecNoiseProbe SpecSchemeProbe SpecSignProbe MaskProg.
Import ListNotations.
Open Scope Z_scope.

(* Ah: the matrix as the program holds it, A: over the ring; mu: message digest; key, noise, masks, challenge of
   the attempt; g, g': mask generators before and after it; pos: position on the random tape before it.
   pv_ntt: shares are held transformed *)
Definition attempt_steps (O : oracles) (fuel : nat) (P : params) (Ah : pmat) (A : list (list (list Z))) (mu : list Z) (tp : nat -> byte) (e : nat)
           (key : nat -> list (list Z)) (M : att_masks) (c : list Z) (pos : nat) (g g' : mrng) : Prop :=
  let l := p_l P in let k := p_k P in let d := p_d P in let rep := p_rep P in let kb := kbytes (p_kappa P) in let rb := (rep * d * kb)%nat in
  let N := stream_noise (hash_of O) (tape_of tp) (p_uw P) kb rep d l pos in
  let rows (f : nat -> list (list Z)) := map f (seq 0 l) in
  let start := rows (start_row e (a_lwe M)) in let nonce := rows (secret_row e rep N (a_lwe M)) in
  let prod := map (product_row e l A (secret_row e rep N (a_lwe M))) (seq 0 k) in let sample := map (sample_row e l rep A N (a_lwe M)) (seq 0 k) in
  exists g1 g2 g3 g4 g5,
  pv_zero_encoding O fuel l d g = Ok (start, g1) /\
  pv_add_rep_noise O fuel (p_uw P) rep (p_kappa P) d start (Prng tp pos) g1 = Ok (nonce, Prng tp (pos + l * rb), g2) /\
  pv_intt (mat_mul k l d Ah (pv_ntt nonce)) = prod /\
  pv_add_rep_noise O fuel (p_uw P) rep (p_kappa P) d prod (Prng tp (pos + l * rb)) g2 = Ok (sample, Prng tp (pos + (l + k) * rb), g3) /\
  chal_poly O fuel (p_omega P) (chal_hash O (p_kappa P) k (pv_rounding_shr (p_nuw P) (pv_decode sample)) mu) = Ok c /\
  pv_refresh O fuel d (pv_ntt (rows key)) g3 = Ok (pv_ntt (rows (key_next e key M)), g4) /\
  pv_refresh O fuel d (pv_ntt nonce) g4 = Ok (pv_ntt (rows (nonce_next e rep N M)), g5) /\
  pv_add (pv_mul_poly (pv_ntt (rows (key_next e key M))) (ntt c)) (pv_ntt (rows (nonce_next e rep N M))) = pv_ntt (rows (resp_in e rep c key N M)) /\
  pv_refresh O fuel d (pv_ntt (rows (resp_in e rep c key N M))) g5 = Ok (pv_ntt (rows (resp_row e rep c key N M)), g') /\
  pv_intt (pv_decode (pv_ntt (rows (resp_row e rep c key N M)))) = map (fun j => [unmask (resp_row e rep c key N M j)]) (seq 0 l) /\
  (* all masks, in the order in which they are drawn; those of key, nonce and response are drawn transformed *)
  drawn_rows O fuel e g (sample_masks rep l k (a_lwe M) ++ map (fun j => map ntt (a_key M j)) (seq 0 l) ++ map (fun j => map ntt (a_nonce M j)) (seq 0 l) ++ map (fun j => map ntt (a_resp M j)) (seq 0 l)) g'.
