(* Property theorems about what an observer of branches and addresses sees. *)
From Coq Require Import ZArith List Bool Lia.
From Verif Require Import ModelBase ModelU128 ModelField ModelUtils ModelPoly ModelVec ModelSerial ModelScheme ModelLeak ModelLeakSign.
From Verif Require Import Spec SpecScheme.
From Verif Require Import LeakProofs LeakRel LeakValues LeakSign LeakFull LeakPack ParamProofs ExOracle ExGood KeyExamples ExSign SigEnc KeyLemmas.
Import ListNotations.
Open Scope Z_scope.

(* C44.  The theorems below speak about ModelLeak.v, in which every operation on a word appends an
   event to a trace: which operation, which array position, the direction of every conditional jump
   and every array index computed from data.  [fst] is the value computed, [snd] the trace.
   The duration of a single instruction, what the compiler makes of the code and the caches are not
   modelled. *)

(* comparison of byte arrays: the trace is a function of the length alone *)
Theorem C44_comparison :
  (forall O a a' b b', length a = length a' ->
     snd (ct_eq_byte_array_l (zm O) a b) = snd (ct_eq_byte_array_l (zm O) a' b')) /\
  (forall O a b, fst (ct_eq_byte_array_l (zm O) a b) = Ok (ct_eq_byte_array a b)) /\
  (forall O a a' b b', snd (poly_eqb_l (zm O) a b) = snd (poly_eqb_l (zm O) a' b')) /\
  (forall O a b, fst (poly_eqb_l (zm O) a b) = Ok (b2z (poly_eqb a b))) /\
  (forall O d a a' b b', snd (mp_eqb_l (zm O) d a b) = snd (mp_eqb_l (zm O) d a' b')) /\
  (forall O d a b, length b = d -> fst (mp_eqb_l (zm O) d a b) = Ok (b2z (mp_eqb a b))).
Proof.
  split; [intros O a a' b b' L; exact (rel_snd any _ _ (ct_eq_n O a a' b b' L))|].
  split; [intros O a b; destruct (ct_eq_c (length a)) as [t H]; rewrite (H O a b eq_refl); reflexivity|].
  split; [intros O a a' b b'; exact (rel_snd any _ _ (poly_eqb_n O a a' b b'))|].
  split; [intros O a b; destruct poly_eqb_c as [t H]; rewrite (H O a b); reflexivity|].
  split; [intros O d a a' b b'; exact (rel_snd any _ _ (mp_eqb_n O d a a' b b'))|].
  intros O d a b L. exact (mp_eqb_v O d a b L).
Qed.
Print Assumptions C44_comparison.

(* arithmetic modulo q: same trace for all operands, reduced or not *)
Theorem C44_field :
  (forall O a a' b b', snd (zq_add_l (zm O) a b) = snd (zq_add_l (zm O) a' b')) /\
  (forall O a a' b b', snd (zq_sub_l (zm O) a b) = snd (zq_sub_l (zm O) a' b')) /\
  (forall O a a' b b', snd (zq_mul_l (zm O) a b) = snd (zq_mul_l (zm O) a' b')) /\
  (forall O n a a', snd (zq_shl_l (zm O) n a) = snd (zq_shl_l (zm O) n a')) /\
  (forall O a b, fst (zq_add_l (zm O) a b) = Ok (zq_add a b) /\ fst (zq_sub_l (zm O) a b) = Ok (zq_sub a b) /\
                 fst (zq_mul_l (zm O) a b) = Ok (zq_mul a b)) /\
  (forall O n a, fst (zq_shl_l (zm O) n a) = Ok (zq_shl a n)).
Proof.
  split; [intros; apply (rel_snd any); apply zq_add_n|]. split; [intros; apply (rel_snd any); apply zq_sub_n|]. split; [intros; apply (rel_snd any); apply zq_mul_n|]. split; [intros; apply (rel_snd any); apply zq_shl_n|]. split.
  - intros O a b. destruct zq_add_c as [t1 H1], zq_sub_c as [t2 H2], zq_mul_c as [t3 H3]. rewrite (H1 O a b), (H2 O a b), (H3 O a b). repeat split.
  - intros O n a. destruct (zq_shl_c n) as [t H]. rewrite (H O a). reflexivity.
Qed.
Print Assumptions C44_field.

(* polynomials and masked polynomials with d shares: same trace whatever the contents *)
Theorem C44_masked_operations : forall O d,
  (forall a a', snd (ntt_l (zm O) a) = snd (ntt_l (zm O) a') /\ snd (intt_l (zm O) a) = snd (intt_l (zm O) a')) /\
  (forall a a' b b', snd (mp_add_l (zm O) d a b) = snd (mp_add_l (zm O) d a' b') /\
     snd (mp_sub_l (zm O) d a b) = snd (mp_sub_l (zm O) d a' b')) /\
  (forall c c' a a', snd (mp_mul_poly_l (zm O) d c a) = snd (mp_mul_poly_l (zm O) d c' a')) /\
  (forall n a a', snd (mp_shl_l (zm O) d n a) = snd (mp_shl_l (zm O) d n a') /\
     snd (mp_rounding_shr_l (zm O) d n a) = snd (mp_rounding_shr_l (zm O) d n a') /\
     snd (mp_ntt_l (zm O) d a) = snd (mp_ntt_l (zm O) d a') /\ snd (mp_intt_l (zm O) d a) = snd (mp_intt_l (zm O) d a') /\
     snd (mp_decode_l (zm O) d a) = snd (mp_decode_l (zm O) d a')) /\
  (forall rows cols A A' v v', snd (mat_mul_l (zm O) rows cols d A v) = snd (mat_mul_l (zm O) rows cols d A' v')).
Proof.
  intros O d. split; [intros; split; [apply (rel_snd any); apply ntt_n|apply (rel_snd any); apply intt_n]|]. split; [intros; split; [apply (rel_snd any); apply mp_add_n|apply (rel_snd any); apply mp_sub_n]|].
  split; [intros; apply (rel_snd any); apply mp_mul_poly_n|]. split.
  - intros n a a'. split; [apply (rel_snd any); apply mp_shl_n|]. split; [apply (rel_snd any); apply mp_rshr_n|]. split; [apply (rel_snd any); apply mp_ntt_n|]. split; [apply (rel_snd any); apply mp_intt_n|apply (rel_snd any); apply mp_decode_n].
  - intros. apply (rel_snd any); apply mat_mul_n.
Qed.
Print Assumptions C44_masked_operations.
(* .. and they compute what the model computes, on arrays of the declared sizes *)
Theorem C44_masked_values : forall O d a b c, let sized x := length x = d /\ Forall (fun p : list Z => length p = 512%nat) x in
  sized a -> sized b -> length c = 512%nat ->
  fst (mp_add_l (zm O) d a b) = Ok (mp_add a b) /\ fst (mp_sub_l (zm O) d a b) = Ok (mp_sub a b) /\
  fst (mp_mul_poly_l (zm O) d c a) = Ok (map (fun s => poly_mul s c) a) /\
  (forall n, fst (mp_shl_l (zm O) d n a) = Ok (mp_shl n a) /\ fst (mp_rounding_shr_l (zm O) d n a) = Ok (mp_rounding_shr n a)) /\
  fst (mp_ntt_l (zm O) d a) = Ok (mp_ntt a) /\ fst (mp_intt_l (zm O) d a) = Ok (mp_intt a) /\
  fst (mp_decode_l (zm O) d a) = Ok (mp_decode a).
Proof.
  intros O d a b c sized Ha Hb Hc. split; [exact (mp_add_v O d a b Ha Hb)|]. split; [exact (mp_sub_v O d a b Ha Hb)|]. split; [exact (mp_mul_poly_v O d c a Hc Ha)|].
  split; [intros n; split; [exact (mp_shl_v O d n a Ha)|exact (mp_rshr_v O d n a Ha)]|]. split; [exact (mp_ntt_v O d a Ha)|]. split; [exact (mp_intt_v O d a Ha)|exact (proj1 (mp_decode_v O d a Ha))].
Qed.
Print Assumptions C44_masked_values.

(* refreshing and adding noise: the trace depends on the state of the masked generator (whose rejection
   sampling branches), but neither on the shares nor on the seeds read from the system generator *)
Theorem C44_refresh_and_noise : forall O fuel d g,
  (forall a a', snd (mp_refresh_l (zm O) fuel d a g) = snd (mp_refresh_l (zm O) fuel d a' g)) /\
  (forall u rep kappa idx a a' p p',
     snd (mp_add_rep_noise_l (zm O) fuel u rep kappa d idx a p g) = snd (mp_add_rep_noise_l (zm O) fuel u rep kappa d idx a' p' g)) /\
  (forall a, length a = d -> Forall (fun x : list Z => length x = 512%nat) a ->
     fst (mp_refresh_l (zm O) fuel d a g) = mp_refresh O fuel d a g /\
     forall u rep kappa idx p,
       fst (mp_add_rep_noise_l (zm O) fuel u rep kappa d idx a p g) = mp_add_rep_noise O fuel u rep kappa d idx a p g).
Proof.
  intros O fuel d g. split; [intros; apply (rel_snd same_g); apply mp_refresh_n|]. split; [intros; eapply rel_snd; apply mp_noise_n|]. intros a L F.
  split; [apply refresh_v; split; assumption|]. intros. apply mp_noise_v. split; assumption.
Qed.
Print Assumptions C44_refresh_and_noise.

(* key generation, all of it after the expansion of the public matrix: the trace is the same for all
   random tapes, hence for all keys *)
Theorem C44_key_generation : forall O fuel P seed A, params_ok P = true ->
  expandA O fuel (p_k P) (p_l P) seed = Ok A ->
  let run tp := generate_l (zm O) fuel P A (prng_new tp) (mrng_new O (p_d P)) in
  (forall tp tp', snd (run tp) = snd (run tp')) /\
  (forall tp, sk_generate O fuel P seed tp = ('(t, s) <- fst (run tp) ;; Ok (Skey (Pkey seed t) s))).
Proof.
  intros O fuel P seed A HP E run. destruct (params_kl P HP) as [Hk Hl].
  pose proof (expandA_aok O fuel (p_k P) (p_l P) seed A Hk Hl E) as HA.
  split; [intros; apply (rel_snd any); apply generate_n|]. intros tp. apply generate_split; assumption.
Qed.
Print Assumptions C44_key_generation.

(* signing, one attempt: the commitment and the response have traces that depend on the state of the
   masked generator only - not on the secret key s, the mask r, the seeds of the noise or the
   challenge.  They are what the signing loop of the model executes. *)
Theorem C44_signing_attempt : forall O wfuel P A, params_ok P = true ->
  length A = (p_k P * p_l P)%nat -> Forall (fun a : list Z => length a = 512%nat) A ->
  (forall g p p', snd (commit_l (zm O) wfuel P A p g) = snd (commit_l (zm O) wfuel P A p' g)) /\
  (forall g c c' s s' r r', snd (respond_l (zm O) wfuel P c s r g) = snd (respond_l (zm O) wfuel P c' s' r' g)) /\
  (forall fuel t mu s p g sig, length s = p_l P ->
     Forall (fun row => length row = p_d P /\ Forall (fun x : list Z => length x = 512%nat) row) s ->
     sign_loop O wfuel (S fuel) P A t mu s p g sig =
     ('(w', r, p, g) <- fst (commit_l (zm O) wfuel P A p g) ;;
      let c_hash := chal_hash O (p_kappa P) (p_k P) w' mu in
      c <- chal_poly O wfuel (p_omega P) c_hash ;;
      '(z', s, g) <- fst (respond_l (zm O) wfuel P (ntt c) s r g) ;;
      rest_of_attempt P A t w' c_hash (ntt c) z' sig (fun sig => sign_loop O wfuel fuel P A t mu s p g sig))).
Proof.
  intros O wfuel P A HP LA FA. split; [intros; apply (rel_snd same_g); apply commit_n|]. split; [intros; apply (rel_snd same_g); apply respond_n|].
  intros fuel t mu s p g sig Ls Fs. apply sign_split; [exact (params_omega P HP)|split; assumption|split; assumption].
Qed.
Print Assumptions C44_signing_attempt.

(* signing, the whole function.  V says what the observer sees of the steps that work on public data and on the
   candidate signature; it may be any three functions.  The trace of a call is determined by the public key, the
   message, the destination and the candidates: the values w' and z' of every attempt, which the code unmasks itself
   (secret_key.hpp:151 and 177). *)
Theorem C44_signing : forall O (V : observer) fuel P pk msg buf, params_ok P = true ->
  (forall s tp, length s = p_l P ->
     Forall (fun row => length row = p_d P /\ Forall (fun x : list Z => length x = 512%nat) row) s ->
     fst (sk_sign_l O V fuel P (Skey pk s) msg buf tp) = sk_sign O fuel P (Skey pk s) msg buf tp) /\
  (forall s s' tp tp',
     sign_candidates O fuel P (Skey pk s) msg buf tp = sign_candidates O fuel P (Skey pk s') msg buf tp' ->
     snd (sk_sign_l O V fuel P (Skey pk s) msg buf tp) = snd (sk_sign_l O V fuel P (Skey pk s') msg buf tp')).
Proof.
  intros O V fuel P pk msg buf HP. split.
  - intros s tp Ls Fs. apply sk_sign_l_value; [exact HP|split; assumption].
  - intros s s' tp tp' E. apply sk_sign_l_trace. exact E.
Qed.
Print Assumptions C44_signing.
(* .. and the candidates are a function of the unmasked secret and the random tape: in particular the trace is the
   same for all sharings of a secret *)
Theorem C44_signing_sharing : forall O (V : observer) fuel P pk msg buf s s' tp, params_ok P = true ->
  masked_vec49 (p_l P) (p_d P) s -> masked_vec49 (p_l P) (p_d P) s' -> map unmask s = map unmask s' ->
  sign_candidates O fuel P (Skey pk s) msg buf tp = sign_candidates O fuel P (Skey pk s') msg buf tp /\
  snd (sk_sign_l O V fuel P (Skey pk s) msg buf tp) = snd (sk_sign_l O V fuel P (Skey pk s') msg buf tp).
Proof.
  intros O V fuel P pk msg buf s s' tp HP Hs Hs' Eu.
  pose proof (sign_candidates_unmask O fuel P pk s s' msg buf tp HP Hs Hs' Eu) as E. split; [exact E|]. apply sk_sign_l_trace. exact E.
Qed.
Print Assumptions C44_signing_sharing.

(* refreshing a whole key *)
Theorem C44_key_refresh : forall O fuel rows d g v v',
  snd (pv_refresh_l (zm O) fuel rows d v g) = snd (pv_refresh_l (zm O) fuel rows d v' g) /\
  (length v = rows -> Forall (fun row => length row = d /\ Forall (fun x : list Z => length x = 512%nat) row) v ->
   fst (pv_refresh_l (zm O) fuel rows d v g) = pv_refresh O fuel d v g).
Proof.
  intros O fuel rows d g v v'. split; [apply (rel_snd same_g); apply pv_refresh_n|]. intros L F. apply pv_refresh_v. split; assumption.
Qed.
Print Assumptions C44_key_refresh.

(* packing a secret key of l rows and d shares: same trace for all keys, given the seeds read from the system
   generator (the seeds are hashed and the hash is sampled by rejection) *)
Theorem C44_key_packing : forall O fuel n l d p,
  (forall s s' out out', snd (mask_compress_l (zm O) fuel (8 * Z.of_nat n) l d s out p) = snd (mask_compress_l (zm O) fuel (8 * Z.of_nat n) l d s' out' p)) /\
  (forall s out, (1 <= d)%nat -> length s = l ->
     Forall (fun row => length row = d /\ Forall (fun x : list Z => length x = 512%nat) row) s ->
     zlen out = Z.of_nat (d - 1) * Z.of_nat n + Z.of_nat l * 3136 ->
     fst (mask_compress_l (zm O) fuel (8 * Z.of_nat n) l d s out p) = mask_compress O fuel (8 * Z.of_nat n) d s out p).
Proof.
  intros O fuel n l d p. split; [intros; apply (rel_snd any); apply mask_compress_n|]. intros s out Hd Ls Fs Lo. apply mask_compress_v; [split; assumption|exact Hd|exact Lo].
Qed.
Print Assumptions C44_key_packing.
(* unpacking: same trace for all keys with the same seeds (the first d-1 blocks of n bytes) *)
Theorem C44_key_unpacking : forall O fuel n l d,
  (forall b b', length b = length b' -> firstn ((d - 1) * n) b = firstn ((d - 1) * n) b' ->
     snd (mask_decompress_l (zm O) fuel (8 * Z.of_nat n) l d b) = snd (mask_decompress_l (zm O) fuel (8 * Z.of_nat n) l d b')) /\
  (forall b, (1 <= d)%nat -> Forall (fun x => 0 <= x < 256) b -> zlen b = Z.of_nat (d - 1) * Z.of_nat n + Z.of_nat l * 3136 ->
     fst (mask_decompress_l (zm O) fuel (8 * Z.of_nat n) l d b) = mask_decompress O fuel (8 * Z.of_nat n) l d b).
Proof.
  intros O fuel n l d. split.
  - intros b b' L E. apply (rel_snd any). apply mask_decompress_n; [exact L|]. unfold kbytes. rewrite Z.mul_comm, Z.div_mul, Nat2Z.id by discriminate. exact E.
  - intros b Hd Fb Lb. apply mask_decompress_v; assumption.
Qed.
Print Assumptions C44_key_unpacking.

(* the theorems can fail: a comparison that stops at the first difference and a reduction by a
   conditional jump have different traces on inputs of the same shape *)
Theorem C44_can_fail : forall O,
  snd (early_exit_eq (zm O) [1; 2; 3] [1; 2; 3] 0) <> snd (early_exit_eq (zm O) [1; 2; 3] [9; 2; 3] 0) /\
  snd (branching_reduce (zm O) 5) <> snd (branching_reduce (zm O) (Q + 5)).
Proof. intros O. split; vm_compute; discriminate. Qed.

Print Assumptions C44_can_fail.

(* the hypotheses are met, and equal traces go together with different values *)
Lemma generate_matrix O fuel P seed tp sk : sk_generate O fuel P seed tp = Ok sk -> exists A, expandA O fuel (p_k P) (p_l P) seed = Ok A.
Proof. intros E. unfold sk_generate in E. cbv zeta in E. apply bind_ok_inv in E. destruct E as (A & EA & _). exists A. exact EA. Qed.
Example C44_nonvacuous :
  (let P := raccoon256_params 8 in exists A sk, params_ok P = true /\ expandA ex_G 512 (p_k P) (p_l P) (repeat 77 32) = Ok A /\
     sk_generate ex_G 512 P (repeat 77 32) ex_tape = Ok sk) /\
  (forall O, fst (ct_eq_byte_array_l (zm O) [1; 2; 3] [1; 2; 3]) <> fst (ct_eq_byte_array_l (zm O) [7; 8; 9] [7; 0; 9]) /\
     length (snd (ct_eq_byte_array_l (zm O) [1; 2; 3] [1; 2; 3])) = 12%nat).
Proof.
  split.
  - intros P. destruct (exG_generate P (repeat 77 32) ex_tape 512) as (sk & E & _); [vm_compute; reflexivity|apply Forall_repeat; split; [discriminate|reflexivity]|reflexivity|apply le_n|].
    destruct (generate_matrix _ _ _ _ _ _ E) as [A EA]. exists A, sk. split; [vm_compute; reflexivity|]. split; [exact EA|exact E].
  - intros O. split; [vm_compute; discriminate|vm_compute; reflexivity].
Qed.
(* two different sharings of the same secret; two different packed keys with the same seeds *)
Example C44_sharing_nonvacuous : let P := raccoon128_params 2 in
  let s := repeat [repeat 1 512; repeat 0 512] (p_l P) in let s' := repeat [repeat 0 512; repeat 1 512] (p_l P) in
  params_ok P = true /\ masked_vec49 (p_l P) (p_d P) s /\ masked_vec49 (p_l P) (p_d P) s' /\ map unmask s = map unmask s' /\ s <> s'.
Proof.
  intros P s s'. assert (F : forall x n, x = 0 \/ x = 1 -> Forall (fun x => 0 <= x < 2 ^ 49) (repeat x n)) by (intros x n H; apply Forall_forall; intros y Hy; apply repeat_spec in Hy; subst y; destruct H as [-> | ->]; split; [discriminate|reflexivity|discriminate|reflexivity]).
  split; [vm_compute; reflexivity|]. split; [|split; [|split]].
  - split; [reflexivity|]. apply Forall_forall. intros row Hr. apply repeat_spec in Hr. subst row. split; [reflexivity|]. constructor; [split; [apply repeat_length|apply F; right; reflexivity]|]. constructor; [split; [apply repeat_length|apply F; left; reflexivity]|constructor].
  - split; [reflexivity|]. apply Forall_forall. intros row Hr. apply repeat_spec in Hr. subst row. split; [reflexivity|]. constructor; [split; [apply repeat_length|apply F; left; reflexivity]|]. constructor; [split; [apply repeat_length|apply F; right; reflexivity]|constructor].
  - assert (E : unmask [repeat 1 512; repeat 0 512] = unmask [repeat 0 512; repeat 1 512]). { unfold unmask. apply map_ext. intros k. cbn [map fold_right]. f_equal. ring. }
    assert (G : forall (a b : list (list Z)) n, unmask a = unmask b -> map unmask (repeat a n) = map unmask (repeat b n)) by (intros a b n H; induction n as [|n IH]; [reflexivity|]; cbn [repeat map]; rewrite IH, H; reflexivity). apply G, E.
  - intros E. apply (f_equal (fun v => nth 0 (nth 0 (nth 0 v []) []) 0)) in E. vm_compute in E. discriminate E.
Qed.
