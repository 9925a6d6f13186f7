(* Two signatures made with the same randomness: their difference is the secret times the difference of the challenges. *)
From Coq Require Import ZArith Lia Bool List Arith.
From Verif Require Import ModelBase ModelField ModelUtils ModelPoly ModelVec ModelSerial ModelScheme.
From Verif Require Import Spec SpecScheme SpecSig SpecVerify SpecReuse.
From Verif Require Import FieldProofs ArithLemmas PolyProofs NttProofs Cong NttEval PolyLemmas ParamProofs KeyLemmas SchemeCore VerifyProofs SignProofs SignVerify TermProofs BoundProofs LatticeProofs SigLemmas MaskedProofs.
Import ListNotations.
Open Scope Z_scope.
Ltac Zify.zify_post_hook ::= idtac.

Definition ring_const (c : Z) : list Z := c :: repeat 0 511.
Lemma Zsum_first f : forall n, (forall i, (0 < i)%nat -> f i = 0) -> Zsum (Datatypes.S n) f = f 0%nat.
Proof.
  induction n as [|n IH]; intros H; [reflexivity|]. change (Zsum (Datatypes.S (Datatypes.S n)) f) with (Zsum (Datatypes.S n) f + f (Datatypes.S n)).
  rewrite IH by exact H. rewrite (H (Datatypes.S n)) by lia. lia.
Qed.
Lemma coef_const c i : coef (ring_const c) i = if (i =? 0)%nat then c else 0.
Proof.
  unfold coef, ring_const. destruct i as [|i]; [reflexivity|]. cbn [nth Nat.eqb].
  destruct (Nat.lt_ge_cases i 511) as [H|H]; [apply nth_repeat|apply nth_overflow; rewrite repeat_length; exact H].
Qed.
Lemma const_mul c a : ring_mul (ring_const c) a = ring_scale c a.
Proof.
  unfold ring_mul, ring_scale. apply map_ext. intros k. f_equal. unfold negacyclic_coef. rewrite (Zsum_first _ 511).
  - rewrite coef_const. cbn [Nat.eqb Nat.leb]. rewrite Nat.sub_0_r. reflexivity.
  - intros i Hi. rewrite coef_const. replace (i =? 0)%nat with false by (symmetry; apply Nat.eqb_neq; lia). destruct (i <=? k)%nat; lia.
Qed.
Lemma mul_comm a b : is_poly a -> is_poly b -> ring_mul a b = ring_mul b a.
Proof.
  intros Ha Hb. apply ntt_inj; [apply ring_mul_poly|apply ring_mul_poly|].
  rewrite !ntt_ring_mul by auto. coefs. modring.
Qed.
Lemma mul_one_r a : is_poly a -> ring_mul a (ring_const 1) = a.
Proof.
  intros Ha. rewrite mul_comm, const_mul; [|exact Ha|].
  - apply poly_ext; [unfold ring_scale; rewrite map_length; apply seq_length|apply is_poly_length, Ha|]. intros k Hk.
    rewrite coef_scale by exact Hk. rewrite Z.mul_1_l. apply mod_q_reduced, is_poly_coef', Ha.
  - split; [reflexivity|]. constructor; [|apply Forall_forall; intros x Hx; apply repeat_spec in Hx; subst x]; unfold reduced; rewrite q_Q, Q_val; lia.
Qed.
Lemma sub_common a b r : ring_sub (ring_add a r) (ring_add b r) = ring_sub a b.
Proof. coefs. modring. Qed.
Lemma responses_differ cp cp' : is_poly cp -> is_poly cp' -> forall s r, Forall is_poly s -> length s = length r ->
  zipw ring_sub (zipw ring_add (map (fun si => ring_mul si cp) s) r) (zipw ring_add (map (fun si => ring_mul si cp') s) r)
  = map (fun si => ring_mul si (ring_sub cp cp')) s.
Proof.
  intros Hc Hc' s r Fs. rewrite !zipw_map2. revert r. induction Fs as [|x s Hx Fs IH]; intros [|y r] L; cbn [length] in L; try lia; [reflexivity|].
  cbn [map map2]. rewrite sub_common. rewrite <- mul_sub_r by assumption. f_equal. apply IH. lia.
Qed.
Lemma attempt_response H T P A t s mu n c cp h z : length s = p_l P ->
  sign_attempt H T (row_of P) A t s mu n c cp h z ->
  map to_ring (rows_of_flat (p_l P) z) =
  zipw ring_add (map (fun si => ring_mul si cp) s)
    (noise H T (row_of P) (p_uw P) (p_l P) (n * ((p_l P + p_k P) * row_bytes (row_of P)))).
Proof.
  intros Ls (_ & _ & Ez & _). cbn [row_of r_k r_l r_uw] in Ez. rewrite !Nat2Z.id in Ez.
  set (r := noise H T (row_of P) (p_uw P) (p_l P) (n * ((p_l P + p_k P) * row_bytes (row_of P)))) in *.
  assert (Lr : length r = p_l P) by apply noise_polys.
  set (zr := zipw ring_add (map (fun si => ring_mul si cp) s) r) in *.
  assert (Fzr : Forall is_poly zr) by (unfold zr; rewrite zipw_map2; apply map2_Forall_r; intros x y; apply ring_add_poly).
  assert (Lzr : length zr = p_l P) by (unfold zr, zipw; rewrite map_length, combine_length, map_length, Lr, Ls; lia).
  rewrite Ez. rewrite <- Lzr. rewrite <- (map_length (map (centered q)) zr) at 1. rewrite rows_of_flat_concat; [apply uncenter_ring, Fzr|].
  apply Forall_map. refine (Forall_impl _ _ Fzr). intros p [Lp _]. rewrite map_length. exact Lp.
Qed.
Lemma challenge_is_poly S omega cp : challenge_poly S omega cp -> is_poly cp.
Proof.
  intros (n & _ & ->). split; [rewrite map_length; apply seq_length|]. apply Forall_map, Forall_forall. intros i _. unfold chal_coef.
  destruct (find _ _); [unfold chal_sign; destruct (Z.odd _)|]; unfold reduced; rewrite q_Q, Q_val; lia.
Qed.
Lemma same_randomness O fuel fuel' P sk msg msg' buf buf' tp sig sig' : params_ok P = true ->
  valid_public (Z.to_nat (p_kappa P / 8)) (p_k P) (pk_seed (sk_pkey sk)) (pk_t (sk_pkey sk)) ->
  masked_vec49 (p_l P) (p_d P) (sk_s sk) -> zlen buf = p_siglen P -> zlen buf' = p_siglen P ->
  sk_sign O fuel P sk msg buf tp = Ok sig -> sk_sign O fuel' P sk msg' buf' tp = Ok sig' ->
  exists A pkb s,
    public_matrix (hash_of O) (pk_seed (sk_pkey sk)) (p_k P) (p_l P) A /\
    public_key_code (pk_seed (sk_pkey sk)) (pk_t (sk_pkey sk)) pkb /\
    Forall is_poly s /\ map transform s = map unmask (sk_s sk) /\
    let first m := first_accepted (hash_of O) (tape_of tp) (row_of P) A (rows1 (pk_t (sk_pkey sk))) s
                     (bound_message (hash_of O) (Z.to_nat (2 * p_kappa P / 8)) pkb m) in
    exists n c cp h z n' c' cp' h' z', first msg n c cp h z /\ first msg' n' c' cp' h' z' /\
      signature_code c h z sig /\ signature_code c' h' z' sig' /\
      (n = n' ->
       response_difference (p_l P) z z' = map (fun si => ring_mul si (ring_sub cp cp')) s /\
       forall u, is_poly u -> ring_mul (ring_sub cp cp') u = 1 :: repeat 0 511 ->
         s = map (fun x => ring_mul x u) (response_difference (p_l P) z z')).
Proof.
  intros HP V M Lb Lb' E E'.
  destruct (sign_equations O fuel P sk msg buf tp sig HP V M Lb E) as (A & pkb & s & PM & Cpk & Fs & Es & n & c & cp & h & z & AT & AC & SC & _ & _ & _ & RJ).
  destruct (sign_equations O fuel' P sk msg' buf' tp sig' HP V M Lb' E') as (A' & pkb' & s' & PM' & Cpk' & Fs' & Es' & n' & c' & cp' & h' & z' & AT' & AC' & SC' & _ & _ & _ & RJ').
  assert (EA : A' = A) by exact (public_matrix_fun _ _ _ _ _ _ PM' PM).
  assert (EP : pkb' = pkb) by exact (public_key_code_unique _ _ _ _ Cpk' Cpk).
  assert (ES : s' = s) by (apply (transform_inj_list s' s Fs' Fs); rewrite Es'; symmetry; exact Es).
  subst A' pkb' s'. exists A, pkb, s. split; [exact PM|]. split; [exact Cpk|]. split; [exact Fs|]. split; [exact Es|].
  exists n, c, cp, h, z, n', c', cp', h', z'. split; [split; [exact AT|split; [exact AC|exact RJ]]|]. split; [split; [exact AT'|split; [exact AC'|exact RJ']]|].
  split; [exact SC|]. split; [exact SC'|]. intros <-. unfold response_difference.
  assert (Ls : length s = p_l P) by (pose proof (f_equal (@length (list Z)) Es) as X; rewrite !map_length in X; rewrite X; exact (proj1 M)).
  pose proof (challenge_is_poly _ _ _ (proj1 (proj2 AT))) as Hc. pose proof (challenge_is_poly _ _ _ (proj1 (proj2 AT'))) as Hc'.
  rewrite (attempt_response _ _ _ _ _ _ _ _ _ _ _ _ Ls AT), (attempt_response _ _ _ _ _ _ _ _ _ _ _ _ Ls AT'). cbv zeta.
  rewrite responses_differ; [|exact Hc|exact Hc'|exact Fs|rewrite Ls; symmetry; apply noise_polys].
  split; [reflexivity|]. intros u Hu Eu. rewrite map_map. symmetry. apply map_id_in. intros x Hx. rewrite Forall_forall in Fs.
  rewrite <- mul_assoc by (try exact Hu; try apply ring_sub_poly; apply Fs, Hx). rewrite Eu. apply mul_one_r, Fs, Hx.
Qed.
