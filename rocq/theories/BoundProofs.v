(* Sizes of responses: products with challenge polynomials, centred representatives. *)
From Coq Require Import ZArith Lia Bool List Arith.
From Coq Require Import ZifyBool ZifyNat.
From Verif Require Import ModelBase ModelU128 ModelField ModelUtils ModelPoly ModelVec ModelSerial ModelScheme.
From Verif Require Import Spec SpecScheme SpecSig SpecVerify.
From Verif Require Import Words FieldProofs ArithLemmas PolyProofs Cong SampleProofs SampleLemmas NoiseProofs PolyLemmas.
From Verif Require Import ParamProofs KeyLemmas PackProofs SigEnc SigLemmas VerifyProofs SchemeCore SignProofs SignVerify KeygenProofs TermProofs.
Import ListNotations.
Open Scope Z_scope.
Ltac Zify.zify_post_hook ::= idtac.

Lemma Zsum_rev n : forall g, Zsum (S n) (fun i => g (n - i)%nat) = Zsum (S n) g.
Proof.
  induction n as [|n IH]; intros g; [reflexivity|].
  transitivity (Zsum (1 + S n) (fun i => g (S n - i)%nat)); [reflexivity|]. rewrite Zsum_split.
  change (Zsum 1 (fun i => g (S n - i)%nat)) with (0 + g (S n)).
  replace (Zsum (S n) (fun j => g (S n - (1 + j))%nat)) with (Zsum (S n) g).
  - cbn [Zsum]. lia.
  - rewrite <- IH. apply Zsum_ext. intros i _. f_equal.
Qed.
Lemma Zsum_abs n f : Z.abs (Zsum n f) <= Zsum n (fun i => Z.abs (f i)).
Proof. induction n as [|n IH]; cbn [Zsum]; lia. Qed.
Lemma Zsum_le n f g : (forall i, (i < n)%nat -> f i <= g i) -> Zsum n f <= Zsum n g.
Proof. intros H. induction n as [|n IH]; cbn [Zsum]; [lia|]. pose proof (H n ltac:(lia)). assert (Zsum n f <= Zsum n g) by (apply IH; intros; apply H; lia). lia. Qed.
(* sum over all second indices of a negacyclic product coefficient *)
Lemma Zsum_wrap (g : nat -> Z) k : (k < 512)%nat ->
  Zsum 512 (fun i => if (i <=? k)%nat then g (k - i)%nat else g (512 + k - i)%nat) = Zsum 512 g.
Proof.
  intros Hk. pose (r := (511 - k)%nat). assert (E : 512%nat = (S k + r)%nat) by lia. 
  assert (EE : forall f, Zsum 512 f = Zsum (S k + r) f) by (intros f; rewrite <- E; reflexivity). rewrite !EE, !Zsum_split. f_equal.
  - rewrite <- (Zsum_rev k g). apply Zsum_ext. intros i Hi. replace (i <=? k)%nat with true by lia. reflexivity.
  - transitivity (Zsum r (fun j => g (S k + (r - 1 - j))%nat)).
    + apply Zsum_ext. intros i Hi. replace (S k + i <=? k)%nat with false by lia. f_equal. lia.
    + destruct r as [|r']; [reflexivity|]. rewrite <- (Zsum_rev r' (fun j => g (S k + j)%nat)). apply Zsum_ext. intros i Hi. f_equal. lia.
Qed.
Lemma negacyclic_bound a b k B : (k < 512)%nat -> 0 <= B -> (forall i, (i < 512)%nat -> Z.abs (coef a i) <= B) ->
  Z.abs (negacyclic_coef a b k) <= B * Zsum 512 (fun j => Z.abs (coef b j)).
Proof.
  intros Hk HB Ha. unfold negacyclic_coef. eapply Z.le_trans; [apply Zsum_abs|].
  rewrite <- (Zsum_wrap (fun j => Z.abs (coef b j)) k Hk). rewrite <- Zsum_scal. apply Zsum_le. intros i Hi. pose proof (Ha i Hi) as H.
  destruct (i <=? k)%nat; rewrite ?Z.abs_opp, Z.abs_mul; apply Z.mul_le_mono_nonneg_r; lia.
Qed.
Lemma coef_to_ring xs i : length xs = 512%nat -> (i < 512)%nat -> coef (to_ring xs) i = coef xs i mod q.
Proof.
  intros L Hi. unfold coef, to_ring. rewrite (nth_indep (map (fun x => x mod q) xs) 0 (0 mod q)) by (rewrite map_length; lia).
  exact (map_nth (fun x => x mod q) xs 0 i).
Qed.
Lemma ring_mul_ints xs cs : length xs = 512%nat -> length cs = 512%nat ->
  ring_mul (to_ring xs) (to_ring cs) = to_ring (map (negacyclic_coef xs cs) (seq 0 512)).
Proof.
  intros Lx Lc. unfold ring_mul. unfold to_ring at 3. rewrite map_map. apply map_ext_in. intros k Hk. apply in_seq in Hk.
  change (cg (negacyclic_coef (to_ring xs) (to_ring cs) k) (negacyclic_coef xs cs k)). unfold negacyclic_coef. apply Zsum_cg. intros i Hi.
  destruct (i <=? k)%nat eqn:E; rewrite !coef_to_ring by (assumption || lia); rewrite !cg_mod; reflexivity.
Qed.
Lemma bounded_add B C a b : bounded_by B a -> bounded_by C b -> bounded_by (B + C) (ring_add a b).
Proof.
  intros (xs & Lx & -> & Fx) (ys & Ly & -> & Fy). exists (map (fun i => coef xs i + coef ys i) (seq 0 512)). split; [|split].
  - rewrite map_length. apply seq_length.
  - unfold ring_add. unfold to_ring at 3. rewrite map_map. apply map_ext_in. intros k Hk. apply in_seq in Hk.
    change (cg (coef (to_ring xs) k + coef (to_ring ys) k) (coef xs k + coef ys k)). rewrite !coef_to_ring by (assumption || lia). rewrite !cg_mod. reflexivity.
  - apply Forall_map, Forall_forall. intros k Hk. apply in_seq in Hk. rewrite Forall_forall in Fx, Fy.
    pose proof (Fx (coef xs k) ltac:(apply nth_In; lia)). pose proof (Fy (coef ys k) ltac:(apply nth_In; lia)). cbv beta in *. lia.
Qed.
Lemma count_abs : forall cs, Forall (fun x => x = 0 \/ x = 1 \/ x = -1) cs ->
  forall n, length cs = n -> Zsum n (fun j => Z.abs (coef cs j)) = Z.of_nat (length (filter (fun x => negb (x =? 0)) cs)).
Proof.
  induction cs as [|x cs IH] using rev_ind; intros F n L.
  - cbn [length] in L. subst n. reflexivity.
  - rewrite app_length in L. cbn [length] in L. destruct n as [|n]; [lia|]. apply Forall_app in F. destruct F as [F Fx]. inversion Fx as [|? ? Hx _]; subst.
    cbn [Zsum]. rewrite filter_app, app_length. assert (Ln : length cs = n) by lia. rewrite <- Ln. unfold coef at 2. rewrite nth_middle.
    rewrite (Zsum_ext (length cs) (fun j => Z.abs (coef (cs ++ [x]) j)) (fun j => Z.abs (coef cs j))).
    2:{ intros i Hi. unfold coef. rewrite app_nth1 by exact Hi. reflexivity. }
    rewrite (IH F (length cs) eq_refl). cbn [filter]. destruct Hx as [->|[->| ->]]; cbn [Z.eqb negb length Z.abs]; lia.
Qed.
Lemma bounded_mul_challenge B omega s cp : 0 <= B -> bounded_by B s -> length cp = 512%nat ->
  Forall (fun x => x = 0 \/ x = 1 \/ x = q - 1) cp -> length (filter (fun x => negb (x =? 0)) cp) = omega ->
  bounded_by (Z.of_nat omega * B) (ring_mul s cp).
Proof.
  intros HB (xs & Lx & -> & Fx) Lc Fc Hw.
  set (f := fun x => if x =? 0 then 0 else if x =? 1 then 1 else -1).
  assert (Ec : cp = to_ring (map f cp)).
  { unfold to_ring. rewrite map_map. rewrite <- (map_id cp) at 1. apply map_ext_in. intros x Hx. rewrite Forall_forall in Fc. subst f.
    assert (QV : q = 549824583172097) by (rewrite q_Q; exact Q_val). rewrite QV in *. destruct (Fc x Hx) as [->|[->| ->]]; reflexivity. }
  assert (Fs : Forall (fun x => x = 0 \/ x = 1 \/ x = -1) (map f cp)).
  { apply Forall_map, Forall_forall. intros x _. subst f. cbv beta. destruct (x =? 0); [tauto|]. destruct (x =? 1); tauto. }
  assert (Ef : length (filter (fun x => negb (x =? 0)) (map f cp)) = omega).
  { rewrite <- Hw. clear. induction cp as [|x cp IH]; [reflexivity|]. cbn [map filter]. subst f. cbv beta.
    destruct (x =? 0) eqn:E; [exact IH|]. destruct (x =? 1) eqn:E1; cbn [Z.eqb negb length]; rewrite IH; reflexivity. }
  rewrite Ec, ring_mul_ints by (rewrite ?map_length; assumption). eexists. split; [|split; [reflexivity|]].
  - rewrite map_length. apply seq_length.
  - apply Forall_map, Forall_forall. intros k Hk. apply in_seq in Hk. eapply Z.le_trans; [apply (negacyclic_bound xs (map f cp) k B); [lia|exact HB|]|].
    + intros i Hi. rewrite Forall_forall in Fx. apply Fx, nth_In. lia.
    + rewrite (count_abs (map f cp) Fs 512 ltac:(rewrite map_length; exact Lc)), Ef. lia.
Qed.
(* the centred representative is the smallest *)
Lemma centered_min m y : 0 < m -> Z.abs (centered m (y mod m)) <= Z.abs y.
Proof.
  intros Hm. unfold centered. rewrite Z.mod_mod by lia. pose proof (Z.mod_pos_bound y m Hm) as B. pose proof (Z.div_mod y m ltac:(lia)) as D.
  pose proof (Z.div_mod (m - 1) 2 ltac:(lia)) as D2. pose proof (Z.mod_pos_bound (m - 1) 2 ltac:(lia)) as B2. cbv zeta.
  destruct (y mod m <=? (m - 1) / 2) eqn:E.
  - destruct (Z.le_gt_cases 0 y) as [Hy|Hy].
    + assert (y mod m <= y) by (apply Z.mod_le; lia). lia.
    + assert (y / m <= -1) by (assert (y / m < 0) by (apply Z.div_lt_upper_bound; lia); lia). assert (m * (y / m) <= m * -1) by (apply Z.mul_le_mono_nonneg_l; lia). lia.
  - destruct (Z.le_gt_cases 0 y) as [Hy|Hy].
    + assert (y mod m <= y) by (apply Z.mod_le; lia). lia.
    + assert (y / m <= -1) by (assert (y / m < 0) by (apply Z.div_lt_upper_bound; lia); lia). assert (m * (y / m) <= m * -1) by (apply Z.mul_le_mono_nonneg_l; lia). lia.
Qed.
Lemma bounded_centered B p : bounded_by B p -> Forall (fun x => Z.abs x <= B) (map (centered q) p).
Proof.
  intros (xs & _ & -> & F). unfold to_ring. rewrite map_map. apply Forall_map. refine (Forall_impl _ _ F). intros x Hx.
  eapply Z.le_trans; [apply centered_min; rewrite q_Q, Q_val; lia|exact Hx].
Qed.
Lemma bounded_mono B C p : B <= C -> bounded_by B p -> bounded_by C p.
Proof. intros H (xs & L & E & F). exists xs. split; [exact L|]. split; [exact E|]. refine (Forall_impl _ _ F). intros; lia. Qed.
(* responses of one attempt *)
Lemma attempt_response_bound H T P A t s mu n c cp h z Bs : params_ok P = true -> 0 <= Bs -> Forall (bounded_by Bs) s ->
  sign_attempt H T (row_of P) A t s mu n c cp h z ->
  (challenge_poly (challenge_stream H (p_omega P) c) (p_omega P) cp -> length cp = 512%nat /\ Forall (fun x => x = 0 \/ x = 1 \/ x = q - 1) cp /\ length (filter (fun x => negb (x =? 0)) cp) = p_omega P) ->
  Forall (fun x => Z.abs x <= Z.of_nat (p_omega P) * Bs + noise_bound_of P (p_uw P)) z.
Proof.
  intros HP HB Hs (_ & HC & Hz & _) HCP. cbn [row_of r_omega r_l r_uw] in HC, Hz. rewrite !Nat2Z.id in HC. destruct (HCP HC) as (Lc & Fc & Wc).
  rewrite Hz. apply Forall_concat, Forall_map. rewrite zipw_map2.
  assert (NB : forall pos m, Forall (bounded_by (noise_bound_of P (p_uw P))) (noise H T (row_of P) (p_uw P) m pos)).
  { intros pos m. apply noise_bounded. destruct (params_facts P HP) as (kb & e & F). pose proof (pf_uw _ _ _ F). lia. }
  match goal with |- context [noise H T (row_of P) (p_uw P) ?m ?pos] => pose proof (NB pos m) as NB'; generalize dependent (noise H T (row_of P) (p_uw P) m pos) end.
  intros r _ Fr. revert r Fr. clear - Hs HB Lc Fc Wc. induction Hs as [|x s Hx Hs IH]; intros [|y r] Fr; try constructor.
  - apply bounded_centered, bounded_add; [apply bounded_mul_challenge; assumption|]. inversion Fr; assumption.
  - apply IH. inversion Fr; assumption.
Qed.
Lemma challenge_poly_facts O omega c cp : (omega < 256)%nat -> challenge_poly (challenge_stream (hash_of O) omega c) omega cp ->
  length cp = 512%nat /\ Forall (fun x => x = 0 \/ x = 1 \/ x = q - 1) cp /\ length (filter (fun x => negb (x =? 0)) cp) = omega.
Proof.
  intros Ho H. destruct H as (n & Hn & E). assert (H : challenge_poly (challenge_stream (hash_of O) omega c) omega cp) by (exists n; split; assumption).
  destruct (challenge_facts O n omega c Ho) as (F1 & F2 & F3 & F4). destruct (chal_poly O n omega c) as [cp'| |].
  - destruct (F1 cp' eq_refl) as (G & G1 & G2 & G3). rewrite (F4 cp cp' H G). auto.
  - congruence.
  - destruct F3 as [F3 _]. specialize (F3 eq_refl). lia.
Qed.
(* the bit buffer holds every code word if the responses are small *)
Lemma fits_of_bounds h z : Forall (fun x => Z.abs x <= 54) h -> Forall (fun x => Z.abs x < 15 * 2 ^ 40) z -> z <> [] ->
  Z.abs (last z 0) < 2 ^ 43 -> buffer_fits h z.
Proof.
  intros Hh Hz Nz Hl.
  assert (W : forall B x, 0 <= B -> Z.abs x < B * 2 ^ 40 -> clen code_z x <= 41 + B).
  { intros B x HB H. rewrite clen_z. assert (Z.abs x / 2 ^ 40 < B) by (apply Z.div_lt_upper_bound; [reflexivity|lia]). destruct (x =? 0); lia. }
  split; [|split].
  - apply window_bound. eapply Forall_impl; [|exact Hh]. intros x H. cbv beta in H. rewrite clen_h. destruct (x =? 0); lia.
  - apply window_bound. eapply Forall_impl; [|exact Hz]. intros x H. cbv beta in H. pose proof (W 15 x ltac:(lia) H). lia.
  - destruct (exists_last Nz) as (zs & x & ->). exists zs, x. split; [reflexivity|]. rewrite last_last in Hl.
    unfold in_window. match goal with |- ?p mod 8 + _ <= _ => pose proof (Z.mod_pos_bound p 8 ltac:(lia)) end.
    pose proof (W 8 x ltac:(lia) Hl). unfold clen in *. lia.
Qed.
Lemma fits_dec h z : Forall (fun x => Z.abs x <= 54) h -> z <> [] -> ~ buffer_fits h z ->
  Exists (fun x => 15 * 2 ^ 40 <= Z.abs x) z \/ 2 ^ 43 <= Z.abs (last z 0).
Proof.
  intros Hh Nz NB. destruct (Z.le_gt_cases (2 ^ 43) (Z.abs (last z 0))) as [L|L]; [right; exact L|left].
  destruct (Exists_dec (fun x => 15 * 2 ^ 40 <= Z.abs x) z) as [E|E]; [intros x; apply Z_le_dec|exact E|].
  exfalso. apply NB, fits_of_bounds; [exact Hh| |exact Nz|exact L]. apply Forall_forall. intros x Hx.
  destruct (Z.le_gt_cases (15 * 2 ^ 40) (Z.abs x)) as [G|G]; [|lia]. exfalso. apply E, Exists_exists. exists x. split; assumption.
Qed.
(* signing equations *)
Lemma sign_equations O fuel P sk msg buf tp sig : params_ok P = true ->
  valid_public (Z.to_nat (p_kappa P / 8)) (p_k P) (pk_seed (sk_pkey sk)) (pk_t (sk_pkey sk)) ->
  masked_vec49 (p_l P) (p_d P) (sk_s sk) -> zlen buf = p_siglen P -> sk_sign O fuel P sk msg buf tp = Ok sig ->
  exists A pkb s,
    public_matrix (hash_of O) (pk_seed (sk_pkey sk)) (p_k P) (p_l P) A /\
    public_key_code (pk_seed (sk_pkey sk)) (pk_t (sk_pkey sk)) pkb /\
    Forall is_poly s /\ map transform s = map unmask (sk_s sk) /\
    let att := sign_attempt (hash_of O) (tape_of tp) (row_of P) A (rows1 (pk_t (sk_pkey sk))) s
                 (bound_message (hash_of O) (Z.to_nat (2 * p_kappa P / 8)) pkb msg) in
    exists n c cp h z, att n c cp h z /\ acceptable (row_of P) c h z /\ signature_code c h z sig /\
      length c = Z.to_nat (2 * p_kappa P / 8) /\ length h = (p_k P * 512)%nat /\ length z = (p_l P * 512)%nat /\
      forall i, (i < n)%nat -> exists c cp h z, att i c cp h z /\ ~ acceptable (row_of P) c h z.
Proof.
  intros HP V Hs Lb E. pose proof (sign_spec True 0 O fuel P sk msg buf tp HP V Hs Lb (or_intror Logic.I)) as S. rewrite E in S. cbn [wpx] in S.
  destruct S as (_ & _ & _ & A & pkb & sr & S1 & S2 & S3 & S4 & n & c & cp & h & z & S5 & S6 & S7 & S8 & S9 & S10 & _ & _ & S11).
  exists A, pkb, sr. do 4 (split; [assumption|]). intros att. exists n, c, cp, h, z. do 3 (split; [assumption|]).
  rewrite (proj2 (sig_len_cl P HP)) in S8. do 3 (split; [assumption|]). exact S11.
Qed.
(* hints of an attempt are centred *)
Lemma attempt_hints H T P A t s mu n c cp h z : params_ok P = true -> sign_attempt H T (row_of P) A t s mu n c cp h z -> Forall (fun x => Z.abs x <= 15) h.
Proof.
  intros HP (_ & _ & _ & Hh). rewrite Hh. destruct (params_facts P HP) as (kb & e & F).
  refine (Forall_impl _ _ (centered_rows_range _ _ _)).
  - intros x Hx. cbv beta in Hx. cbn [row_of r_nuw] in Hx. rewrite (pf_nuw _ _ _ F), (proj2 hint_modulus) in Hx.
    change (31 / 2) with 15 in Hx. change ((31 - 1) / 2) with 15 in Hx. lia.
  - cbn [row_of r_nuw]. rewrite (pf_nuw _ _ _ F), (proj2 hint_modulus). reflexivity.
Qed.
Lemma sign_undefined O fuel P sk msg buf tp : params_ok P = true ->
  valid_public (Z.to_nat (p_kappa P / 8)) (p_k P) (pk_seed (sk_pkey sk)) (pk_t (sk_pkey sk)) ->
  masked_vec49 (p_l P) (p_d P) (sk_s sk) -> zlen buf = p_siglen P -> sk_sign O fuel P sk msg buf tp = UB ->
  exists A pkb s,
    public_matrix (hash_of O) (pk_seed (sk_pkey sk)) (p_k P) (p_l P) A /\
    public_key_code (pk_seed (sk_pkey sk)) (pk_t (sk_pkey sk)) pkb /\
    Forall is_poly s /\ map transform s = map unmask (sk_s sk) /\
    let att := sign_attempt (hash_of O) (tape_of tp) (row_of P) A (rows1 (pk_t (sk_pkey sk))) s
                 (bound_message (hash_of O) (Z.to_nat (2 * p_kappa P / 8)) pkb msg) in
    exists n c cp h z, att n c cp h z /\ length z = (p_l P * 512)%nat /\
      (Exists (fun x => 15 * 2 ^ 40 <= Z.abs x) z \/ 2 ^ 43 <= Z.abs (last z 0)) /\
      (forall Bs, 0 <= Bs -> Forall (bounded_by Bs) s ->
         Forall (fun x => Z.abs x <= Z.of_nat (p_omega P) * Bs + noise_bound_of P (p_uw P)) z) /\
      forall i, (i < n)%nat -> exists c cp h z, att i c cp h z /\ ~ acceptable (row_of P) c h z.
Proof.
  intros HP V Hs Lb E. pose proof (sign_spec True 0 O fuel P sk msg buf tp HP V Hs Lb (or_intror Logic.I)) as S. rewrite E in S. cbn [wpx] in S.
  destruct S as (A & pkb & sr & S1 & S2 & S3 & S4 & n & c & cp & h & z & S5 & S6 & S7 & S8 & S9).
  exists A, pkb, sr. do 4 (split; [assumption|]). intros att. exists n, c, cp, h, z. split; [exact S5|]. split; [exact S8|].
  destruct (params_facts P HP) as (kb & e & F). split; [|split; [|exact S9]].
  - apply (fits_dec h z); [| |exact S6].
    + refine (Forall_impl _ _ (attempt_hints _ _ _ _ _ _ _ _ _ _ _ _ HP S5)). intros; lia.
    + intros ->. pose proof (pf_l _ _ _ F). clear - S8 H. cbn [length] in S8. lia.
  - intros Bs HB Hb. apply (attempt_response_bound _ _ _ _ _ _ _ _ _ _ _ _ _ HP HB Hb S5). intros HC.
    apply (challenge_poly_facts O (p_omega P) c cp); [|exact HC]. pose proof (pf_omega _ _ _ F). lia.
Qed.
