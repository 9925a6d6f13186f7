(* Ring laws of Z_q[X]/(X^512+1), linearity of the matrix product, errors of rounding; used for the lattice
   relations of keys and signatures. *)
From Coq Require Import ZArith Lia Bool List Arith.
From Coq Require Import ZifyBool ZifyNat.
From Verif Require Import ModelBase ModelU128 ModelField ModelUtils ModelPoly ModelVec ModelSerial ModelScheme.
From Verif Require Import Spec SpecScheme SpecSig SpecVerify.
From Verif Require Import Words FieldProofs ArithLemmas PolyProofs Cong SampleProofs SampleLemmas NoiseProofs PolyLemmas NttProofs NttEval MaskedProofs LinProofs MaskUniform.
From Verif Require Import ParamProofs KeyLemmas VerifyProofs SchemeCore SignProofs SignVerify KeygenProofs TermProofs BoundProofs.
Import ListNotations.
Open Scope Z_scope.
Ltac Zify.zify_post_hook ::= idtac.

(* ---------- the ring ---------- *)
Lemma ntt_inj a b : is_poly a -> is_poly b -> ntt a = ntt b -> a = b.
Proof. intros Ha Hb E. rewrite <- (intt_ntt a Ha), <- (intt_ntt b Hb), E. reflexivity. Qed.
Ltac coefs := apply poly_ext; [apply is_poly_length; auto using ring_add_poly, ring_sub_poly, ring_mul_poly, pw_mul_poly, ntt_poly
                              |apply is_poly_length; auto using ring_add_poly, ring_sub_poly, ring_mul_poly, pw_mul_poly, ntt_poly|
                               let k := fresh "k" in let Hk := fresh "Hk" in intros k Hk; repeat first [rewrite coef_add by exact Hk|rewrite coef_sub by exact Hk|rewrite coef_pw by exact Hk]].
Ltac modring := match goal with |- ?x mod q = ?y mod q => change (cg x y) end; rewrite ?cg_mod; apply cg_refl'; ring.
Lemma mul_add_l a b c : is_poly a -> is_poly b -> is_poly c -> ring_mul (ring_add a b) c = ring_add (ring_mul a c) (ring_mul b c).
Proof.
  intros Ha Hb Hc. apply ntt_inj; [apply ring_mul_poly|apply ring_add_poly|].
  rewrite ntt_ring_mul, !ntt_ring_add, !ntt_ring_mul by auto using ring_add_poly, ring_mul_poly. coefs. modring.
Qed.
Lemma mul_add_r a b c : is_poly a -> is_poly b -> is_poly c -> ring_mul a (ring_add b c) = ring_add (ring_mul a b) (ring_mul a c).
Proof.
  intros Ha Hb Hc. apply ntt_inj; [apply ring_mul_poly|apply ring_add_poly|].
  rewrite ntt_ring_mul, !ntt_ring_add, !ntt_ring_mul by auto using ring_add_poly, ring_mul_poly. coefs. modring.
Qed.
Lemma mul_sub_r a b c : is_poly a -> is_poly b -> is_poly c -> ring_mul a (ring_sub b c) = ring_sub (ring_mul a b) (ring_mul a c).
Proof.
  intros Ha Hb Hc. apply ntt_inj; [apply ring_mul_poly|apply ring_sub_poly|].
  rewrite ntt_ring_mul, !ntt_ring_sub, !ntt_ring_mul by auto using ring_sub_poly, ring_mul_poly. coefs. modring.
Qed.
Lemma mul_assoc a b c : is_poly a -> is_poly b -> is_poly c -> ring_mul a (ring_mul b c) = ring_mul (ring_mul a b) c.
Proof.
  intros Ha Hb Hc. apply ntt_inj; [apply ring_mul_poly|apply ring_mul_poly|].
  rewrite !ntt_ring_mul by auto using ring_mul_poly. coefs. modring.
Qed.
Lemma add4 a b c d : ring_add (ring_add a b) (ring_add c d) = ring_add (ring_add a c) (ring_add b d).
Proof. coefs. modring. Qed.
Lemma sub4 a b c d : ring_add (ring_sub a b) (ring_sub c d) = ring_sub (ring_add a c) (ring_add b d).
Proof. coefs. modring. Qed.
Lemma sub_add_cancel a b : is_poly a -> ring_add b (ring_sub a b) = a.
Proof.
  intros Ha. apply poly_ext; [apply is_poly_length, ring_add_poly|apply is_poly_length, Ha|]. intros k Hk.
  rewrite coef_add, coef_sub by exact Hk. rewrite <- (mod_q_reduced (coef a k)) at 2 by (apply is_poly_coef', Ha). modring.
Qed.

(* ---------- linear maps ---------- *)
Lemma dot_cons a row x v : ring_dot (a :: row) (x :: v) = ring_add (ring_mul a x) (ring_dot row v).
Proof. reflexivity. Qed.
(* a (s c + r) = (a s) c + a r *)
Lemma dot_affine c : is_poly c -> forall row s r, Forall is_poly row -> Forall is_poly s -> Forall is_poly r ->
  length s = length row -> length r = length row ->
  ring_dot row (zipw ring_add (map (fun si => ring_mul si c) s) r) = ring_add (ring_mul (ring_dot row s) c) (ring_dot row r).
Proof.
  intros Hc. induction row as [|a row IH]; intros [|x s] [|y r] Fa Fs Fr Ls Lr; try discriminate Ls; try discriminate Lr.
  - change (ring_zero = ring_add (ring_mul ring_zero c) ring_zero).
    apply poly_ext; [reflexivity|apply is_poly_length, ring_add_poly|]. intros k Hk. rewrite coef_add by exact Hk.
    assert (E : coef (ring_mul ring_zero c) k = 0).
    { unfold ring_mul. rewrite coef_map by exact Hk. unfold negacyclic_coef. rewrite (Zsum_ext _ _ (fun _ => 0)).
      - rewrite Zsum_0. reflexivity.
      - intros i Hi. rewrite coef_ring_zero. destruct (i <=? k)%nat; ring. }
    rewrite E, !coef_ring_zero. reflexivity.
  - inversion Fa; inversion Fs; inversion Fr; subst.
    change (zipw ring_add (map (fun si => ring_mul si c) (x :: s)) (y :: r)) with (ring_add (ring_mul x c) y :: zipw ring_add (map (fun si => ring_mul si c) s) r).
    rewrite !dot_cons. cbn [length] in Ls, Lr. rewrite IH by (assumption || lia).
    rewrite mul_add_r, mul_assoc, add4 by auto using ring_mul_poly. f_equal. symmetry. apply mul_add_l; auto using ring_mul_poly, ring_dot_poly.
Qed.
Lemma dot_sub : forall row u v, Forall is_poly row -> Forall is_poly u -> Forall is_poly v ->
  length u = length row -> length v = length row ->
  ring_dot row (zipw ring_sub u v) = ring_sub (ring_dot row u) (ring_dot row v).
Proof.
  induction row as [|a row IH]; intros [|x u] [|y v] Fa Fu Fv Lu Lv; try discriminate Lu; try discriminate Lv.
  - change (ring_zero = ring_sub ring_zero ring_zero). apply poly_ext; [reflexivity|apply is_poly_length, ring_sub_poly|]. intros k Hk. rewrite coef_sub by exact Hk.
    rewrite !coef_ring_zero. reflexivity.
  - inversion Fa; inversion Fu; inversion Fv; subst.
    change (zipw ring_sub (x :: u) (y :: v)) with (ring_sub x y :: zipw ring_sub u v).
    rewrite !dot_cons. cbn [length] in Lu, Lv. rewrite IH by (assumption || lia). rewrite mul_sub_r by assumption. apply sub4.
Qed.

(* ---------- rounding errors ---------- *)
Lemma bounded_intro B p : is_poly p -> (forall k, (k < 512)%nat -> exists x, coef p k = x mod q /\ Z.abs x <= B) -> bounded_by B p.
Proof.
  intros Hp H. exists (map (centered q) p). pose proof (is_poly_length p Hp) as L. split; [rewrite map_length; exact L|]. split.
  - unfold to_ring. rewrite map_map. rewrite <- (map_id p) at 1. apply map_ext_in. intros x Hx. destruct Hp as [_ F]. rewrite Forall_forall in F.
    specialize (F x Hx). unfold centered. cbv zeta. rewrite (Z.mod_small x q F). destruct (x <=? (q - 1) / 2).
    + symmetry. apply Z.mod_small, F.
    + rewrite <- (Z_mod_plus_full (x - q) 1 q). symmetry. replace (x - q + 1 * q) with x by ring. apply Z.mod_small, F.
  - apply Forall_map, Forall_forall. intros x Hx. destruct (In_nth _ _ 0 Hx) as (k & Hk & E). rewrite L in Hk. destruct (H k Hk) as (y & E1 & E2).
    change (coef p k = x) in E. rewrite <- E, E1. eapply Z.le_trans; [apply centered_min|exact E2]. rewrite q_Q, Q_val. lia.
Qed.
Lemma bounded_poly B p : bounded_by B p -> is_poly p.
Proof.
  intros (xs & L & -> & _). split; [unfold to_ring; rewrite map_length; exact L|]. apply Forall_map, Forall_forall. intros x _. apply reduced_mod.
Qed.
(* 2^nu (round(y) + h mod M) = y + small *)
Lemma round_error nu y h : 1 <= nu <= 47 -> q mod 2 ^ nu <= 2 ^ (nu - 1) -> reduced y -> Z.abs h < q / 2 ^ nu ->
  exists e, (2 ^ nu * ((round_shift nu y + h) mod (q / 2 ^ nu))) mod q = (y + e) mod q /\
            Z.abs e <= 2 ^ (nu - 1) + 2 ^ nu * Z.abs h + q mod 2 ^ nu.
Proof.
  intros Hnu HR Hy Hh. unfold round_shift. rewrite Zplus_mod_idemp_l. unfold reduced in Hy.
  assert (P1 : 2 ^ nu = 2 * 2 ^ (nu - 1)) by (rewrite <- Z.pow_succ_r by lia; f_equal; lia).
  assert (P0 : 0 < 2 ^ (nu - 1)) by (apply Z.pow_pos_nonneg; lia).
  assert (M0 : 0 < q / 2 ^ nu).
  { apply Z.div_str_pos. split; [lia|]. apply (Z.le_trans _ (2 ^ 47)); [apply Z.pow_le_mono_r; lia|]. rewrite q_Q, Q_val. intros X. discriminate X. }
  pose proof (Z.div_mod q (2 ^ nu) ltac:(lia)) as DQ. pose proof (Z.mod_pos_bound q (2 ^ nu) ltac:(lia)) as BQ.
  set (N := 2 ^ nu) in *. set (hf := 2 ^ (nu - 1)) in *. set (M := q / N) in *. set (R := q mod N) in *.
  pose proof (Z.div_mod (y + hf) N ltac:(lia)) as D1. pose proof (Z.mod_pos_bound (y + hf) N ltac:(lia)) as B1.
  set (rho := (y + hf) / N) in *. set (r1 := (y + hf) mod N) in *.
  pose proof (Z.div_mod (rho + h) M ltac:(lia)) as D2. pose proof (Z.mod_pos_bound (rho + h) M ltac:(lia)) as B2.
  set (j := (rho + h) / M) in *. set (w := (rho + h) mod M) in *.
  assert (RB : 0 <= rho <= M).
  { split; [apply Z.div_pos; lia|]. assert (rho < M + 1); [|lia]. apply Z.div_lt_upper_bound; lia. }
  exists (N * rho - y + N * h + j * R). split.
  - assert (E : y + (N * rho - y + N * h + j * R) = N * w + j * q).
    { transitivity (N * (rho + h) + j * R); [ring|]. rewrite D2 at 1. rewrite DQ at 1. ring. }
    rewrite E. symmetry. apply Z_mod_plus_full.
  - assert (J : -1 <= j <= 1).
    { split; nia. }
    assert (JR : Z.abs (j * R) <= R) by (assert (j = -1 \/ j = 0 \/ j = 1) as [->|[->| ->]] by lia; lia).
    assert (NH : Z.abs (N * h) = N * Z.abs h) by (rewrite Z.abs_mul, (Z.abs_eq N) by lia; reflexivity). lia.
Qed.
Lemma coef_round nu y k : is_poly y -> (k < 512)%nat -> coef (round_poly nu y) k = round_shift nu (coef y k).
Proof.
  intros Hy Hk. unfold coef, round_poly. rewrite (nth_indep _ 0 (round_shift nu 0)) by (rewrite map_length, (is_poly_length y Hy); exact Hk). apply map_nth.
Qed.
Lemma scaled_round nu y h b : 1 <= nu <= 47 -> q mod 2 ^ nu <= 2 ^ (nu - 1) -> is_poly y -> b < q / 2 ^ nu ->
  (forall k, (k < 512)%nat -> Z.abs (coef h k) <= b) ->
  bounded_by (2 ^ (nu - 1) + 2 ^ nu * b + q mod 2 ^ nu) (ring_sub (ring_scale (2 ^ nu) (add_mod_poly (q / 2 ^ nu) (round_poly nu y) h)) y).
Proof.
  intros Hnu HR Hy Hb Hh. apply bounded_intro; [apply ring_sub_poly|]. intros k Hk.
  destruct (round_error nu (coef y k) (coef h k) Hnu HR (is_poly_coef' y k Hy)) as (e & E1 & E2); [specialize (Hh k Hk); lia|].
  exists e. split.
  - rewrite coef_sub, coef_scale by exact Hk. unfold add_mod_poly. rewrite coef_map, coef_round by assumption. rewrite Zminus_mod, Z.mod_mod by (rewrite q_Q, Q_val; lia).
    rewrite E1. rewrite <- Zminus_mod. f_equal. ring.
  - specialize (Hh k Hk). assert (P0 : 0 < 2 ^ nu) by (apply Z.pow_pos_nonneg; lia). assert (2 ^ nu * Z.abs (coef h k) <= 2 ^ nu * b) by (apply Z.mul_le_mono_nonneg_l; lia). lia.
Qed.
Lemma scaled_round0 nu y : 1 <= nu <= 47 -> q mod 2 ^ nu <= 2 ^ (nu - 1) -> is_poly y ->
  bounded_by (2 ^ (nu - 1) + q mod 2 ^ nu) (ring_sub (ring_scale (2 ^ nu) (round_poly nu y)) y).
Proof.
  intros Hnu HR Hy. assert (M0 : 0 < q / 2 ^ nu).
  { apply Z.div_str_pos. split; [apply Z.pow_pos_nonneg; lia|]. apply (Z.le_trans _ (2 ^ 47)); [apply Z.pow_le_mono_r; lia|]. rewrite q_Q, Q_val. intros X. discriminate X. }
  pose proof (scaled_round nu y ring_zero 0 Hnu HR Hy M0) as H.
  replace (2 ^ (nu - 1) + 2 ^ nu * 0 + q mod 2 ^ nu) with (2 ^ (nu - 1) + q mod 2 ^ nu) in H by ring.
  replace (add_mod_poly (q / 2 ^ nu) (round_poly nu y) ring_zero) with (round_poly nu y) in H.
  - apply H. intros k Hk. rewrite coef_ring_zero. lia.
  - apply poly_ext; [unfold round_poly; rewrite map_length; apply is_poly_length, Hy|unfold add_mod_poly; rewrite map_length; apply seq_length|].
    intros k Hk. unfold add_mod_poly. rewrite coef_map by exact Hk. rewrite coef_ring_zero, coef_round by assumption. rewrite Z.add_0_r. unfold round_shift. rewrite Z.mod_mod by lia. reflexivity.
Qed.
(* ---------- the verification equation ---------- *)
Lemma commitment_relation nut nuw c z b : 1 <= nuw <= 47 -> q mod 2 ^ nuw <= 2 ^ (nuw - 1) -> b < q / 2 ^ nuw -> forall A t h,
  length t = length A -> length h = length A -> Forall (fun p => forall k, (k < 512)%nat -> Z.abs (coef p k) <= b) h ->
  exists e, length e = length A /\ Forall (bounded_by (2 ^ (nuw - 1) + 2 ^ nuw * b + q mod 2 ^ nuw)) e /\
    zipw ring_add (ring_matvec A z) e
    = zipw ring_add (map (fun p => ring_mul (ring_scale (2 ^ nut) p) c) t) (map (ring_scale (2 ^ nuw)) (commitment nut nuw A t c z h)).
Proof.
  intros Hnu HR Hb. induction A as [|a A IH]; intros [|p t] [|x h] Lt Lh Fh; try discriminate Lt; try discriminate Lh.
  - exists []. split; [reflexivity|]. split; [constructor|reflexivity].
  - inversion Fh as [|? ? Hx Fh']; subst. cbn [length] in Lt, Lh. destruct (IH t h ltac:(lia) ltac:(lia) Fh') as (e & Le & Fe & Ee).
    set (u := ring_dot a z). set (v := ring_mul (ring_scale (2 ^ nut) p) c). set (y := ring_sub u v).
    set (w := add_mod_poly (q / 2 ^ nuw) (round_poly nuw y) x).
    exists (ring_sub (ring_scale (2 ^ nuw) w) y :: e). split; [cbn [length]; lia|]. split.
    + constructor; [|exact Fe]. apply scaled_round; try assumption. apply ring_sub_poly.
    + change (zipw ring_add (ring_matvec (a :: A) z) (ring_sub (ring_scale (2 ^ nuw) w) y :: e))
        with (ring_add u (ring_sub (ring_scale (2 ^ nuw) w) y) :: zipw ring_add (ring_matvec A z) e).
      change (zipw ring_add (map (fun p => ring_mul (ring_scale (2 ^ nut) p) c) (p :: t)) (map (ring_scale (2 ^ nuw)) (commitment nut nuw (a :: A) (p :: t) c z (x :: h))))
        with (ring_add v (ring_scale (2 ^ nuw) w) :: zipw ring_add (map (fun p => ring_mul (ring_scale (2 ^ nut) p) c) t) (map (ring_scale (2 ^ nuw)) (commitment nut nuw A t c z h))).
      rewrite Ee. f_equal. unfold y. generalize (ring_scale (2 ^ nuw) w). intros sw. clearbody u v. clear. coefs. modring.
Qed.
Lemma cons_eq {X} (a b : X) l m : a :: l = b :: m -> a = b /\ l = m.
Proof. intros E. injection E. auto. Qed.
(* two openings of one commitment *)
Lemma two_openings nut nuw A t c c' z z' w e e' k l Bz Be :
  length A = k -> Forall (fun row => length row = l /\ Forall is_poly row) A -> length t = k -> length z = l -> length z' = l ->
  is_poly c -> is_poly c' -> Forall (bounded_by Bz) z -> Forall (bounded_by Bz) z' -> Forall (bounded_by Be) e -> Forall (bounded_by Be) e' -> length e = k -> length e' = k -> length w = k ->
  zipw ring_add (ring_matvec A z) e = zipw ring_add (map (fun p => ring_mul (ring_scale (2 ^ nut) p) c) t) (map (ring_scale (2 ^ nuw)) w) ->
  zipw ring_add (ring_matvec A z') e' = zipw ring_add (map (fun p => ring_mul (ring_scale (2 ^ nut) p) c') t) (map (ring_scale (2 ^ nuw)) w) ->
  zipw ring_add (ring_matvec A (zipw ring_sub z z')) (zipw ring_sub e e') = map (fun p => ring_mul (ring_scale (2 ^ nut) p) (ring_sub c c')) t.
Proof.
  intros LA FA Lt Lz Lz' Hc Hc' Bz1 Bz2 _ _ Le Le' Lw. subst k. assert (Pz : Forall is_poly z) by (refine (Forall_impl _ _ Bz1); apply bounded_poly).
  assert (Pz' : Forall is_poly z') by (refine (Forall_impl _ _ Bz2); apply bounded_poly). clear Bz1 Bz2.
  revert t e e' w Lt Le Le' Lw. induction FA as [|a A [La Fa] FA IH]; intros [|p t] [|x e] [|x' e'] [|y w] Lt Le Le' Lw; cbn [length] in *; try lia; intros E E'.
  - reflexivity.
  - change (ring_add (ring_dot a z) x :: zipw ring_add (ring_matvec A z) e
            = ring_add (ring_mul (ring_scale (2 ^ nut) p) c) (ring_scale (2 ^ nuw) y) :: zipw ring_add (map (fun p => ring_mul (ring_scale (2 ^ nut) p) c) t) (map (ring_scale (2 ^ nuw)) w)) in E.
    change (ring_add (ring_dot a z') x' :: zipw ring_add (ring_matvec A z') e'
            = ring_add (ring_mul (ring_scale (2 ^ nut) p) c') (ring_scale (2 ^ nuw) y) :: zipw ring_add (map (fun p => ring_mul (ring_scale (2 ^ nut) p) c') t) (map (ring_scale (2 ^ nuw)) w)) in E'.
    apply cons_eq in E. destruct E as [E1 E2]. apply cons_eq in E'. destruct E' as [E1' E2']. specialize (IH t e e' w ltac:(lia) ltac:(lia) ltac:(lia) ltac:(lia) E2 E2').
    change (ring_add (ring_dot a (zipw ring_sub z z')) (ring_sub x x') :: zipw ring_add (ring_matvec A (zipw ring_sub z z')) (zipw ring_sub e e')
            = ring_mul (ring_scale (2 ^ nut) p) (ring_sub c c') :: map (fun p => ring_mul (ring_scale (2 ^ nut) p) (ring_sub c c')) t).
    rewrite IH. f_equal. rewrite dot_sub by (assumption || lia). rewrite mul_sub_r by (assumption || apply ring_scale_poly). rewrite sub4, E1, E1'.
    clear. coefs. modring.
Qed.
(* ---------- hints of honest attempts ---------- *)
Lemma floor_diff a b N : 0 < N -> Z.abs (a / N - b / N) <= Z.abs (a - b) / N + 1.
Proof.
  intros HN. pose proof (Z.div_mod a N ltac:(lia)) as Da. pose proof (Z.mod_pos_bound a N HN) as Ba.
  pose proof (Z.div_mod b N ltac:(lia)) as Db. pose proof (Z.mod_pos_bound b N HN) as Bb.
  pose proof (Z.div_mod (Z.abs (a - b)) N ltac:(lia)) as Dc. pose proof (Z.mod_pos_bound (Z.abs (a - b)) N HN) as Bc.
  set (x := a / N) in *. set (y := b / N) in *. set (d := Z.abs (a - b) / N) in *.
  assert (D0 : 0 <= d) by (apply Z.div_pos; lia). clearbody x y d.
  assert (X : N * Z.abs (x - y) < N * (d + 2)).
  { rewrite <- (Z.abs_eq N) at 1 by lia. rewrite <- Z.abs_mul. rewrite Z.mul_sub_distr_l. lia. }
  apply Z.mul_lt_mono_pos_l in X; lia.
Qed.
Lemma hint_error nu W y x D : 1 <= nu <= 47 -> reduced W -> reduced y -> (W - y) mod q = x mod q -> Z.abs x <= D -> D < q ->
  Z.abs (centered (q / 2 ^ nu) ((round_shift nu W - round_shift nu y) mod (q / 2 ^ nu))) <= (D + q mod 2 ^ nu) / 2 ^ nu + 1.
Proof.
  intros Hnu HW Hy E Hx HD. unfold reduced in *.
  assert (P0 : 0 < 2 ^ nu) by (apply Z.pow_pos_nonneg; lia).
  assert (M0 : 0 < q / 2 ^ nu).
  { apply Z.div_str_pos. split; [lia|]. apply (Z.le_trans _ (2 ^ 47)); [apply Z.pow_le_mono_r; lia|]. rewrite q_Q, Q_val. intros X. discriminate X. }
  assert (Q0 : 0 < q) by lia.
  assert (Ej : exists j, y = W - x + j * q /\ -1 <= j <= 1).
  { pose proof (Z.div_mod (W - y) q ltac:(lia)) as D1. pose proof (Z.div_mod x q ltac:(lia)) as D2. rewrite E in D1.
    exists (x / q - (W - y) / q). assert (EQ : y = W - x + (x / q - (W - y) / q) * q) by lia. split; [exact EQ|].
    generalize dependent (x / q - (W - y) / q). intros j EQ. split; nia. }
  destruct Ej as (j & Ej & Hj).
  pose proof (Z.div_mod q (2 ^ nu) ltac:(lia)) as DQ. pose proof (Z.mod_pos_bound q (2 ^ nu) ltac:(lia)) as BQ.
  unfold round_shift. rewrite <- Zminus_mod. set (N := 2 ^ nu) in *. set (M := q / N) in *. set (R := q mod N) in *. set (hf := 2 ^ (nu - 1)).
  assert (Ey : (y + hf) / N = (W - x + j * R + hf) / N + j * M).
  { rewrite <- Z.div_add by lia. f_equal. rewrite Ej. rewrite DQ at 1. ring. }
  replace (((W + hf) / N - (y + hf) / N) mod M) with (((W + hf) / N - (W - x + j * R + hf) / N) mod M).
  2:{ rewrite Ey. rewrite <- (Z_mod_plus_full _ (-j) M). f_equal. ring. }
  eapply Z.le_trans; [apply centered_min, M0|]. eapply Z.le_trans; [apply floor_diff, P0|].
  apply Z.add_le_mono_r. apply Z.div_le_mono; [lia|].
  assert (JR : Z.abs (j * R) <= R) by (assert (j = -1 \/ j = 0 \/ j = 1) as [->|[->| ->]] by lia; lia). lia.
Qed.
Lemma round_len nu p : is_poly p -> length (round_poly nu p) = 512%nat.
Proof. intros H. unfold round_poly. rewrite map_length. apply is_poly_length, H. Qed.
(* one row: T = a s + e, t = round(T); W = a r + e'; y = a (s c + r) - 2^nut t c *)
Lemma hint_row nut nuw a s e r e' c Bt Bw omega : 1 <= nut <= 47 -> 1 <= nuw <= 47 -> q mod 2 ^ nut <= 2 ^ (nut - 1) ->
  Forall is_poly a -> Forall is_poly s -> Forall is_poly r -> length s = length a -> length r = length a ->
  bounded_by Bt e -> bounded_by Bw e' -> 0 <= Bt ->
  is_poly c -> Forall (fun x => x = 0 \/ x = 1 \/ x = q - 1) c -> length (filter (fun x => negb (x =? 0)) c) = omega ->
  let D := Bw + Z.of_nat omega * (Bt + (2 ^ (nut - 1) + q mod 2 ^ nut)) in D < q ->
  let t := round_poly nut (ring_add (ring_dot a s) e) in
  let W := ring_add (ring_dot a r) e' in
  let y := ring_sub (ring_dot a (zipw ring_add (map (fun si => ring_mul si c) s) r)) (ring_mul (ring_scale (2 ^ nut) t) c) in
  Forall (fun x => Z.abs x <= (D + q mod 2 ^ nuw) / 2 ^ nuw + 1)
    (map (centered (q / 2 ^ nuw)) (sub_mod_poly (q / 2 ^ nuw) (round_poly nuw W) (round_poly nuw y))).
Proof.
  intros Hnut Hnuw HR Fa Fs Fr Ls Lr Be Be' HBt Hc Fc Wc D HD t W y.
  pose proof (bounded_poly _ _ Be) as Pe. pose proof (bounded_poly _ _ Be') as Pe'.
  set (T := ring_add (ring_dot a s) e) in *. assert (PT : is_poly T) by apply ring_add_poly.
  set (dl := ring_sub (ring_scale (2 ^ nut) t) T).
  assert (Bd : bounded_by (2 ^ (nut - 1) + q mod 2 ^ nut) dl) by (apply scaled_round0; assumption).
  assert (Et : ring_scale (2 ^ nut) t = ring_add T dl) by (symmetry; apply sub_add_cancel, ring_scale_poly).
  assert (Py : is_poly y) by apply ring_sub_poly. assert (PW : is_poly W) by apply ring_add_poly.
  set (x := ring_add e' (ring_mul (ring_add e dl) c)).
  assert (Bx : bounded_by D x).
  { unfold x, D. apply bounded_add; [exact Be'|]. apply bounded_mul_challenge; [|apply bounded_add; assumption|apply is_poly_length, Hc|exact Fc|exact Wc].
    assert (0 < 2 ^ (nut - 1)) by (apply Z.pow_pos_nonneg; lia). assert (0 <= q mod 2 ^ nut) by (apply Z.mod_pos_bound, Z.pow_pos_nonneg; lia). lia. }
  assert (Ey : ring_sub W y = x).
  { unfold y. rewrite dot_affine, Et by assumption. unfold T, W. pose proof (bounded_poly _ _ Bd) as Pd. fold T W in PT, PW.
    unfold x. rewrite (mul_add_l (ring_add (ring_dot a s) e) dl c PT Pd Hc), (mul_add_l (ring_dot a s) e c (ring_dot_poly _ _) Pe Hc), (mul_add_l e dl c Pe Pd Hc). clearbody dl. clear. coefs. modring. }
  apply Forall_map, Forall_forall. intros v Hv. unfold sub_mod_poly in Hv. apply in_map_iff in Hv. destruct Hv as (k & <- & Hk). apply in_seq in Hk.
  rewrite !coef_round by (assumption || lia). destruct Bx as (xs & Lx & Ex & Fx).
  apply (hint_error nuw (coef W k) (coef y k) (coef xs k) D Hnuw (is_poly_coef' _ _ PW) (is_poly_coef' _ _ Py)); [|rewrite Forall_forall in Fx; apply Fx, nth_In; lia|exact HD].
  rewrite <- coef_sub, Ey, Ex by lia. apply coef_to_ring; [exact Lx|lia].
Qed.
Lemma hint_rows nut nuw s r c Bt Bw omega : 1 <= nut <= 47 -> 1 <= nuw <= 47 -> q mod 2 ^ nut <= 2 ^ (nut - 1) ->
  Forall is_poly s -> Forall is_poly r -> length r = length s -> 0 <= Bt ->
  is_poly c -> Forall (fun x => x = 0 \/ x = 1 \/ x = q - 1) c -> length (filter (fun x => negb (x =? 0)) c) = omega ->
  let D := Bw + Z.of_nat omega * (Bt + (2 ^ (nut - 1) + q mod 2 ^ nut)) in D < q ->
  forall A, Forall (fun row => length row = length s /\ Forall is_poly row) A -> forall e e', length e = length A -> length e' = length A ->
  Forall (bounded_by Bt) e -> Forall (bounded_by Bw) e' ->
  let t := map (round_poly nut) (zipw ring_add (ring_matvec A s) e) in
  let w := map (round_poly nuw) (zipw ring_add (ring_matvec A r) e') in
  let zr := zipw ring_add (map (fun si => ring_mul si c) s) r in
  Forall (fun x => Z.abs x <= (D + q mod 2 ^ nuw) / 2 ^ nuw + 1)
    (concat (map (map (centered (q / 2 ^ nuw))) (zipw (sub_mod_poly (q / 2 ^ nuw)) w (noisy_product nut nuw A t c zr)))).
Proof.
  intros Hnut Hnuw HR Fs Fr Lr HBt Hc Fc Wc D HD. induction A as [|a A IH]; intros FA [|x e] [|x' e'] Le Le' Be Be'; try discriminate Le; try discriminate Le'.
  - constructor.
  - inversion FA as [|? ? [La Fa] FA']; inversion Be as [|? ? Bx Be1]; inversion Be' as [|? ? Bx' Be1']; subst. cbn [length] in Le, Le'.
    specialize (IH FA' e e' ltac:(lia) ltac:(lia) Be1 Be1').
    pose proof (hint_row nut nuw a s x r x' c Bt Bw _ Hnut Hnuw HR Fa Fs Fr (eq_sym La) ltac:(lia) Bx Bx' HBt Hc Fc eq_refl HD) as R. cbv zeta in R, IH |- *.
    cbn [map ring_matvec zipw combine noisy_product concat]. apply Forall_app. split; [exact R|exact IH].
Qed.
Lemma params_rounding P : params_ok P = true -> 1 <= p_nut P <= 47 /\ 1 <= p_nuw P <= 47 /\
  q mod 2 ^ p_nut P <= 2 ^ (p_nut P - 1) /\ q mod 2 ^ p_nuw P <= 2 ^ (p_nuw P - 1).
Proof.
  intros HP. destruct (params_facts P HP) as (kb & e & F). rewrite (pf_nut _ _ _ F), (pf_nuw _ _ _ F). rewrite q_Q, Q_val.
  split; [lia|]. split; [lia|]. split; vm_compute; discriminate.
Qed.
Definition hint_error_bound (P : params) : Z :=
  noise_bound_of P (p_uw P) + Z.of_nat (p_omega P) * (noise_bound_of P (p_ut P) + (2 ^ (p_nut P - 1) + q mod 2 ^ p_nut P)).
Lemma hint_bound_num P : params_ok P = true -> hint_error_bound P < q /\ 0 <= noise_bound_of P (p_ut P) /\
  (hint_error_bound P + q mod 2 ^ p_nuw P) / 2 ^ p_nuw P + 1 <= (if p_kappa P =? 128 then 5 else if p_kappa P =? 192 then 7 else 8).
Proof.
  intros HP. unfold hint_error_bound. rewrite q_Q, Q_val. destruct (params_ok_cases P HP) as (d & Id & C). cbn [dvals In] in Id.
  destruct C as [->|[->| ->]]; repeat (destruct Id as [<-|Id]; [split; [|split]; vm_compute; congruence|]); contradiction.
Qed.
Lemma attempt_hint_bound O fuel P seed tp sk A s T mu n c cp h z : params_ok P = true -> Forall is_byte seed -> length seed = Z.to_nat (p_kappa P / 8) ->
  sk_generate O fuel P seed tp = Ok sk -> public_matrix (hash_of O) (pk_seed (sk_pkey sk)) (p_k P) (p_l P) A ->
  Forall is_poly s -> map transform s = map unmask (sk_s sk) ->
  sign_attempt (hash_of O) T (row_of P) A (rows1 (pk_t (sk_pkey sk))) s mu n c cp h z ->
  Forall (fun x => Z.abs x <= (hint_error_bound P + q mod 2 ^ p_nuw P) / 2 ^ p_nuw P + 1) h.
Proof.
  intros HP B L EG HA Ps Es (_ & HC & _ & Hh). pose proof (generate_spec O fuel P seed tp HP B L) as G. rewrite EG in G. cbn [wp] in G.
  destruct G as (G1 & G2 & G3 & A' & G4 & G5 & G6 & G7 & G8).
  rewrite G1 in HA. assert (EA : A' = A) by (eapply public_matrix_fun; eassumption). subst A'.
  destruct (params_facts P HP) as (kb & e0 & F). pose proof (pf_uw _ _ _ F) as Huw. pose proof (pf_omega _ _ _ F) as Ho.
  destruct (params_rounding P HP) as (N1 & N2 & N3 & N4). destruct (hint_bound_num P HP) as (N5 & N6 & _).
  destruct (noise_polys (hash_of O) (tape_of tp) (row_of P) (p_ut P) (p_l P) 0) as [Fs Lns].
  destruct (noise_polys (hash_of O) (tape_of tp) (row_of P) (p_ut P) (p_k P) (p_l P * row_bytes (row_of P))) as [Fe Le].
  assert (Es' : s = noise (hash_of O) (tape_of tp) (row_of P) (p_ut P) (p_l P) 0).
  { apply transform_inj_list; [exact Ps|exact Fs|]. rewrite Es. exact G5. }
  assert (Lss : length s = p_l P) by (rewrite Es'; exact Lns). clear Lns Fs.
  rewrite <- Es' in *.
  set (e := noise (hash_of O) (tape_of tp) (row_of P) (p_ut P) (p_k P) (p_l P * row_bytes (row_of P))) in *.
  cbn [row_of r_k r_l r_uw r_omega r_nuw r_nut] in Hh, HC. cbv zeta in Hh, HC. repeat rewrite Nat2Z.id in Hh. repeat rewrite Nat2Z.id in HC.
  set (pos := (n * ((p_l P + p_k P) * row_bytes (row_of P)))%nat) in *.
  destruct (noise_polys (hash_of O) T (row_of P) (p_uw P) (p_l P) pos) as [Fr Lr].
  destruct (noise_polys (hash_of O) T (row_of P) (p_uw P) (p_k P) (pos + p_l P * row_bytes (row_of P))) as [Fe' Le'].
  pose proof (noise_bounded (hash_of O) T P (p_uw P) (p_k P) (pos + p_l P * row_bytes (row_of P)) ltac:(lia)) as Be'.
  destruct (challenge_poly_facts O (p_omega P) c cp ltac:(lia) HC) as (Lc & Fc & Wc).
  assert (Pc : is_poly cp).
  { split; [exact Lc|]. refine (Forall_impl _ _ Fc). intros x [->|[->| ->]]; unfold reduced; rewrite q_Q, Q_val; lia. }
  destruct HA as (LA & FA & _).
  rewrite Hh, G6. apply (hint_rows (p_nut P) (p_nuw P) s _ cp (noise_bound_of P (p_ut P)) (noise_bound_of P (p_uw P)) (p_omega P)); try assumption.
  - etransitivity; [exact Lr|symmetry; exact Lss].
  - refine (Forall_impl _ _ FA). intros row [R1 R2]. split; [etransitivity; [exact R1|symmetry; exact Lss]|exact R2].
  - congruence.
  - congruence.
Qed.
