(* Value semantics of the portable 128-bit integers. *)
From Coq Require Import ZArith Lia Bool List ZifyBool.
From Verif Require Import ModelBase ModelU128 Words.
Open Scope Z_scope.
Ltac Zify.zify_post_hook ::= Z.div_mod_to_equations.

Definition val (a : u128) : Z := u_hi a * two64 + u_lo a.
Definition wf128 (a : u128) : Prop := is64 (u_hi a) /\ is64 (u_lo a).

Lemma two128_pow : two128 = 2 ^ 128. Proof. reflexivity. Qed.

Lemma val_range a : wf128 a -> 0 <= val a < two128.
Proof. unfold wf128, is64, val, two64, two128. lia. Qed.
Lemma val_inj a b : wf128 a -> wf128 b -> val a = val b -> a = b.
Proof.
  destruct a as [h l], b as [h' l']. unfold wf128, val, is64, two64. cbn [u_hi u_lo].
  intros H1 H2 E. assert (h = h') by lia. assert (l = l') by lia. congruence.
Qed.

Lemma val_zero : val u128_zero = 0. Proof. reflexivity. Qed.
Lemma wf_zero : wf128 u128_zero. Proof. split; unfold is64, two64; cbn; lia. Qed.
Lemma val_from v : val (u128_from v) = v. Proof. reflexivity. Qed.
Lemma wf_from v : is64 v -> wf128 (u128_from v).
Proof. intros H. split; [unfold is64, two64; cbn; lia | exact H]. Qed.

Lemma to64_spec a : wf128 a -> u128_to 64 a = val a mod two64.
Proof.
  intros [Hh Hl]. unfold u128_to, val. change (2 ^ 64) with two64.
  rewrite Z.add_comm, Z_mod_plus_full. reflexivity.
Qed.
Lemma to_spec bits a : 0 <= bits <= 64 -> wf128 a -> u128_to bits a = val a mod 2 ^ bits.
Proof.
  intros Hb [Hh Hl]. unfold u128_to, val. rewrite two64_pow.
  replace 64 with (bits + (64 - bits)) at 1 by lia.
  rewrite Z.pow_add_r by lia.
  replace (u_hi a * (2 ^ bits * 2 ^ (64 - bits)) + u_lo a)
    with (u_lo a + (u_hi a * 2 ^ (64 - bits)) * 2 ^ bits) by ring.
  rewrite Z_mod_plus_full. reflexivity.
Qed.

(* ---- mul_full_u64 ---- *)
Lemma mul_full_u64_spec a b :
  is64 a -> is64 b ->
  let '(h, l) := mul_full_u64 a b in is64 h /\ is64 l /\ h * two64 + l = a * b.
Proof.
  unfold is64. intros Ha Hb. unfold mul_full_u64.
  rewrite !shr64_spec by lia. rewrite !(land_mask _ 32 MASK32) by (try reflexivity; lia).
  change (2 ^ 32) with 4294967296. rewrite !shl64_spec by lia. change (2 ^ 32) with 4294967296.
  unfold add64, mul64, u64.
  set (a1 := a / 4294967296). set (a0 := a mod 4294967296).
  set (b1 := b / 4294967296). set (b0 := b mod 4294967296).
  assert (Ea : a = a1 * 4294967296 + a0) by (subst a1 a0; lia).
  assert (Eb : b = b1 * 4294967296 + b0) by (subst b1 b0; lia).
  assert (Ha1 : 0 <= a1 < 4294967296) by (subst a1; unfold two64 in *; lia).
  assert (Ha0 : 0 <= a0 < 4294967296) by (subst a0; lia).
  assert (Hb1 : 0 <= b1 < 4294967296) by (subst b1; unfold two64 in *; lia).
  assert (Hb0 : 0 <= b0 < 4294967296) by (subst b0; lia).
  assert (Hp : forall x y, 0 <= x < 4294967296 -> 0 <= y < 4294967296 ->
                           0 <= x * y <= 18446744065119617025).
  { intros x y Hx Hy. split; [apply Z.mul_nonneg_nonneg; lia|].
    change 18446744065119617025 with (4294967295 * 4294967295).
    apply Z.mul_le_mono_nonneg; lia. }
  pose proof (Hp a1 b1 Ha1 Hb1) as P11. pose proof (Hp a0 b0 Ha0 Hb0) as P00.
  pose proof (Hp a0 b1 Ha0 Hb1) as P01. pose proof (Hp a1 b0 Ha1 Hb0) as P10.
  assert (Eab : a * b = a1 * b1 * two64 + (a0 * b1 + a1 * b0) * 4294967296 + a0 * b0).
  { rewrite Ea, Eb. unfold two64. ring. }
  rewrite Eab. clearbody a1 a0 b1 b0. clear Ea Eb Eab Ha Hb.
  generalize dependent (a1 * b1). generalize dependent (a0 * b0).
  generalize dependent (a0 * b1). generalize dependent (a1 * b0).
  intros p10 P10 p01 P01 p00 P00 p11 P11. clear Hp.
  rewrite (Z.mod_small p10), (Z.mod_small p01), (Z.mod_small p00), (Z.mod_small p11)
    by (unfold two64; lia).
  rewrite !(Z.mod_small (_ * 4294967296) two64) by (unfold two64; lia).
  set (x := p01 mod 4294967296). set (x' := p01 / 4294967296).
  set (y := p10 mod 4294967296). set (y' := p10 / 4294967296).
  assert (E1 : p01 = x' * 4294967296 + x) by (subst x x'; lia).
  assert (E2 : p10 = y' * 4294967296 + y) by (subst y y'; lia).
  assert (0 <= x < 4294967296) by (subst x; lia).
  assert (0 <= y < 4294967296) by (subst y; lia).
  assert (0 <= x' <= 4294967294) by (subst x'; lia).
  assert (0 <= y' <= 4294967294) by (subst y'; lia).
  clearbody x x' y y'. subst p01 p10.
  rewrite (Z.mod_small (p00 / 4294967296 + x)) by (unfold two64; lia).
  rewrite (Z.mod_small (p00 / 4294967296 + x + y)) by (unfold two64; lia).
  set (c := (p00 / 4294967296 + x + y) / 4294967296).
  assert (Hc : 0 <= c <= 2) by (subst c; lia).
  rewrite (Z.mod_small (p11 + x')) by (unfold two64; lia).
  rewrite (Z.mod_small (p11 + x' + y')) by (unfold two64; lia).
  rewrite (Z.mod_small (p11 + x' + y' + c)) by (unfold two64; lia).
  rewrite Z.add_mod_idemp_l by (unfold two64; lia).
  assert (El : (p00 + x * 4294967296 + y * 4294967296) mod two64
               = p00 + x * 4294967296 + y * 4294967296 - c * two64).
  { symmetry. apply Z.mod_unique with c; subst c; unfold two64; lia. }
  rewrite El. split; [unfold two64; lia|]. split; [|unfold two64; lia].
  subst c. unfold two64. lia.
Qed.

(* ---- addition, negation, subtraction ---- *)
Lemma u128_add_spec a b : wf128 a -> wf128 b ->
  wf128 (u128_add a b) /\ val (u128_add a b) = (val a + val b) mod two128.
Proof.
  destruct a as [ah al], b as [bh bl]. unfold wf128, is64, val, u128_add, add64, sub64, u64, b2z.
  cbn [u_hi u_lo]. intros [Hah Hal] [Hbh Hbl].
  rewrite (Z.mod_small (two64 - 1 - bl)) by (unfold two64 in *; lia).
  split.
  - split; apply Z.mod_pos_bound; reflexivity.
  - rewrite Z.add_mod_idemp_l by (unfold two64; lia).
    set (c := if two64 - 1 - bl <? al then 1 else 0).
    assert (El : (al + bl) mod two64 = al + bl - c * two64).
    { subst c. destruct (two64 - 1 - bl <? al) eqn:E; symmetry;
        [apply Z.mod_unique with 1 | apply Z.mod_unique with 0]; unfold two64 in *; lia. }
    assert (Hc : 0 <= c <= 1) by (subst c; destruct (two64 - 1 - bl <? al); lia).
    rewrite El. clearbody c.
    assert (Hl : 0 <= al + bl - c * two64 < two64).
    { rewrite <- El. apply Z.mod_pos_bound. reflexivity. }
    set (S := ah + bh + c).
    pose proof (Z.div_mod S two64 ltac:(unfold two64; lia)) as D.
    pose proof (Z.mod_pos_bound S two64 eq_refl) as DB.
    apply Z.mod_unique with (S / two64); unfold two128, two64 in *; subst S; lia.
Qed.

Lemma u128_neg_spec a : wf128 a ->
  wf128 (u128_neg a) /\ val (u128_neg a) = (- val a) mod two128.
Proof.
  destruct a as [h l]. unfold wf128, is64, val, u128_neg, neg64, add64, u64, b2z.
  cbn [u_hi u_lo]. intros [Hh Hl]. split.
  - split; apply Z.mod_pos_bound; reflexivity.
  - destruct (0 <? l) eqn:E.
    + assert (El : (- l) mod two64 = two64 - l)
        by (symmetry; apply Z.mod_unique with (-1); unfold two64 in *; lia).
      rewrite El.
      destruct (Z.eq_dec (h + 1) two64) as [Eh|Eh].
      * rewrite Eh, Z_mod_same_full. change ((- 0) mod two64) with 0.
        apply Z.mod_unique with (-1); unfold two128, two64 in *; lia.
      * rewrite (Z.mod_small (h + 1)) by lia.
        assert (E2 : (- (h + 1)) mod two64 = two64 - (h + 1))
          by (symmetry; apply Z.mod_unique with (-1); unfold two64 in *; lia).
        rewrite E2. apply Z.mod_unique with (-1); unfold two128, two64 in *; lia.
    + assert (l = 0) by lia. subst l. change ((- 0) mod two64) with 0.
      rewrite (Z.add_0_r h), (Z.mod_small h) by lia.
      destruct (Z.eq_dec h 0) as [->|Hne]; [reflexivity|].
      assert (E2 : (- h) mod two64 = two64 - h)
        by (symmetry; apply Z.mod_unique with (-1); unfold two64 in *; lia).
      rewrite E2. apply Z.mod_unique with (-1); unfold two128, two64 in *; lia.
Qed.

Lemma u128_sub_spec a b : wf128 a -> wf128 b ->
  wf128 (u128_sub a b) /\ val (u128_sub a b) = (val a - val b) mod two128.
Proof.
  intros Ha Hb. unfold u128_sub. destruct (u128_neg_spec b Hb) as [W E].
  destruct (u128_add_spec a _ Ha W) as [W2 E2]. split; [exact W2|].
  rewrite E2, E, Zplus_mod_idemp_r. reflexivity.
Qed.

Lemma u128_mul_spec a b : wf128 a -> wf128 b ->
  wf128 (u128_mul a b) /\ val (u128_mul a b) = (val a * val b) mod two128.
Proof.
  destruct a as [ah al], b as [bh bl]. intros [Hah Hal] [Hbh Hbl]. unfold u128_mul. cbn [u_hi u_lo] in *.
  pose proof (mul_full_u64_spec al bl Hal Hbl) as M.
  destruct (mul_full_u64 al bl) as [mh ml]. destruct M as (Hmh & Hml & Em).
  unfold wf128, val, add64, mul64. cbn [u_hi u_lo]. split.
  - split; [apply u64_range | exact Hml].
  - unfold u64. rewrite <- Zplus_mod. rewrite Zplus_mod_idemp_l.
    set (S := al * bh + ah * bl + mh).
    pose proof (Z.div_mod S two64 ltac:(unfold two64; lia)) as D.
    pose proof (Z.mod_pos_bound S two64 eq_refl) as DB.
    apply Z.mod_unique with (S / two64 + ah * bh); [unfold is64, two128, two64 in *; lia|].
    assert (E : (ah * two64 + al) * (bh * two64 + bl)
                = ah * bh * two128 + (al * bh + ah * bl) * two64 + al * bl).
    { unfold two128, two64. ring. }
    rewrite E. rewrite <- Em. subst S. unfold two128, two64 in *. lia.
Qed.

Lemma mul_ge1 p h : 1 <= p -> 0 <= h -> h <= p * h.
Proof. intros. rewrite <- (Z.mul_1_l h) at 1. apply Z.mul_le_mono_nonneg_r; lia. Qed.

Lemma shl_aux X Y q p : 0 <= X <= two64 - p -> 0 <= Y <= two64 - p -> 0 <= q < p ->
  0 <= (X + q) * two64 + Y < two128.
Proof. unfold two64, two128. lia. Qed.

(* ---- shifts ---- *)
Lemma u128_shl_spec a n : wf128 a -> 0 <= n <= 128 ->
  wf128 (u128_shl a n) /\ val (u128_shl a n) = (val a * 2 ^ n) mod two128.
Proof.
  destruct a as [h l]. intros [Hh Hl] Hn. cbn [u_hi u_lo] in *. unfold u128_shl.
  destruct (n =? 0) eqn:E0.
  { assert (n = 0) by lia. subst. split; [split; assumption|].
    unfold val; cbn [u_hi u_lo]. rewrite Z.mul_1_r, Z.mod_small; [reflexivity|].
    unfold is64, two64, two128 in *. lia. }
  destruct (n =? 128) eqn:E1.
  { assert (n = 128) by lia. subst. split; [exact wf_zero|].
    unfold val; cbn [u_hi u_lo]. change (2 ^ 128) with two128. now rewrite Z_mod_mult. }
  destruct (n <? 64) eqn:E2.
  { cbn [u_hi u_lo]. rewrite !shl64_spec, shr64_spec by lia.
    set (p := 2 ^ n). set (r := 2 ^ (64 - n)).
    assert (Hpr : p * r = two64) by (subst p r; rewrite <- Z.pow_add_r by lia; rewrite two64_pow; f_equal; lia).
    assert (Hp : 1 <= p) by (subst p; pose proof (Z.pow_pos_nonneg 2 n); lia).
    assert (Hr : 1 <= r) by (subst r; pose proof (Z.pow_pos_nonneg 2 (64 - n)); lia).
    assert (Hm : 0 <= l / r < p).
    { unfold is64 in Hl. split; [apply Z.div_pos; lia|]. apply Z.div_lt_upper_bound; [lia|].
      rewrite Z.mul_comm, Hpr. lia. }
    assert (Hhp : (h * p) mod two64 = (h mod r) * p).
    { rewrite <- Hpr. rewrite (Z.mul_comm p r). rewrite Z.mul_mod_distr_r by lia. reflexivity. }
    rewrite Hhp.
    assert (EL : Z.lor (h mod r * p) (l / r) = h mod r * p + l / r)
      by (apply (lor_disjoint' _ _ n); [lia | exact Hm]).
    rewrite EL. clear EL. clearbody p r.
    assert (Hlp : (l * p) mod two64 = (l mod r) * p).
    { rewrite <- Hpr. rewrite (Z.mul_comm p r). rewrite Z.mul_mod_distr_r by lia. reflexivity. }
    pose proof (Z.mod_pos_bound h r ltac:(lia)) as Bh.
    pose proof (Z.mod_pos_bound l r ltac:(lia)) as Bl.
    assert (Bhp : 0 <= (h mod r) * p <= (r - 1) * p).
    { split; [apply Z.mul_nonneg_nonneg; lia | apply Z.mul_le_mono_nonneg_r; lia]. }
    assert (Blp : 0 <= (l mod r) * p <= (r - 1) * p).
    { split; [apply Z.mul_nonneg_nonneg; lia | apply Z.mul_le_mono_nonneg_r; lia]. }
    assert (Erp : (r - 1) * p = two64 - p) by (rewrite <- Hpr; ring).
    rewrite Erp in Bhp, Blp.
    unfold wf128, val. cbn [u_hi u_lo]. rewrite Hlp. split.
    - unfold is64. split; lia.
    - apply Z.mod_unique with (h / r).
      + left. apply shl_aux with p; assumption.
      + pose proof (Z.div_mod h r ltac:(lia)) as Dh. pose proof (Z.div_mod l r ltac:(lia)) as Dl.
        change two128 with (two64 * two64).
        set (hq := h / r) in *. set (hr := h mod r) in *. set (lq := l / r) in *. set (lr := l mod r) in *.
        clearbody hq hr lq lr. subst h l.
        replace ((r * hq + hr) * two64 + (r * lq + lr)) with (r * hq * two64 + hr * two64 + r * lq + lr) by ring.
        rewrite <- Hpr. ring. }
  destruct (n =? 64) eqn:E3.
  { assert (n = 64) by lia. subst. cbn [u_hi u_lo]. unfold wf128, val; cbn [u_hi u_lo].
    split; [split; [assumption | unfold is64, two64; lia]|].
    change (2 ^ 64) with two64. apply Z.mod_unique with h; unfold is64, two64, two128 in *; lia. }
  cbn [u_hi u_lo]. rewrite shl64_spec by lia. unfold wf128, val; cbn [u_hi u_lo]. split.
  { split; [apply u64_range | unfold is64, two64; lia]. }
  replace n with (64 + (n - 64)) at 2 by lia. rewrite Z.pow_add_r by lia.
  change (2 ^ 64) with two64. set (p := 2 ^ (n - 64)).
  rewrite Z.add_0_r.
  replace ((h * two64 + l) * (two64 * p)) with (l * p * two64 + h * p * two128) by (unfold two128, two64; ring).
  rewrite Z_mod_plus_full. change two128 with (two64 * two64).
  rewrite Z.mul_mod_distr_r by (unfold two64; lia). reflexivity.
Qed.

Lemma u128_shr_spec a n : wf128 a -> 0 <= n <= 128 ->
  wf128 (u128_shr a n) /\ val (u128_shr a n) = val a / 2 ^ n.
Proof.
  destruct a as [h l]. intros [Hh Hl] Hn. cbn [u_hi u_lo] in *. unfold u128_shr.
  destruct (n =? 0) eqn:E0.
  { assert (n = 0) by lia. subst. split; [split; assumption|]. rewrite Z.div_1_r. reflexivity. }
  destruct (n =? 128) eqn:E1.
  { assert (n = 128) by lia. subst. split; [exact wf_zero|].
    change (2 ^ 128) with two128. symmetry. rewrite Z.div_small; [reflexivity|].
    apply val_range. split; assumption. }
  destruct (n <? 64) eqn:E2.
  { cbn [u_hi u_lo]. rewrite !shl64_spec, !shr64_spec by lia.
    set (p := 2 ^ n). set (r := 2 ^ (64 - n)).
    assert (Hpr : p * r = two64) by (subst p r; rewrite <- Z.pow_add_r by lia; rewrite two64_pow; f_equal; lia).
    assert (Hp : 1 <= p) by (subst p; pose proof (Z.pow_pos_nonneg 2 n); lia).
    assert (Hr : 1 <= r) by (subst r; pose proof (Z.pow_pos_nonneg 2 (64 - n)); lia).
    assert (Hp2 : p < two64).
    { subst p. rewrite two64_pow. apply Z.pow_lt_mono_r; lia. }
    rewrite Z.mul_1_l, (Z.mod_small p) by lia. unfold sub64. rewrite u64_small by (unfold is64; lia).
    rewrite (land_mask h n) by (subst p; lia). fold p.
    pose proof (Z.mod_pos_bound h p ltac:(lia)) as Bh.
    assert (Hb : 0 <= h mod p * r <= two64 - r).
    { assert (Erp : (p - 1) * r = two64 - r) by (rewrite <- Hpr; ring). rewrite <- Erp.
      split; [apply Z.mul_nonneg_nonneg; lia | apply Z.mul_le_mono_nonneg_r; lia]. }
    rewrite (Z.mod_small (h mod p * r)) by lia.
    assert (Hlp : 0 <= l / p < r).
    { unfold is64 in Hl. split; [apply Z.div_pos; lia|]. apply Z.div_lt_upper_bound; [lia|].
      rewrite Hpr. lia. }
    assert (EL : Z.lor (l / p) (h mod p * r) = l / p + h mod p * r)
      by (apply (lor_disjoint _ _ (64 - n)); [lia | exact Hlp]).
    rewrite EL. clear EL. clearbody p r.
    assert (Hhp : 0 <= h / p <= h).
    { unfold is64 in Hh. split; [apply Z.div_pos; lia|].
      apply Z.div_le_upper_bound; [lia|]. apply mul_ge1; lia. }
    unfold wf128, val, is64 in *. cbn [u_hi u_lo]. split.
    - split; lia.
    - pose proof (Z.div_mod h p ltac:(lia)) as Dh. pose proof (Z.div_mod l p ltac:(lia)) as Dl.
      pose proof (Z.mod_pos_bound l p ltac:(lia)) as Bl.
      apply Z.div_unique with (l mod p); [lia|].
      set (hq := h / p) in *. set (hr := h mod p) in *. set (lq := l / p) in *. set (lr := l mod p) in *.
      clearbody hq hr lq lr.
      replace (h * two64) with (p * hq * two64 + hr * two64) by (rewrite Dh; ring).
      rewrite Dl. replace (hr * two64) with (hr * (p * r)) by (rewrite Hpr; ring). ring. }
  destruct (n =? 64) eqn:E3.
  { assert (n = 64) by lia. subst. unfold wf128, val; cbn [u_hi u_lo].
    split; [split; [unfold is64, two64; lia | assumption]|].
    change (2 ^ 64) with two64. apply Z.div_unique with l; unfold is64, two64, two128 in *; lia. }
  cbn [u_hi u_lo]. rewrite shr64_spec by lia. unfold wf128, val; cbn [u_hi u_lo].
  set (p := 2 ^ (n - 64)).
  assert (Hp : 1 <= p) by (subst p; pose proof (Z.pow_pos_nonneg 2 (n - 64)); lia).
  assert (Hhp : 0 <= h / p <= h).
  { unfold is64 in Hh. split; [apply Z.div_pos; lia|]. apply Z.div_le_upper_bound; [lia|]. apply mul_ge1; lia. }
  split; [unfold is64, two64 in *; lia|].
  replace (2 ^ n) with (two64 * p)
    by (subst p; rewrite two64_pow, <- Z.pow_add_r by lia; f_equal; lia).
  rewrite <- Z.div_div by (unfold two64; lia).
  replace ((h * two64 + l) / two64) with h; [lia|].
  apply Z.div_unique with l; unfold is64, two64 in *; lia.
Qed.

(* ---- comparisons ---- *)
Lemma u128_gt_spec a b : wf128 a -> wf128 b -> u128_gt a b = (val b <? val a).
Proof.
  destruct a as [ah al], b as [bh bl]. unfold wf128, is64, val, u128_gt. cbn [u_hi u_lo].
  intros [Hah Hal] [Hbh Hbl]. unfold two64 in *.
  destruct (bh <? ah) eqn:E1, (ah =? bh) eqn:E2, (ah <? bh) eqn:E3, (bl <? al) eqn:E4;
    cbn [orb andb negb]; lia.
Qed.
Lemma u128_lt_spec a b : wf128 a -> wf128 b -> u128_lt a b = (val a <? val b).
Proof. intros. unfold u128_lt. now apply u128_gt_spec. Qed.
Lemma u128_eq_spec a b : wf128 a -> wf128 b -> u128_eq a b = (val a =? val b).
Proof.
  destruct a as [ah al], b as [bh bl]. unfold wf128, is64, val, u128_eq. cbn [u_hi u_lo].
  intros [Hah Hal] [Hbh Hbl]. unfold two64 in *. lia.
Qed.
Lemma u128_ge_spec a b : wf128 a -> wf128 b -> u128_ge a b = (val b <=? val a).
Proof. intros. unfold u128_ge. rewrite u128_gt_spec, u128_eq_spec by assumption. lia. Qed.
Lemma u128_le_spec a b : wf128 a -> wf128 b -> u128_le a b = (val a <=? val b).
Proof. intros. unfold u128_le. rewrite u128_lt_spec, u128_eq_spec by assumption. lia. Qed.

(* ---- bitwise ---- *)
Lemma land_range a b : is64 a -> is64 b -> is64 (Z.land a b).
Proof.
  unfold is64. rewrite two64_pow. intros Ha Hb. split; [apply Z.land_nonneg; lia|].
  destruct (Z.eq_dec (Z.land a b) 0) as [E|E]; [lia|].
  assert (0 <= Z.land a b) by (apply Z.land_nonneg; lia).
  apply Z.log2_lt_pow2; [lia|].
  pose proof (Z.log2_land a b ltac:(lia) ltac:(lia)).
  destruct (Z.eq_dec a 0) as [->|]; [rewrite Z.land_0_l in E; lia|].
  assert (Z.log2 a < 64) by (apply Z.log2_lt_pow2; lia). lia.
Qed.
Lemma lor_range_pow n a b : 0 <= n -> 0 <= a < 2 ^ n -> 0 <= b < 2 ^ n -> 0 <= Z.lor a b < 2 ^ n.
Proof.
  intros Hn Ha Hb. split; [apply Z.lor_nonneg; lia|].
  assert (0 <= Z.lor a b) by (apply Z.lor_nonneg; lia).
  destruct (Z.eq_dec (Z.lor a b) 0) as [E|E]; [lia|].
  apply Z.log2_lt_pow2; [lia|]. rewrite Z.log2_lor by lia.
  assert (La : forall x, 0 <= x < 2 ^ n -> x = 0 \/ Z.log2 x < n).
  { intros x Hx. destruct (Z.eq_dec x 0); [now left|right; apply Z.log2_lt_pow2; lia]. }
  destruct (La a Ha) as [->|H1], (La b Hb) as [->|H2].
  - rewrite Z.lor_0_l in E. lia.
  - rewrite Z.lor_0_l in E. assert (Hb0 := La b Hb). change (Z.log2 0) with 0.
    assert (0 <= Z.log2 b) by apply Z.log2_nonneg. lia.
  - assert (0 <= Z.log2 a) by apply Z.log2_nonneg. change (Z.log2 0) with 0. lia.
  - lia.
Qed.
Lemma lor_range a b : is64 a -> is64 b -> is64 (Z.lor a b).
Proof. unfold is64. rewrite two64_pow. intros. apply lor_range_pow; lia. Qed.

Lemma val_bits a : wf128 a -> val a = Z.lor (u_lo a) (Z.shiftl (u_hi a) 64).
Proof.
  intros [Hh Hl]. rewrite Z.shiftl_mul_pow2 by lia.
  rewrite lor_disjoint by (rewrite ?two64_pow in *; unfold is64 in Hl; rewrite two64_pow in Hl; lia).
  unfold val. rewrite two64_pow. lia.
Qed.
Lemma testbit_high x i : is64 x -> 64 <= i -> Z.testbit x i = false.
Proof.
  unfold is64. rewrite two64_pow. intros Hx Hi.
  destruct (Z.eq_dec x 0) as [->|Hne]; [apply Z.bits_0|].
  apply Z.bits_above_log2; [lia|]. assert (Z.log2 x < 64) by (apply Z.log2_lt_pow2; lia). lia.
Qed.
Lemma testbit_val a i : wf128 a -> 0 <= i ->
  Z.testbit (val a) i = if i <? 64 then Z.testbit (u_lo a) i else Z.testbit (u_hi a) (i - 64).
Proof.
  intros W Hi. rewrite (val_bits a W), Z.lor_spec, Z.shiftl_spec by lia.
  destruct W as [Wh Wl]. destruct (i <? 64) eqn:E.
  - rewrite (Z.testbit_neg_r (u_hi a)) by lia. apply orb_false_r.
  - rewrite (testbit_high (u_lo a)) by (try assumption; lia). reflexivity.
Qed.
Lemma u128_or_spec a b : wf128 a -> wf128 b ->
  wf128 (u128_or a b) /\ val (u128_or a b) = Z.lor (val a) (val b).
Proof.
  intros Ha Hb.
  assert (W : wf128 (u128_or a b)).
  { destruct Ha, Hb. split; apply lor_range; assumption. }
  split; [exact W|]. apply Z.bits_inj'. intros i Hi.
  rewrite Z.lor_spec, !testbit_val by assumption. unfold u128_or; cbn [u_hi u_lo].
  destruct (i <? 64); apply Z.lor_spec.
Qed.
Lemma u128_and_spec a b : wf128 a -> wf128 b ->
  wf128 (u128_and a b) /\ val (u128_and a b) = Z.land (val a) (val b).
Proof.
  intros Ha Hb.
  assert (W : wf128 (u128_and a b)).
  { destruct Ha, Hb. split; apply land_range; assumption. }
  split; [exact W|]. apply Z.bits_inj'. intros i Hi.
  rewrite Z.land_spec, !testbit_val by assumption. unfold u128_and; cbn [u_hi u_lo].
  destruct (i <? 64); apply Z.land_spec.
Qed.

(* ---- most significant bit, division ---- *)
Lemma u128_msb_spec a : wf128 a -> u128_msb a = Z.log2 (val a).
Proof.
  destruct a as [h l]. intros [Hh Hl]. cbn [u_hi u_lo] in *. unfold u128_msb, val. cbn [u_hi u_lo].
  unfold is64 in *. rewrite two64_pow in *.
  destruct (0 <? h) eqn:Eh.
  - unfold clz64. replace (h =? 0) with false by lia.
    assert (L : Z.log2 h < 64) by (apply Z.log2_lt_pow2; lia).
    pose proof (Z.log2_nonneg h). unfold sub64, u64. rewrite Z.mod_small by (unfold two64; lia).
    symmetry. apply Z.log2_unique; [lia|].
    pose proof (Z.log2_spec h ltac:(lia)) as [S1 S2].
    replace (127 - (63 - Z.log2 h)) with (Z.log2 h + 64) by lia.
    rewrite <- Z.add_succ_l. rewrite !Z.pow_add_r by lia.
    assert (S2' : h + 1 <= 2 ^ Z.succ (Z.log2 h)) by lia.
    assert (M1 : 2 ^ Z.log2 h * 2 ^ 64 <= h * 2 ^ 64) by (apply Z.mul_le_mono_nonneg_r; lia).
    assert (M2 : (h + 1) * 2 ^ 64 <= 2 ^ Z.succ (Z.log2 h) * 2 ^ 64)
      by (apply Z.mul_le_mono_nonneg_r; lia).
    lia.
  - assert (h = 0) by lia. subst h. destruct (0 <? l) eqn:El.
    + unfold clz64. replace (l =? 0) with false by lia.
      assert (L : Z.log2 l < 64) by (apply Z.log2_lt_pow2; lia).
      pose proof (Z.log2_nonneg l). unfold sub64, u64. rewrite Z.mod_small by (unfold two64; lia).
      rewrite Z.mul_0_l, Z.add_0_l. lia.
    + assert (l = 0) by lia. subst. reflexivity.
Qed.

Lemma u128_div_loop_spec b n : 0 < b ->
  forall q r d, wf128 q -> wf128 r -> wf128 d ->
  (1 <= n)%nat -> val d = b * 2 ^ (Z.of_nat n - 1) -> val r < b * 2 ^ Z.of_nat n ->
  val q * (b * 2 ^ Z.of_nat n) + val r < two128 ->
  let '(q', r') := u128_div_loop n q r d in
  wf128 q' /\ wf128 r' /\ val q' * b + val r' = val q * (b * 2 ^ Z.of_nat n) + val r /\ val r' < b.
Proof.
  intros Hb. induction n as [|n IH]; intros q r d Wq Wr Wd Hn Ed Er Ebound; [lia|].
  cbn [u128_div_loop].
  destruct (u128_shl_spec q 1 Wq ltac:(lia)) as [Wq1 Eq1].
  destruct (u128_shr_spec d 1 Wd ltac:(lia)) as [Wd1 Ed1].
  replace (Z.of_nat (S n)) with (Z.of_nat n + 1) in * by lia.
  replace (Z.of_nat n + 1 - 1) with (Z.of_nat n) in Ed by lia.
  rewrite Z.pow_add_r in * by lia. change (2 ^ 1) with 2 in *.
  set (p := 2 ^ Z.of_nat n) in *.
  assert (Hp : 1 <= p) by (subst p; pose proof (Z.pow_pos_nonneg 2 (Z.of_nat n)); lia).
  pose proof (val_range q Wq) as Rq. pose proof (val_range r Wr) as Rr.
  assert (Hbp : 1 <= b * p) by (pose proof (Z.mul_le_mono_nonneg 1 b 1 p); lia).
  assert (E2q : val (u128_shl q 1) = 2 * val q).
  { rewrite Eq1. rewrite Z.mod_small; [lia|].
    assert (val q * 2 <= val q * (b * (p * 2))) by (apply Z.mul_le_mono_nonneg_l; lia). lia. }
  set (q1 := u128_shl q 1) in *.
  rewrite u128_ge_spec by assumption. rewrite Ed.
  assert (Step : forall q2 r2, wf128 q2 -> wf128 r2 ->
            val q2 * (b * p) + val r2 = val q * (b * (p * 2)) + val r -> val r2 < b * p ->
            let '(q', r') := u128_div_loop n q2 r2 (u128_shr d 1) in
            wf128 q' /\ wf128 r' /\ val q' * b + val r' = val q * (b * (p * 2)) + val r /\ val r' < b).
  { intros q2 r2 W1 W2 EE LL. destruct n as [|n'].
    - cbn [u128_div_loop]. assert (p = 1) by reflexivity. clearbody p. subst p.
      repeat split; try apply W1; try apply W2; lia.
    - assert (Ed1' : val (u128_shr d 1) = b * 2 ^ (Z.of_nat (S n') - 1)).
      { rewrite Ed1, Ed. subst p. replace (Z.of_nat (S n')) with (Z.of_nat (S n') - 1 + 1) at 1 by lia.
        rewrite Z.pow_add_r by lia. change (2 ^ 1) with 2.
        rewrite Z.mul_assoc, Z.div_mul by lia. reflexivity. }
      specialize (IH q2 r2 _ W1 W2 Wd1 ltac:(lia) Ed1' LL ltac:(lia)).
      destruct (u128_div_loop (S n') q2 r2 (u128_shr d 1)) as [q' r'].
      destruct IH as (I1 & I2 & I3 & I4). split; [exact I1|]. split; [exact I2|]. lia. }
  clear IH.
  destruct (b * p <=? val r) eqn:Ec.
  - destruct (u128_sub_spec r d Wr Wd) as [Ws Es].
    destruct (u128_or_spec q1 (u128_from 1) Wq1 (wf_from 1 ltac:(unfold is64, two64; lia))) as [Wo Eo].
    apply Step; try assumption.
    + rewrite Eo, Es, E2q, Ed, val_from. rewrite Z.mod_small by lia.
      replace (2 * val q) with (val q * 2 ^ 1) by lia.
      rewrite lor_disjoint' by lia. lia.
    + rewrite Es, Ed, Z.mod_small by lia. lia.
  - apply Step; try assumption; [rewrite E2q; lia | lia].
Qed.

Lemma u128_divmod_spec a b : wf128 a -> wf128 b -> 0 < val b ->
  let '(q, r) := u128_divmod a b in
  wf128 q /\ wf128 r /\ val q = val a / val b /\ val r = val a mod val b.
Proof.
  intros Wa Wb Hb. unfold u128_divmod. rewrite u128_gt_spec, u128_eq_spec by assumption.
  pose proof (val_range a Wa) as Ra. pose proof (val_range b Wb) as Rb.
  destruct (val a <? val b) eqn:E1.
  { split; [exact wf_zero|]. split; [exact Wa|]. rewrite val_zero.
    rewrite Z.div_small, Z.mod_small by lia. auto. }
  destruct (val b =? val a) eqn:E2.
  { assert (val b = val a) by lia.
    split; [apply wf_from; unfold is64, two64; lia|]. split; [exact wf_zero|].
    rewrite val_from, val_zero. rewrite <- H, Z.div_same, Z.mod_same by lia. auto. }
  rewrite !u128_msb_spec by assumption.
  assert (La : Z.log2 (val a) < 128) by (apply Z.log2_lt_pow2; rewrite two128_pow in *; lia).
  assert (Lb : Z.log2 (val b) <= Z.log2 (val a)) by (apply Z.log2_le_mono; lia).
  pose proof (Z.log2_nonneg (val b)) as Lb0.
  unfold sub64, u64. rewrite Z.mod_small by (unfold two64; lia).
  set (sh := Z.log2 (val a) - Z.log2 (val b)) in *.
  assert (Hsh : 0 <= sh < 128) by (subst sh; lia).
  destruct (u128_shl_spec b sh Wb ltac:(lia)) as [Wd Ed].
  pose proof (Z.log2_spec (val a) ltac:(lia)) as [A1 A2].
  pose proof (Z.log2_spec (val b) ltac:(lia)) as [B1 B2].
  assert (P1 : 1 <= 2 ^ sh) by (pose proof (Z.pow_pos_nonneg 2 sh); lia).
  assert (Edx : val (u128_shl b sh) = val b * 2 ^ sh).
  { rewrite Ed. apply Z.mod_small. split; [apply Z.mul_nonneg_nonneg; lia|].
    apply Z.lt_le_trans with (2 ^ Z.succ (Z.log2 (val b)) * 2 ^ sh).
    - apply Z.mul_lt_mono_pos_r; lia.
    - rewrite <- Z.pow_add_r by lia. rewrite two128_pow. apply Z.pow_le_mono_r; lia. }
  assert (Ea : val a < val b * 2 ^ (sh + 1)).
  { apply Z.lt_le_trans with (2 ^ (Z.log2 (val b)) * 2 ^ (sh + 1)).
    - rewrite <- Z.pow_add_r by lia. replace (Z.log2 (val b) + (sh + 1)) with (Z.succ (Z.log2 (val a))) by lia.
      exact A2.
    - apply Z.mul_le_mono_nonneg_r; [|lia]. pose proof (Z.pow_pos_nonneg 2 (sh+1)); lia. }
  assert (En : Z.of_nat (S (Z.to_nat sh)) = sh + 1) by lia.
  pose proof (u128_div_loop_spec (val b) (S (Z.to_nat sh)) Hb u128_zero a (u128_shl b sh)
                wf_zero Wa Wd ltac:(lia)) as L.
  rewrite En in L. replace (sh + 1 - 1) with sh in L by lia.
  specialize (L Edx Ea). rewrite val_zero in L. specialize (L ltac:(lia)).
  destruct (u128_div_loop (S (Z.to_nat sh)) u128_zero a (u128_shl b sh)) as [q r].
  destruct L as (Wq & Wr & EE & LL). split; [exact Wq|]. split; [exact Wr|].
  pose proof (val_range r Wr).
  split; [apply Z.div_unique with (val r) | apply Z.mod_unique with (val q)]; lia.
Qed.

(* ---- rotations ---- *)
Lemma testbit_lt128 x i : 0 <= x < two128 -> 128 <= i -> Z.testbit x i = false.
Proof.
  rewrite two128_pow. intros Hx Hi.
  destruct (Z.eq_dec x 0) as [->|Hne]; [apply Z.bits_0|].
  apply Z.bits_above_log2; [lia|]. assert (Z.log2 x < 128) by (apply Z.log2_lt_pow2; lia). lia.
Qed.
Lemma rot_bits x n i : 0 <= x < two128 -> 0 <= n <= 128 -> 0 <= i < 128 ->
  Z.testbit (Z.lor ((x * 2 ^ n) mod two128) (x / 2 ^ (128 - n))) i = Z.testbit x ((i - n) mod 128).
Proof.
  intros Hx Hn Hi. rewrite Z.lor_spec, two128_pow, Z.mod_pow2_bits_low by lia.
  rewrite <- Z.shiftl_mul_pow2, <- Z.shiftr_div_pow2 by lia.
  rewrite Z.shiftl_spec, Z.shiftr_spec by lia.
  destruct (Z.lt_ge_cases i n) as [H|H].
  - rewrite Z.testbit_neg_r by lia. cbn [orb]. f_equal.
    apply Z.mod_unique with (-1); lia.
  - rewrite (testbit_lt128 x (i + (128 - n))) by (try assumption; lia). rewrite orb_false_r.
    f_equal. apply Z.mod_unique with 0; lia.
Qed.
Lemma u128_rotl_spec a n : wf128 a -> 0 <= n <= 128 ->
  exists r, u128_rotl a n = Ok r /\ wf128 r /\
    forall i, 0 <= i < 128 -> Z.testbit (val r) i = Z.testbit (val a) ((i - n) mod 128).
Proof.
  intros W Hn. unfold u128_rotl, u128_shl_chk, u128_shr_chk, sub64, u64.
  rewrite (Z.mod_small (128 - n)) by (unfold two64; lia).
  replace ((0 <=? n) && (n <=? 128)) with true by lia.
  replace ((0 <=? 128 - n) && (128 - n <=? 128)) with true by lia. cbn [bind].
  destruct (u128_shl_spec a n W Hn) as [W1 E1].
  destruct (u128_shr_spec a (128 - n) W ltac:(lia)) as [W2 E2].
  destruct (u128_or_spec _ _ W1 W2) as [W3 E3].
  eexists. split; [reflexivity|]. split; [exact W3|].
  intros i Hi. rewrite E3, E1, E2. apply rot_bits; try assumption. apply val_range; assumption.
Qed.
Lemma u128_rotr_spec a n : wf128 a -> 0 <= n <= 128 ->
  exists r, u128_rotr a n = Ok r /\ wf128 r /\
    forall i, 0 <= i < 128 -> Z.testbit (val r) i = Z.testbit (val a) ((i + n) mod 128).
Proof.
  intros W Hn. unfold u128_rotr, u128_shl_chk, u128_shr_chk, sub64, u64.
  rewrite (Z.mod_small (128 - n)) by (unfold two64; lia).
  replace ((0 <=? n) && (n <=? 128)) with true by lia.
  replace ((0 <=? 128 - n) && (128 - n <=? 128)) with true by lia. cbn [bind].
  destruct (u128_shl_spec a (128 - n) W ltac:(lia)) as [W1 E1].
  destruct (u128_shr_spec a n W ltac:(lia)) as [W2 E2].
  destruct (u128_or_spec _ _ W2 W1) as [W3 E3].
  eexists. split; [reflexivity|]. split; [exact W3|].
  intros i Hi. rewrite E3, E1, E2, Z.lor_comm.
  replace n with (128 - (128 - n)) at 2 by lia.
  rewrite rot_bits; try assumption; try lia; [|apply val_range; assumption].
  f_equal. rewrite <- (Z_mod_plus_full (i - (128 - n)) 1 128). f_equal. lia.
Qed.
Lemma bits128_inj x y : 0 <= x < two128 -> 0 <= y < two128 ->
  (forall i, 0 <= i < 128 -> Z.testbit x i = Z.testbit y i) -> x = y.
Proof.
  intros Hx Hy H. apply Z.bits_inj'. intros i Hi.
  destruct (Z.lt_ge_cases i 128); [apply H; lia|].
  rewrite !testbit_lt128 by (try assumption; lia). reflexivity.
Qed.
Lemma u128_rotl_rotr a n : wf128 a -> 0 <= n <= 128 ->
  bind (u128_rotl a n) (fun r => u128_rotr r n) = Ok a.
Proof.
  intros W Hn. destruct (u128_rotl_spec a n W Hn) as (r & -> & Wr & B). cbn [bind].
  destruct (u128_rotr_spec r n Wr Hn) as (r2 & -> & Wr2 & B2). f_equal.
  apply val_inj; [assumption..|]. apply bits128_inj; [apply val_range; assumption..|].
  intros i Hi. rewrite B2 by lia. rewrite B by (apply Z.mod_pos_bound; lia).
  rewrite Zminus_mod_idemp_l. replace (i + n - n) with i by lia. rewrite Z.mod_small by lia. reflexivity.
Qed.
