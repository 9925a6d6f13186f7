(* signature.hpp:88-147: the norm check is exact. *)
From Coq Require Import ZArith Lia Bool List Arith.
From Coq Require Import ZifyBool ZifyNat.
From Verif Require Import ModelBase ModelU128 ModelField ModelUtils ModelPoly ModelVec ModelSerial ModelScheme.
From Verif Require Import Spec SpecScheme.
From Verif Require Import Words FieldProofs ArithLemmas BytesProofs PolyProofs ParamProofs.
Import ListNotations.
Open Scope Z_scope.
Ltac Zify.zify_post_hook ::= idtac.

Definition sumsq (f : Z -> Z) (l : list Z) : Z := fold_right Z.add 0 (map (fun x => f x * f x) l).
Definition maxabs (l : list Z) : Z := fold_right Z.max 0 (map Z.abs l).
Lemma sumsq_nonneg f l : 0 <= sumsq f l.
Proof. induction l as [|x l IH]; unfold sumsq in *; cbn [map fold_right]; [lia|]. nia. Qed.
Lemma maxabs_nonneg l : 0 <= maxabs l.
Proof. induction l as [|x l IH]; unfold maxabs in *; cbn [map fold_right]; lia. Qed.
Lemma maxabs_le l b : 0 <= b -> (maxabs l <= b <-> Forall (fun x => Z.abs x <= b) l).
Proof.
  intros Hb. induction l as [|x l IH]; unfold maxabs in *; cbn [map fold_right]; [split; [constructor|lia]|].
  rewrite Forall_cons_iff, <- IH. lia.
Qed.
Lemma sumsq_bound f b l : 0 <= b -> Forall (fun x => 0 <= f x <= b) l -> sumsq f l <= Z.of_nat (length l) * (b * b).
Proof.
  intros Hb. induction 1 as [|x l Hx _ IH]; [cbn; lia|]. unfold sumsq in *. cbn [map fold_right length]. nia.
Qed.
Lemma h_norms_spec h : Forall (fun x => - two63 < x < two63) h ->
  h_norms h = Ok (maxabs h, sumsq Z.abs h mod two64).
Proof.
  unfold h_norms. intros H.
  assert (G : forall i s, 0 <= i -> foldM (fun '(inf, sqr) x => abs_x <- abs_chk x ;; Ok (Z.max inf abs_x, add64 sqr (mul64 abs_x abs_x))) h (i, s mod two64)
              = Ok (Z.max i (maxabs h), (s + sumsq Z.abs h) mod two64)).
  { induction H as [|x h Hx Hh IH]; intros i s Hi.
    - cbn [foldM]. change (maxabs []) with 0. change (sumsq Z.abs []) with 0. rewrite Z.max_l, Z.add_0_r by lia. reflexivity.
    - cbn [foldM]. unfold abs_chk at 1. replace (x =? - two63) with false by lia. cbn [bind].
      assert (E : add64 (s mod two64) (mul64 (Z.abs x) (Z.abs x)) = (s + Z.abs x * Z.abs x) mod two64).
      { unfold add64, mul64, u64. rewrite <- Zplus_mod. reflexivity. }
      rewrite E, IH by lia. unfold maxabs, sumsq. cbn [map fold_right]. f_equal. rewrite Z.max_assoc, Z.add_assoc. reflexivity. }
  specialize (G 0 0 ltac:(lia)). change (0 mod two64) with 0 in G. rewrite G, Z.max_r by apply maxabs_nonneg. reflexivity.
Qed.
Lemma from_centered_spec x : - (Q / 2) <= x <= Q / 2 -> from_centered_to_Zq x = if x <? 0 then x + Q else x.
Proof.
  intros H. unfold from_centered_to_Zq. assert (Q / 2 < two63) by (rewrite Q_val; reflexivity). assert (QB : 0 < Q < two63) by (rewrite Q_val; split; reflexivity).
  destruct (x <? 0) eqn:E.
  - assert (S : Z.shiftr x 63 = -1).
    { rewrite Z.shiftr_div_pow2 by lia. symmetry. apply Z.div_unique with (r := x + 2 ^ 63); [left; change (2 ^ 63) with two63; lia|lia]. }
    rewrite S. assert (L : Z.land Q (u64_of_s64 (-1)) = Q).
    { change (u64_of_s64 (-1)) with (2 ^ 64 - 1). rewrite (land_mask Q 64) by (reflexivity || lia). apply Z.mod_small. unfold two63 in *. change (2 ^ 64) with 18446744073709551616. lia. }
    rewrite L. unfold s64_of_u64. replace (Q <? two63) with true by lia. unfold u64_of_s64. apply u64_small. unfold is64, two64, two63 in *. lia.
  - assert (S : Z.shiftr x 63 = 0). { rewrite Z.shiftr_div_pow2 by lia. apply Z.div_small. change (2 ^ 63) with two63. lia. }
    rewrite S. change (u64_of_s64 0) with 0. rewrite Z.land_0_r. change (s64_of_u64 0) with 0. rewrite Z.add_0_r. unfold u64_of_s64. apply u64_small. unfold is64, two64, two63 in *. lia.
Qed.
Lemma z_abs_spec x : - (Q / 2) <= x <= Q / 2 -> (let y := from_centered_to_Zq x in if Q / 2 <? y then zq_neg y else y) = Z.abs x.
Proof.
  intros H. cbv zeta. rewrite from_centered_spec by exact H. assert (QB : Q / 2 = 274912291586048) by (rewrite Q_val; reflexivity). pose proof Q_val as QV.
  destruct (x <? 0) eqn:E.
  - replace (Q / 2 <? x + Q) with true by lia. rewrite zq_neg_spec by lia. lia.
  - replace (Q / 2 <? x) with false by lia. lia.
Qed.
Lemma z_norms_spec z : Forall (fun x => - (Q / 2) <= x <= Q / 2) z ->
  z_norms z = (maxabs z, sumsq (fun x => Z.abs x / 2 ^ 32) z mod Q).
Proof.
  unfold z_norms. intros H. pose proof Q_pos as QP.
  match goal with |- fold_left ?f _ _ = _ => set (F := f) end.
  assert (G : forall i s, 0 <= i -> fold_left F z (i, s mod Q) = (Z.max i (maxabs z), (s + sumsq (fun x => Z.abs x / 2 ^ 32) z) mod Q)).
  { induction H as [|x z Hx Hz IH]; intros i s Hi.
    - cbn [fold_left]. change (maxabs []) with 0. change (sumsq _ []) with 0. rewrite Z.max_l, Z.add_0_r by lia. reflexivity.
    - cbn [fold_left].
      assert (E : F (i, s mod Q) x = (Z.max i (Z.abs x), (s + Z.abs x / 2 ^ 32 * (Z.abs x / 2 ^ 32)) mod Q)).
      { unfold F. pose proof (z_abs_spec x Hx) as A. cbv zeta in *. rewrite A. f_equal. 
        assert (B0 : 0 <= Z.abs x / 2 ^ 32) by (apply Z.div_pos; [lia|reflexivity]).
        assert (B1 : Z.abs x / 2 ^ 32 < 2 ^ 17).
        { apply Z.div_lt_upper_bound; [reflexivity|]. change (2 ^ 32 * 2 ^ 17) with 562949953421312. assert (Q / 2 = 274912291586048) by (rewrite Q_val; reflexivity). lia. }
        assert (C : canon (Z.abs x / 2 ^ 32)) by (unfold canon; rewrite Q_val; change (2 ^ 17) with 131072 in B1; lia).
        unfold zq_shr. rewrite shr64_spec by lia. rewrite zq_mul_spec by exact C.
        rewrite zq_add_spec by apply canon_mod. rewrite <- Zplus_mod. reflexivity. }
      rewrite E, IH by lia. unfold maxabs, sumsq. cbn [map fold_right]. rewrite Z.max_assoc, Z.add_assoc. reflexivity. }
  specialize (G 0 0 ltac:(lia)). rewrite Z.mod_0_l in G by lia. rewrite G, Z.max_r by apply maxabs_nonneg. reflexivity.
Qed.

Lemma sq_sum_abs h : sumsq Z.abs h = fold_right Z.add 0 (map (fun x => x * x) h).
Proof. unfold sumsq. f_equal. apply map_ext. intros x. apply Z.abs_square. Qed.
Lemma sq_sum_z z : sumsq (fun x => Z.abs x / 2 ^ 32) z = fold_right Z.add 0 (map (fun x => (Z.abs x / 2 ^ 32) ^ 2) z).
Proof. unfold sumsq. f_equal. apply map_ext. intros x. rewrite Z.pow_2_r. reflexivity. Qed.
Lemma check_bounds_gen Binf B22 c h z : 0 <= Binf < two64 ->
  Z.of_nat (length h) * ((Binf / 2 ^ 44) * (Binf / 2 ^ 44)) * 2 ^ 24 + Z.of_nat (length z) * ((Binf / 2 ^ 32) * (Binf / 2 ^ 32)) < Q ->
  Forall (fun x => - two63 < x < two63) h -> Forall (fun x => - (Q / 2) <= x <= Q / 2) z ->
  exists b, check_bounds 44 Binf B22 (Sig c h z) = Ok b /\ (b = true <-> norms_ok 44 Binf B22 h z).
Proof.
  intros HB HS Hh Hz. unfold check_bounds. cbn [sg_h sg_z]. rewrite h_norms_spec, z_norms_spec by assumption. cbn [bind].
  rewrite shr64_spec by lia. pose proof Q_pos as QP. pose proof Q_lt49 as Q49.
  assert (NB : 0 <= Binf / 2 ^ 44) by (apply Z.div_pos; [lia|reflexivity]). assert (NB2 : 0 <= Binf / 2 ^ 32) by (apply Z.div_pos; [lia|reflexivity]).
  unfold norms_ok. change (2 * 44 - 64) with 24.
  destruct (Binf / 2 ^ 44 <? maxabs h) eqn:E1.
  { exists false. split; [reflexivity|]. split; [discriminate|]. intros (A & _). apply maxabs_le in A; [lia|exact NB]. }
  destruct (Binf <? maxabs z) eqn:E2.
  { exists false. split; [reflexivity|]. split; [discriminate|]. intros (_ & A & _). apply maxabs_le in A; [lia|lia]. }
  assert (A1 : Forall (fun x => Z.abs x <= Binf / 2 ^ 44) h) by (apply maxabs_le; lia).
  assert (A2 : Forall (fun x => Z.abs x <= Binf) z) by (apply maxabs_le; lia).
  assert (S1 : sumsq Z.abs h <= Z.of_nat (length h) * ((Binf / 2 ^ 44) * (Binf / 2 ^ 44))).
  { apply sumsq_bound; [exact NB|]. eapply Forall_impl; [|exact A1]. intros x Hx. cbv beta in Hx. lia. }
  assert (S2 : sumsq (fun x => Z.abs x / 2 ^ 32) z <= Z.of_nat (length z) * ((Binf / 2 ^ 32) * (Binf / 2 ^ 32))).
  { apply sumsq_bound; [exact NB2|]. eapply Forall_impl; [|exact A2]. intros x Hx. cbv beta in Hx. split; [apply Z.div_pos; [lia|reflexivity]|apply Z.div_le_mono; [reflexivity|exact Hx]]. }
  pose proof (sumsq_nonneg Z.abs h) as P1. pose proof (sumsq_nonneg (fun x => Z.abs x / 2 ^ 32) z) as P2.
  rewrite <- sq_sum_abs, <- sq_sum_z. set (a := sumsq Z.abs h) in *. set (b := sumsq (fun x => Z.abs x / 2 ^ 32) z) in *.
  assert (TOT : a * 2 ^ 24 + b < Q).
  { eapply Z.le_lt_trans; [|exact HS]. apply Z.add_le_mono; [|exact S2]. apply Z.mul_le_mono_nonneg_r; [lia|exact S1]. }
  assert (B24 : 2 ^ 24 = 16777216) by reflexivity. assert (B49 : 2 ^ 49 = 562949953421312) by reflexivity.
  clearbody a b. clear HS S1 S2 Hh Hz A1' A2' || clear HS S1 S2 Hh Hz. rewrite B24 in *. rewrite B49 in *.
  rewrite (Z.mod_small a) by (unfold two64; lia). rewrite (Z.mod_small b) by lia.
  assert (EM : mul64 a (shl64 1 24) = a * 16777216).
  { unfold mul64. change (shl64 1 24) with 16777216. apply u64_small. unfold is64, two64. lia. }
  rewrite EM. rewrite zq_add_spec by (unfold canon; lia). rewrite Z.mod_small by lia. rewrite (Z.mul_comm 16777216).
  destruct (B22 <? a * 16777216 + b) eqn:E3; [exists false|exists true]; (split; [reflexivity|]).
  - split; [discriminate|]. intros (_ & _ & A). lia.
  - split; [|reflexivity]. intros _. split; [exact A1|]. split; [exact A2|]. lia.
Qed.
Lemma check_bounds_params P s : params_ok P = true -> length (sg_h s) = (p_k P * 512)%nat -> length (sg_z s) = (p_l P * 512)%nat ->
  Forall (fun x => - two63 < x < two63) (sg_h s) -> Forall (fun x => - (q / 2) <= x <= q / 2) (sg_z s) ->
  exists b, check_bounds (p_nuw P) (p_Binf P) (p_B22 P) s = Ok b /\ (b = true <-> norms_ok (p_nuw P) (p_Binf P) (p_B22 P) (sg_h s) (sg_z s)).
Proof.
  intros HP Lh Lz Fh Fz. rewrite q_Q in Fz. destruct s as [c h z]. cbn [sg_h sg_z] in *.
  destruct (params_ok_cases P HP) as (d & _ & [-> | [-> | ->]]); cbn [p_nuw p_Binf p_B22 p_k p_l raccoon128_params raccoon192_params raccoon256_params] in *;
    apply check_bounds_gen; try assumption; try (unfold two64; lia); rewrite Lh, Lz, !Nat2Z.inj_mul, Q_val; vm_compute; reflexivity.
Qed.
