(* Property theorems about the build with PREFER_INT128_COMPILER_EXTENSION_TYPE: u64.hpp, u128.hpp, field.hpp. *)
From Coq Require Import ZArith List Bool Lia.
From Verif Require Import ModelBase ModelU128 ModelField ModelNative.
From Verif Require Import Spec U128Proofs FieldProofs ArithLemmas NativeProofs.
Open Scope Z_scope.
Ltac Zify.zify_post_hook ::= idtac.

(* C82: every function of field.hpp whose text uses the 128-bit type computes the same thing in the two builds, for
   every argument that fits its type (not only for canonical values), and the __int128 build never shifts by 128. *)
Theorem C82_field_same_in_both_builds :
  R_n = Ok R /\
  (forall hi lo, 0 <= hi < 2 ^ 64 -> 0 <= lo < 2 ^ 64 -> barrett_reduce_n (hi * 2 ^ 64 + lo) = Ok (barrett_reduce (U128 hi lo))) /\
  (forall a b, 0 <= a < 2 ^ 64 -> 0 <= b < 2 ^ 64 ->
     zq_mul_n a b = Ok (zq_mul a b) /\ zq_div_n a b = zq_div a b /\
     zq_pow_n a b = Ok (zq_pow a b) /\ zq_random_of_word_n a = Ok (zq_random_of_word a) /\
     mul_full_u64_n a b = Ok (mul_full_u64 a b)) /\
  (forall a n, 0 <= a < 2 ^ 64 -> 0 <= n < 64 -> zq_shl_n a n = Ok (zq_shl a n)).
Proof.
  split; [exact s_R|]. split.
  { intros hi lo H L. apply s_barrett. split; [split; assumption|reflexivity]. }
  split.
  { intros a b A B. split; [exact (s_zq_mul a b A B)|]. split; [exact (s_zq_div a b A)|]. split; [exact (s_zq_pow a b A)|].
    split; [exact (s_random a A)|exact (s_mul_full a b A B)]. }
  intros a n _ N. exact (s_zq_shl a n N).
Qed.
Print Assumptions C82_field_same_in_both_builds.

(* C82: 128-bit division, remainder, index of the top bit and comparisons agree too, for every pair of operands,
   a zero divisor included. *)
Theorem C82_division_same_in_both_builds : forall ah al bh bl,
  0 <= ah < 2 ^ 64 -> 0 <= al < 2 ^ 64 -> 0 <= bh < 2 ^ 64 -> 0 <= bl < 2 ^ 64 ->
  let a := U128 ah al in let b := U128 bh bl in
  let va := ah * 2 ^ 64 + al in let vb := bh * 2 ^ 64 + bl in
  let value r := u_hi r * 2 ^ 64 + u_lo r in
  n128_div va vb = Ok (value (u128_div a b)) /\ n128_mod va vb = Ok (value (u128_mod a b)) /\
  n128_msb va = Ok (u128_msb a) /\
  n128_gt va vb = u128_gt a b /\ n128_lt va vb = u128_lt a b /\ n128_eq va vb = u128_eq a b /\
  n128_ge va vb = u128_ge a b /\ n128_le va vb = u128_le a b.
Proof.
  intros ah al bh bl Ha La Hb Lb a b va vb value.
  assert (A : same va a) by (split; [split; assumption|reflexivity]).
  assert (B : same vb b) by (split; [split; assumption|reflexivity]).
  destruct (s_div va vb a b A B) as (q & -> & _ & Eq). destruct (s_mod va vb a b A B) as (r & -> & _ & Er).
  split; [rewrite <- Eq; reflexivity|]. split; [rewrite <- Er; reflexivity|]. split; [exact (s_msb va a A)|].
  split; [exact (s_gt va vb a b A B)|]. split; [exact (s_lt va vb a b A B)|]. split; [exact (s_eq va vb a b A B)|].
  split; [exact (s_ge va vb a b A B)|exact (s_le va vb a b A B)].
Qed.
Print Assumptions C82_division_same_in_both_builds.

(* Hence the __int128 build computes the arithmetic of the specification as well. *)
Theorem C82_native_build_is_correct : forall a b, reduced a -> reduced b ->
  zq_mul_n a b = Ok ((a * b) mod q) /\
  (forall n, 0 <= n < 2 ^ 64 -> zq_pow_n a n = Ok (a ^ n mod q)) /\
  (forall v, 0 <= v < 2 ^ 98 -> barrett_reduce_n v = Ok (v mod q)).
Proof.
  intros a b A B. rewrite q_Q.
  assert (CA : canon a) by (apply reduced_canon; exact A).
  assert (CB : canon b) by (apply reduced_canon; exact B).
  pose proof (canon_is64 a CA) as IA. pose proof (canon_is64 b CB) as IB.
  split; [rewrite (s_zq_mul a b IA IB), (zq_mul_spec a b CA CB); reflexivity|]. split.
  - intros n N. rewrite (s_zq_pow a n IA), (zq_pow_spec a n CA N). reflexivity.
  - intros v V. assert (E : same v (U128 (v / two64) (v mod two64))).
    { split.
      - split; cbn [u_hi u_lo]; [|apply Z.mod_pos_bound; reflexivity]. split; [apply Z.div_pos; [lia|reflexivity]|].
        apply Z.div_lt_upper_bound; [reflexivity|]. apply Z.lt_le_trans with (2 ^ 98); [apply V|]. intros H; discriminate H.
      - unfold val. cbn [u_hi u_lo]. rewrite (Z.mul_comm (v / two64)). symmetry. apply Z.div_mod. intros H; discriminate H. }
    rewrite (s_barrett v _ E). destruct E as [W E]. rewrite barrett_reduce_spec; [rewrite E; reflexivity|exact W|rewrite E; apply V].
Qed.
Print Assumptions C82_native_build_is_correct.

(* the hypotheses are met; a product that wraps past q, and a division by zero *)
Example C82_hyps_met : reduced 123456789012345 /\ reduced 98765432109876 /\
  0 <= 123456789012345 < 2 ^ 64 /\ (123456789012345 * 98765432109876) mod q <> 123456789012345 * 98765432109876 /\
  n128_div 5 0 = Ok 7 /\ n128_mod 5 0 = Ok 5.
Proof.
  rewrite q_Q. unfold reduced. rewrite q_Q, Q_val.
  repeat match goal with |- _ /\ _ => split end; try reflexivity; intros H; discriminate H.
Qed.
