(* Proofs for C52: the noise sampler is unbiased. *)
From Coq Require Import ZArith Lia List Bool.
From Coq Require Import ZifyBool ZifyNat Arith.
From Verif Require Import ModelBase ModelU128 ModelField ModelUtils ModelPoly ModelVec Words FieldProofs ArithLemmas BytesProofs PolyProofs SampleProofs NoiseProofs UniformProofs.
From Verif Require Import Spec SpecUniform.
Import ListNotations.
Open Scope Z_scope.
Ltac Zify.zify_post_hook ::= idtac.

Section N.
  Variable u : Z.
  Hypothesis Hu : 1 <= u <= 63.
  Definition per_u : nat := Z.to_nat ((u + 7) / 8).
  Definition rot (dl x : Z) : Z := (x mod 2 ^ u + dl) mod 2 ^ u + 2 ^ u * (x / 2 ^ u).
  Lemma pow_u : 0 < 2 ^ u. Proof. apply Z.pow_pos_nonneg; lia. Qed.
  Lemma rot_parts dl x : rot dl x mod 2 ^ u = (x + dl) mod 2 ^ u /\ rot dl x / 2 ^ u = x / 2 ^ u.
  Proof.
    pose proof pow_u as P. unfold rot. rewrite (Z.mul_comm (2 ^ u)).
    pose proof (Z.mod_pos_bound (x mod 2 ^ u + dl) (2 ^ u) P) as M. split.
    - rewrite Z.mod_add by lia. rewrite Z.mod_mod by lia. apply Zplus_mod_idemp_l.
    - rewrite Z.div_add by lia. rewrite Z.div_small by exact M. apply Z.add_0_l.
  Qed.
  Lemma rot_inv dl x : rot (- dl) (rot dl x) = x.
  Proof.
    pose proof pow_u as P. destruct (rot_parts dl x) as [E1 E2]. unfold rot at 1. rewrite E1, E2.
    rewrite Zplus_mod_idemp_l. replace (x + dl + - dl) with x by lia. rewrite Z.add_comm. symmetry. apply Z.div_mod. lia.
  Qed.
  Lemma per_pow : 256 ^ Z.of_nat per_u = 2 ^ u * 2 ^ (8 * Z.of_nat per_u - u) /\ (0 < per_u)%nat.
  Proof.
    unfold per_u. pose proof (Z.div_mod (u + 7) 8 ltac:(discriminate)) as D. pose proof (Z.mod_pos_bound (u + 7) 8 eq_refl) as M.
    rewrite Z2Nat.id by lia. split; [|lia]. rewrite <- Z.pow_add_r by lia.
    replace (u + (8 * ((u + 7) / 8) - u)) with (8 * ((u + 7) / 8)) by lia. rewrite Z.pow_mul_r by lia. reflexivity.
  Qed.
  Lemma rot_range dl x : 0 <= x < 256 ^ Z.of_nat per_u -> 0 <= rot dl x < 256 ^ Z.of_nat per_u.
  Proof.
    pose proof pow_u as P. rewrite (proj1 per_pow). set (h := 2 ^ (8 * Z.of_nat per_u - u)). intros H. unfold rot.
    pose proof (Z.mod_pos_bound (x mod 2 ^ u + dl) (2 ^ u) P) as M.
    assert (D : 0 <= x / 2 ^ u < h) by (split; [apply Z.div_pos; lia|apply Z.div_lt_upper_bound; lia]).
    set (y := x / 2 ^ u) in *. set (r := (_ + _) mod _) in *. assert (2 ^ u * (y + 1) <= 2 ^ u * h) by (apply Z.mul_le_mono_nonneg_l; lia).
    lia.
  Qed.
  Lemma signed_iff x e : - 2 ^ (u - 1) <= e < 2 ^ (u - 1) -> (signed_bits u x = e <-> x mod 2 ^ u = e mod 2 ^ u).
  Proof.
    intros He. pose proof pow_u as P. assert (D : 2 ^ u = 2 * 2 ^ (u - 1)) by (rewrite <- Z.pow_succ_r by lia; f_equal; lia).
    unfold signed_bits. cbv zeta. pose proof (Z.mod_pos_bound x (2 ^ u) P) as M. set (r := x mod 2 ^ u) in *. clearbody r.
    assert (E : e mod 2 ^ u = if e <? 0 then e + 2 ^ u else e).
    { destruct (e <? 0) eqn:N.
      - apply Z.ltb_lt in N. rewrite <- (Z.mod_add e 1) by lia. rewrite Z.mul_1_l. apply Z.mod_small. lia.
      - apply Z.ltb_ge in N. apply Z.mod_small. lia. }
    rewrite E. destruct (r <? 2 ^ (u - 1)) eqn:R, (e <? 0) eqn:N; lia.
  Qed.
  Definition noiseF (dl : nat -> Z) : (nat -> Z) -> nat -> Z := rewrite_chunks per_u (fun S t => rot (dl t) (chunk per_u S t)).
  Lemma noise_bijection dl dl' : (forall t, dl' t = - dl t) -> stream_bijection per_u (noiseF dl) (noiseF dl').
  Proof.
    intros D. pose proof (proj2 per_pow) as P. apply rewrite_bijection.
    - exact P.
    - intros t S S' E. cbv beta. f_equal. apply chunk_ext. exact E.
    - intros t S S' E. cbv beta. f_equal. apply chunk_ext. exact E.
    - intros S t B. apply rot_range. apply chunk_range; exact B.
    - intros S t B. apply rot_range. apply chunk_range; exact B.
    - intros S t B. cbv beta. rewrite rewrite_chunk; [rewrite D; apply rot_inv|exact P|]. apply rot_range, chunk_range; exact B.
    - intros S t B. cbv beta. rewrite rewrite_chunk; [|exact P|]; [|apply rot_range, chunk_range; exact B].
      replace (dl t) with (- dl' t) by (rewrite D; lia). apply rot_inv.
  Qed.
  Lemma noise_uniform e e' : length e = 512%nat -> length e' = 512%nat ->
    Forall (fun x => - 2 ^ (u - 1) <= x < 2 ^ (u - 1)) e -> Forall (fun x => - 2 ^ (u - 1) <= x < 2 ^ (u - 1)) e' ->
    exists F G, stream_bijection per_u F G /\
      forall O O' hdr seed, (forall i, hash_of O' (hdr ++ seed) i = F (hash_of O (hdr ++ seed)) i) ->
        (sampleU O u hdr seed = e <-> sampleU O' u hdr seed = e').
  Proof.
    intros L L' R R'. exists (noiseF (fun t => nth t e' 0 - nth t e 0)), (noiseF (fun t => nth t e 0 - nth t e' 0)).
    split; [apply noise_bijection; intros t; lia|]. intros O O' hdr seed H. rewrite !sampleU_eq by exact Hu.
    set (S := hash_of O (hdr ++ seed)) in *. assert (B : byte_stream S) by apply hash_byte_stream.
    assert (NS : forall T i, noise_sample T u i = signed_bits u (chunk per_u T i)).
    { intros T i. unfold noise_sample, chunk. cbv zeta. fold per_u. rewrite (Nat.mul_comm i). reflexivity. }
    rewrite Forall_forall in R, R'.
    assert (K : forall T v, length v = 512%nat -> (map (noise_sample T u) (seq 0 512) = v <-> forall i, (i < 512)%nat -> signed_bits u (chunk per_u T i) = nth i v 0)).
    { intros T v Lv. split.
      - intros E i Hi. rewrite <- E. rewrite nth_map_seq by exact Hi. symmetry. apply NS.
      - intros E. apply nth_ext_Z; [rewrite map_length, seq_length; lia|]. intros i Hi. rewrite map_length, seq_length in Hi.
        rewrite nth_map_seq by exact Hi. rewrite NS. apply E. exact Hi. }
    rewrite !K by assumption.
    assert (X : forall i, (i < 512)%nat -> (signed_bits u (chunk per_u S i) = nth i e 0 <-> signed_bits u (chunk per_u (hash_of O' (hdr ++ seed)) i) = nth i e' 0)).
    { intros i Hi. rewrite !signed_iff; [|apply R', nth_In; lia|apply R, nth_In; lia].
      rewrite (chunk_ext per_u (hash_of O' (hdr ++ seed)) (noiseF (fun t => nth t e' 0 - nth t e 0) S) i) by (intros j _; apply H).
      unfold noiseF. rewrite rewrite_chunk; [|apply per_pow|apply rot_range, chunk_range; exact B].
      rewrite (proj1 (rot_parts _ _)). set (x := chunk per_u S i). set (a := nth i e 0). set (b := nth i e' 0).
      split; intros E.
      - rewrite Zplus_mod, E, <- Zplus_mod. f_equal. lia.
      - replace x with ((x + (b - a)) - (b - a)) by lia. rewrite Zminus_mod, E, <- Zminus_mod. f_equal. lia. }
    split; intros E i Hi; apply X; try exact Hi; apply E; exact Hi.
  Qed.
End N.

Lemma sampleU_range O u hdr seed : 1 <= u <= 63 -> length (sampleU O u hdr seed) = 512%nat /\
  Forall (fun x => - 2 ^ (u - 1) <= x < 2 ^ (u - 1)) (sampleU O u hdr seed).
Proof.
  intros Hu. rewrite sampleU_eq by exact Hu. split; [rewrite map_length, seq_length; reflexivity|].
  apply Forall_map, Forall_forall. intros i _. unfold noise_sample. cbv zeta. set (x := le_value _). clearbody x. unfold signed_bits. cbv zeta.
  assert (P : 0 < 2 ^ u) by (apply Z.pow_pos_nonneg; lia).
  assert (D : 2 ^ u = 2 * 2 ^ (u - 1)) by (rewrite <- Z.pow_succ_r by lia; f_equal; lia).
  pose proof (Z.mod_pos_bound x (2 ^ u) P). destruct (_ <? _) eqn:E; lia.
Qed.
