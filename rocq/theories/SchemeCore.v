(* Vectors with one share, the challenge hash, the product A z - 2^nut t c. *)
From Coq Require Import ZArith Lia Bool List Arith.
From Coq Require Import ZifyBool ZifyNat.
From Verif Require Import ModelBase ModelU128 ModelField ModelUtils ModelPoly ModelVec ModelSerial ModelScheme.
From Verif Require Import Spec SpecScheme SpecSig SpecVerify.
From Verif Require Import Words FieldProofs ArithLemmas BytesProofs PolyProofs NttLayers NttProofs Cong NttEval NttBounds MaskedProofs LinProofs SampleProofs PolyLemmas MaskedLemmas.
Import ListNotations.
Open Scope Z_scope.
Ltac Zify.zify_post_hook ::= idtac.

(* ---------- challenge hash ---------- *)
Lemma absorb_all x a b : xof_absorb (xof_absorb x a) b = xof_absorb x (a ++ b).
Proof. unfold xof_absorb. cbn [xof_in xof_out]. rewrite app_assoc. reflexivity. Qed.
Lemma absorb_nil x : xof_absorb x [] = x.
Proof. destruct x as [i o]. unfold xof_absorb. cbn [xof_in xof_out]. rewrite app_nil_r. reflexivity. Qed.
Lemma chal_hash_loop_eq ws : forall buf x,
  (let '(b, y) := chal_hash_loop ws buf x in xof_absorb y b) = xof_absorb x (buf ++ map (fun w => w mod 256) ws).
Proof.
  induction ws as [|w ws IH]; intros buf x; cbn [chal_hash_loop map].
  - rewrite app_nil_r. reflexivity.
  - destruct (length buf =? SHAKE256_RATE_BYTES)%nat.
    + rewrite IH. rewrite absorb_all. f_equal.
    + rewrite IH. rewrite <- app_assoc. reflexivity.
Qed.
Lemma chal_hash_digest O kappa k w mu :
  chal_hash O kappa k w mu =
  digest (hash_of O) (kbytes (2 * kappa))
    ([104; Z.of_nat k mod 256; 0; 0; 0; 0; 0; 0] ++ map (fun x => x mod 256) (pv_flat w) ++ mu).
Proof.
  unfold chal_hash. pose proof (chal_hash_loop_eq (pv_flat w) [104; Z.of_nat k mod 256; 0; 0; 0; 0; 0; 0] xof_new) as E.
  destruct (chal_hash_loop (pv_flat w) _ xof_new) as [buf x].
  assert (E' : (if (0 <? length buf)%nat then xof_absorb x buf else x) = xof_absorb x buf).
  { destruct buf; [rewrite absorb_nil; reflexivity|reflexivity]. }
  rewrite E', E, absorb_all, squeeze_eq. cbn [fst xof_absorb xof_new xof_in xof_out app].
  unfold digest. rewrite <- ?app_assoc. reflexivity.
Qed.
Definition one (v : list (list Z)) : list (list (list Z)) := map (fun p => [p]) v.
Lemma flat_one v : pv_flat (one v) = concat v.
Proof. unfold pv_flat, one. rewrite map_map. cbn [nth]. rewrite map_id. reflexivity. Qed.
Lemma map_mod256 l : Forall is_byte l -> map (fun x => x mod 256) l = l.
Proof. intros F. rewrite <- (map_id l) at 2. apply map_ext_in. intros x Hx. rewrite Forall_forall in F. apply Z.mod_small, (F x Hx). Qed.
Lemma chal_hash_value O kappa w mu : (length w < 256)%nat -> Forall (Forall is_byte) w ->
  chal_hash O kappa (length w) (one w) mu = challenge_value (hash_of O) (kbytes (2 * kappa)) w mu.
Proof.
  intros L F. rewrite chal_hash_digest, flat_one, Z.mod_small by lia. rewrite map_mod256; [reflexivity|].
  apply Forall_concat. exact F.
Qed.
Lemma digest_length H n m : length (digest H n m) = n.
Proof. apply stream_bytes_length. Qed.
Lemma digest_bytes O n m : Forall is_byte (digest (hash_of O) n m).
Proof. apply hash_bytes. Qed.

(* ---------- one-share vectors ---------- *)
Lemma one_length v : length (one v) = length v.
Proof. apply map_length. Qed.
Lemma one_ok v : Forall is_poly v -> pv_ok (length v) 1 (one v).
Proof. intros F. split; [apply one_length|]. unfold one. apply Forall_map. refine (Forall_impl _ _ F). intros p Hp. split; [reflexivity|]. constructor; [exact Hp|constructor]. Qed.
Lemma one_of k v : pv_ok k 1 v -> v = one (map unmask v).
Proof.
  intros [_ F]. unfold one. rewrite map_map. rewrite <- (map_id v) at 1. apply map_ext_in. intros row Hr. rewrite Forall_forall in F. destruct (F row Hr) as [L Fr].
  destruct row as [|p [|p' row]]; try discriminate L. inversion Fr; subst. rewrite unmask_single by assumption. reflexivity.
Qed.
Lemma unmask_one v : Forall is_poly v -> map unmask (one v) = v.
Proof. intros F. unfold one. rewrite map_map. rewrite <- (map_id v) at 2. apply map_ext_in. intros p Hp. rewrite Forall_forall in F. apply unmask_single, F, Hp. Qed.
Lemma one_inj a b : one a = one b -> a = b.
Proof. intros E. apply (f_equal (map (fun r => nth 0 r []))) in E. unfold one in E. rewrite !map_map in E. cbn [nth] in E. rewrite !map_id in E. exact E. Qed.
Lemma one_ntt v : pv_ntt (one v) = one (map ntt v).
Proof. unfold pv_ntt, one, mp_ntt. rewrite !map_map. reflexivity. Qed.
Lemma one_intt v : pv_intt (one v) = one (map intt v).
Proof. unfold pv_intt, one, mp_intt. rewrite !map_map. reflexivity. Qed.
Lemma one_shl n v : pv_shl n (one v) = one (map (poly_shl n) v).
Proof. unfold pv_shl, one, mp_shl. rewrite !map_map. reflexivity. Qed.
Lemma one_round n v : pv_rounding_shr n (one v) = one (map (poly_rounding_shr n) v).
Proof. unfold pv_rounding_shr, one, mp_rounding_shr. rewrite !map_map. reflexivity. Qed.
Lemma one_mul v c : pv_mul_poly (one v) c = one (map (fun p => poly_mul p c) v).
Proof. unfold pv_mul_poly, one. rewrite !map_map. reflexivity. Qed.
Lemma one_map2 (f : list Z -> list Z -> list Z) a : forall b, map2 (map2 f) (one a) (one b) = one (map2 f a b).
Proof. induction a as [|x a IH]; intros [|y b]; try reflexivity. cbn [one map map2] in *. unfold one in *. rewrite IH. reflexivity. Qed.
Lemma zipw_map2 {A B C} (f : A -> B -> C) a b : zipw f a b = map2 f a b.
Proof. unfold zipw. symmetry. apply map2_map_combine. Qed.
Lemma rows1_public k t : public_vec k t -> t = one (rows1 t) /\ length (rows1 t) = k /\
  Forall (fun p => length p = 512%nat /\ Forall (fun x => 0 <= x < 128) p) (rows1 t).
Proof.
  intros [L F]. unfold rows1, one. rewrite map_map. split; [|split].
  - rewrite <- (map_id t) at 1. apply map_ext_in. intros row Hr. rewrite Forall_forall in F. destruct (F row Hr) as (p & -> & _). reflexivity.
  - rewrite map_length. exact L.
  - apply Forall_map. refine (Forall_impl _ _ F). intros row (p & -> & H). exact H.
Qed.

(* ---------- matrix ---------- *)
Lemma transform_ntt a : is_poly a -> transform a = ntt a.
Proof.
  intros Ha. apply poly_ext; [unfold transform; rewrite map_length; apply seq_length|apply is_poly_length, ntt_poly, Ha|].
  intros i Hi. unfold transform. rewrite coef_map by exact Hi. symmetry. apply (proj1 (proj2 transform_products)); assumption.
Qed.
Lemma ring_mat_public O seed k l A : length A = (k * l)%nat ->
  (forall r c, (r < k)%nat -> (c < l)%nat -> uniform_poly (matrix_stream (hash_of O) seed r c) (mat_get l A r c)) ->
  mat_ok k l A /\ public_matrix (hash_of O) seed k l (ring_mat k l A).
Proof.
  intros L U.
  assert (M : mat_ok k l A).
  { split; [exact L|]. apply Forall_forall. intros p Hp. destruct (In_nth _ _ [] Hp) as (i & Hi & <-). unfold poly in *. rewrite L in Hi.
    assert (l <> 0)%nat by (intros ->; lia).
    assert (Hr : (i / l < k)%nat) by (apply Nat.div_lt_upper_bound; lia). pose proof (Nat.mod_upper_bound i l ltac:(lia)) as Hc.
    pose proof (U _ _ Hr Hc) as Up. unfold mat_get in Up. rewrite (Nat.mul_comm (i / l) l), <- (Nat.div_mod i l) in Up by lia. apply (uniform_poly_poly _ _ Up). }
  split; [exact M|]. split; [unfold ring_mat; rewrite map_length; apply seq_length|]. split.
  - apply Forall_forall. intros row Hr. unfold ring_mat in Hr. apply in_map_iff in Hr. destruct Hr as (r & <- & Hr). apply in_seq in Hr.
    split; [rewrite map_length; apply seq_length|]. apply Forall_forall. intros p Hp. apply in_map_iff in Hp. destruct Hp as (c & <- & Hc). apply in_seq in Hc.
    apply intt_poly. apply (mat_get_ok k l A); [exact M|lia|lia].
  - intros r c Hr Hc. unfold ring_mat. rewrite nth_map_seq by exact Hr. rewrite nth_map_seq by exact Hc.
    pose proof (mat_get_ok k l A r c M Hr Hc) as G. rewrite transform_ntt by (apply intt_poly, G). rewrite ntt_intt by exact G. apply U; assumption.
Qed.
Lemma public_matrix_fun H seed k l A B : public_matrix H seed k l A -> public_matrix H seed k l B -> A = B.
Proof.
  intros (LA & FA & UA) (LB & FB & UB). apply (nth_ext _ _ [] []); [congruence|]. intros r Hr. rewrite LA in Hr.
  rewrite Forall_forall in FA, FB.
  destruct (FA (nth r A []) ltac:(apply nth_In; lia)) as [Lr Fr]. destruct (FB (nth r B []) ltac:(apply nth_In; lia)) as [Lr' Fr'].
  apply (nth_ext _ _ [] []); [congruence|]. intros c Hc. rewrite Lr in Hc.
  rewrite Forall_forall in Fr, Fr'.
  assert (P1 : is_poly (nth c (nth r A []) [])) by (apply Fr, nth_In; lia).
  assert (P2 : is_poly (nth c (nth r B []) [])) by (apply Fr', nth_In; lia).
  pose proof (uniform_poly_fun _ _ _ (UA r c Hr Hc) (UB r c Hr Hc)) as E. rewrite !transform_ntt in E by assumption.
  apply (f_equal intt) in E. rewrite !intt_ntt in E by assumption. exact E.
Qed.

(* ---------- A z - 2^nut t c ---------- *)
Lemma map2_F_sub (F : list Z -> list Z) (G : list Z -> list Z -> list Z) (G' : list Z -> list Z -> list Z)
  (HF : forall a b, is_poly a -> is_poly b -> F (G a b) = G' (F a) (F b)) a : forall b,
  Forall is_poly a -> Forall is_poly b -> map F (map2 G a b) = map2 G' (map F a) (map F b).
Proof.
  induction a as [|x a IH]; intros [|y b] Fa Fb; try reflexivity. inversion Fa; subst. inversion Fb; subst. cbn [map map2]. rewrite HF, IH by assumption. reflexivity.
Qed.
Lemma matmul_one k l A z : mat_ok k l A -> length z = l -> Forall is_poly z ->
  exists u, mat_mul k l 1 A (one z) = one u /\ Forall is_poly u /\ length u = k /\ map intt u = ring_matvec (ring_mat k l A) (map intt z).
Proof.
  intros HA Lz Fz. pose proof (one_ok z Fz) as Oz. rewrite Lz in Oz.
  destruct (mat_mul_ok k l 1 A (one z) HA (pv_ok_w _ _ _ Oz)) as [M1 M2].
  exists (map unmask (mat_mul k l 1 A (one z))). split; [apply (one_of k), M1|]. split; [|split].
  - apply Forall_map, Forall_forall. intros row _. apply unmask_poly.
  - rewrite map_length. apply M1.
  - rewrite <- (pv_unmask_intt k 1) by exact M1. rewrite mat_mul_intt by assumption. rewrite unmask_one by exact Fz. reflexivity.
Qed.
(* the value from which both the signer and the verifier continue *)
Lemma product_ok k l A t c z nut nuw : mat_ok k l A -> length z = l -> Forall is_poly z ->
  public_vec k t -> is_poly c -> 0 <= nut < 57 -> 1 <= nuw <= 47 ->
  pv_rounding_shr nuw (pv_intt (pv_sub (mat_mul k l 1 A (one z)) (pv_mul_poly (pv_ntt (pv_shl nut t)) (ntt c))))
  = one (noisy_product nut nuw (ring_mat k l A) (rows1 t) c (map intt z)).
Proof.
  intros HA Lz Fz Ht Hc Hn Hw. destruct (matmul_one k l A z HA Lz Fz) as (u & -> & Fu & Lu & Eu).
  destruct (rows1_public k t Ht) as (Et & Lt & Ft). rewrite Et at 1.
  assert (E2 : pv_ntt (pv_shl nut (one (rows1 t))) = one (map ntt (map (ring_scale (2 ^ nut)) (rows1 t)))).
  { rewrite one_shl, one_ntt. do 2 f_equal. apply map_ext_in. intros p Hp. rewrite Forall_forall in Ft. destruct (Ft p Hp). apply poly_shl_ring; assumption. }
  rewrite E2. set (t2 := map (ring_scale (2 ^ nut)) (rows1 t)).
  assert (F2 : Forall is_poly t2) by (unfold t2; apply Forall_map, Forall_forall; intros p _; apply ring_scale_poly).
  rewrite one_mul. rewrite map_map.
  assert (E3 : map (fun x => poly_mul (ntt x) (ntt c)) t2 = map ntt (map (fun p => ring_mul p c) t2)).
  { rewrite map_map. apply map_ext_in. intros p Hp. rewrite Forall_forall in F2. rewrite ntt_ring_mul; [|apply F2, Hp|exact Hc].
    apply poly_mul_pw; apply ntt_poly; [apply F2, Hp|exact Hc]. }
  rewrite E3. set (tc := map (fun p => ring_mul p c) t2).
  assert (F3 : Forall is_poly tc) by (unfold tc; apply Forall_map, Forall_forall; intros p _; apply ring_mul_poly).
  assert (E4 : pv_sub (one u) (one (map ntt tc)) = one (map2 poly_sub u (map ntt tc))) by apply one_map2.
  rewrite E4, one_intt.
  assert (E5 : map intt (map2 poly_sub u (map ntt tc)) = map2 ring_sub (map intt u) tc).
  { rewrite (map2_ext poly_sub ring_sub is_poly is_poly); [|exact poly_sub_ring|exact Fu|apply Forall_map; refine (Forall_impl _ _ F3); exact ntt_poly].
    rewrite (map2_F_sub intt ring_sub ring_sub intt_ring_sub); [|exact Fu|apply Forall_map; refine (Forall_impl _ _ F3); exact ntt_poly].
    f_equal. rewrite map_map. rewrite <- (map_id tc) at 2. apply map_ext_in. intros p Hp. rewrite Forall_forall in F3. apply intt_ntt, F3, Hp. }
  rewrite E5, one_round, Eu. f_equal. unfold noisy_product. rewrite zipw_map2.
  replace (map (fun p => ring_mul (ring_scale (2 ^ nut) p) c) (rows1 t)) with tc by (unfold tc, t2; rewrite map_map; reflexivity).
  apply map_ext_in. intros p Hp. unfold round_poly. apply poly_rounding_shr_spec; [exact Hw|].
  rewrite <- zipw_map2 in Hp. unfold zipw in Hp. apply in_map_iff in Hp. destruct Hp as ((x & y) & <- & _). apply ring_sub_poly.
Qed.
Lemma noisy_product_range nut nuw A t c z : 1 <= nuw <= 47 -> length A = length t ->
  length (noisy_product nut nuw A t c z) = length A /\
  Forall (fun p => length p = 512%nat /\ Forall (fun x => 0 <= x < q / 2 ^ nuw) p) (noisy_product nut nuw A t c z).
Proof.
  intros Hw L. unfold noisy_product, zipw. split.
  - rewrite !map_length, combine_length, map_length. unfold ring_matvec. rewrite map_length. lia.
  - apply Forall_map, Forall_map, Forall_forall. intros (x & y) _. unfold round_poly. rewrite map_length. split; [apply is_poly_length, ring_sub_poly|].
    apply Forall_map, Forall_forall. intros a _. apply round_shift_range, Hw.
Qed.
