(* Lemmas about ModelMore.v. *)
From Coq Require Import ZArith Lia Bool List Arith.
From Coq Require Import ZifyBool ZifyNat.
From Verif Require Import ModelBase ModelU128 ModelField ModelUtils ModelPoly ModelVec ModelMore.
From Verif Require Import Spec.
From Verif Require Import Words FieldProofs ArithLemmas BytesProofs PolyProofs NttLayers Cong NttEval MaskedProofs PolyLemmas SampleProofs.
Import ListNotations.
Open Scope Z_scope.
Ltac Zify.zify_post_hook ::= idtac.

Lemma tape_bytes tp pos n : Forall is_byte (stream_bytes (fun i => byteZ (tp i)) pos n).
Proof. apply Forall_forall. intros x Hx. apply in_map_iff in Hx. destruct Hx as (i & <- & _). apply byteZ_range. Qed.
Lemma random_coeffs_eq tp : forall n pos,
  poly_random n (Prng tp pos) =
  (map (fun i => le_value (stream_bytes (fun i => byteZ (tp i)) (pos + 8 * i) 8) mod q) (seq 0 n), Prng tp (pos + 8 * n)).
Proof.
  assert (One : forall pos, zq_random (Prng tp pos) = (le_value (stream_bytes (fun i => byteZ (tp i)) pos 8) mod q, Prng tp (pos + 8))).
  { intros pos. unfold zq_random, prng_read. cbn [tape ppos]. cbv iota beta. fold (stream_bytes (fun i => byteZ (tp i)) pos 8). f_equal.
    assert (L : length (stream_bytes (fun i => byteZ (tp i)) pos 8) = 8%nat) by (unfold stream_bytes; rewrite map_length, seq_length; reflexivity).
    pose proof (tape_bytes tp pos 8) as F. set (l := stream_bytes _ pos 8) in *. clearbody l.
    rewrite from_le_bytes_spec by exact F. rewrite firstn_all2 by lia. rewrite q_Q. apply zq_random_spec.
    pose proof (le_value_range l F) as B. unfold zlen in B. rewrite L in B. exact B. }
  induction n as [|n IH]; intros pos; [cbn [poly_random seq map]; rewrite Nat.mul_0_r, Nat.add_0_r; reflexivity|].
  cbn [poly_random]. rewrite One. cbv iota beta. rewrite IH. cbv iota beta. change (seq 0 (S n)) with (0%nat :: seq 1 n). cbn [map]. rewrite <- seq_shift, map_map.
  f_equal; [|f_equal; lia]. f_equal.
  - rewrite Nat.mul_0_r, Nat.add_0_r. reflexivity.
  - apply map_ext. intros i. do 2 f_equal. f_equal. lia.
Qed.
(* each residue is hit by 2^64 / q or one more of the 2^64 words *)
Lemma residue_count v : 0 <= v < q -> exists n, (n = 2 ^ 64 / q \/ n = 2 ^ 64 / q + 1) /\
  forall t, 0 <= v + q * t < 2 ^ 64 <-> 0 <= t < n.
Proof.
  intros Hv. assert (Hq : 0 < q) by lia. exists ((2 ^ 64 - 1 - v) / q + 1). set (N := 2 ^ 64) in *. assert (HN : q <= N) by (unfold N; rewrite q_Q, Q_val; vm_compute; discriminate).
  clearbody N. split.
  - pose proof (Z.div_mod N q ltac:(lia)) as D. pose proof (Z.mod_pos_bound N q Hq) as B. set (a := N / q) in *. set (b := N mod q) in *.
    destruct (Z_lt_le_dec v b) as [L|L].
    + right. f_equal. symmetry. apply Z.div_unique with (b - 1 - v); [lia|]. rewrite D at 1. ring.
    + left. replace ((N - 1 - v) / q) with (a - 1); [ring|]. apply Z.div_unique with (q + b - 1 - v); [lia|]. rewrite D at 1. ring.
  - intros t. pose proof (Z.div_mod (N - 1 - v) q ltac:(lia)) as D. pose proof (Z.mod_pos_bound (N - 1 - v) q Hq) as B. set (a := (N - 1 - v) / q) in *. split; intros H.
    + split.
      * assert (- q < q * t) by lia. destruct (Z_lt_le_dec t 0); [|assumption]. assert (q * t <= q * -1) by (apply Z.mul_le_mono_nonneg_l; lia). lia.
      * destruct (Z_lt_le_dec t (a + 1)); [assumption|]. assert (q * (a + 1) <= q * t) by (apply Z.mul_le_mono_nonneg_l; lia). lia.
    + split; [assert (0 <= q * t) by (apply Z.mul_nonneg_nonneg; lia); lia|]. assert (q * t <= q * a) by (apply Z.mul_le_mono_nonneg_l; lia). lia.
Qed.

(* masked product *)
Lemma map2_map {A B C A' B'} (f : A -> B -> C) (g : A' -> A) (h : B' -> B) : forall a b, map2 f (map g a) (map h b) = map2 (fun x y => f (g x) (h y)) a b.
Proof. induction a as [|x a IH]; intros [|y b]; try reflexivity. cbn [map map2]. rewrite IH. reflexivity. Qed.
Lemma map_map2 {A B C D} (k : C -> D) (f : A -> B -> C) : forall a b, map k (map2 f a b) = map2 (fun x y => k (f x y)) a b.
Proof. induction a as [|x a IH]; intros [|y b]; try reflexivity. cbn [map map2]. rewrite IH. reflexivity. Qed.
Lemma map2_ext_F {A B C} (f g : A -> B -> C) (P : A -> Prop) (R : B -> Prop) : (forall x y, P x -> R y -> f x y = g x y) ->
  forall a b, Forall P a -> Forall R b -> map2 f a b = map2 g a b.
Proof. intros H. induction a as [|x a IH]; intros [|y b] Fa Fb; try reflexivity. inversion Fa; inversion Fb; subst. cbn [map2]. rewrite H, IH by assumption. reflexivity. Qed.
Lemma mp_mul_shares a b : Forall is_poly a -> Forall is_poly b ->
  mp_intt (mp_mul (mp_ntt a) (mp_ntt b)) = map2 ring_mul a b.
Proof.
  intros Fa Fb. unfold mp_intt, mp_mul, mp_ntt. rewrite map2_map, map_map2. apply (map2_ext_F _ _ is_poly is_poly); try assumption.
  intros x y Hx Hy. apply ntt_mul_intt; assumption.
Qed.
Lemma ring_mul_zero_l b : ring_mul ring_zero b = ring_zero.
Proof.
  unfold ring_mul, ring_zero at 2. transitivity (map (fun _ : nat => 0) (seq 0 512)); [|reflexivity]. apply map_ext. intros k. unfold negacyclic_coef.
  replace (Zsum 512 _) with 0; [reflexivity|]. generalize 512%nat at 1. induction n as [|n IH]; [reflexivity|]. cbn [Zsum]. rewrite <- IH, coef_ring_zero.
  destruct (n <=? k)%nat; reflexivity.
Qed.
Lemma ring_mul_zero_r a : ring_mul a ring_zero = ring_zero.
Proof.
  unfold ring_mul, ring_zero at 2. transitivity (map (fun _ : nat => 0) (seq 0 512)); [|reflexivity]. apply map_ext. intros k. unfold negacyclic_coef.
  replace (Zsum 512 _) with 0; [reflexivity|]. generalize 512%nat at 1. induction n as [|n IH]; [reflexivity|]. cbn [Zsum]. rewrite <- IH, !coef_ring_zero, !Z.mul_0_r.
  destruct (n <=? k)%nat; reflexivity.
Qed.

Lemma nth_map_seq' {A} (f : nat -> A) n k d : (k < n)%nat -> nth k (map f (seq 0 n)) d = f k.
Proof. intros H. rewrite (nth_indep _ d (f 0%nat)) by (rewrite map_length, seq_length; exact H). rewrite map_nth, seq_nth by exact H. reflexivity. Qed.
Definition tape_residue (tp : nat -> byte) (pos i : nat) : Z := le_value (stream_bytes (fun i => byteZ (tp i)) (pos + 8 * i) 8) mod q.
Lemma tape_residue_reduced tp pos i : reduced (tape_residue tp pos i).
Proof. apply Z.mod_pos_bound. rewrite q_Q, Q_val. reflexivity. Qed.
Lemma random_coeffs_facts tp pos n p g : poly_random n (Prng tp pos) = (p, g) ->
  length p = n /\ Forall reduced p /\ g = Prng tp (pos + 8 * n) /\ forall i, (i < n)%nat -> coef p i = tape_residue tp pos i.
Proof.
  intros E. rewrite random_coeffs_eq in E. change (map (tape_residue tp pos) (seq 0 n), Prng tp (pos + 8 * n)) with (map (tape_residue tp pos) (seq 0 n), Prng tp (pos + 8 * n)) in E.
  apply pair_equal_spec in E. destruct E as [E1 E2]. subst g. change (map (tape_residue tp pos) (seq 0 n) = p) in E1. subst p.
  split; [rewrite map_length, seq_length; reflexivity|]. split; [|split; [reflexivity|]].
  - apply Forall_forall. intros x Hx. apply in_map_iff in Hx. destruct Hx as (i & <- & _). apply tape_residue_reduced.
  - intros i Hi. unfold coef. apply nth_map_seq'. exact Hi.
Qed.
Lemma poly_random_facts tp pos : forall p g, poly_random 512 (Prng tp pos) = (p, g) ->
  is_poly p /\ g = Prng tp (pos + 8 * 512) /\
  forall i, (i < 512)%nat -> coef p i = le_value (stream_bytes (fun i => byteZ (tp i)) (pos + 8 * i) 8) mod q.
Proof.
  intros p g E. destruct (random_coeffs_facts tp pos 512 p g E) as (L & F & G & H). split; [split; assumption|]. split; [exact G|exact H].
Qed.

(* the generator and its seed *)
Definition word4 (v : Z) : list Z := [v mod 256; (v / 2 ^ 8) mod 256; (v / 2 ^ 16) mod 256; (v / 2 ^ 24) mod 256].
Lemma word4_map v : map (fun i => (v / 2 ^ (8 * Z.of_nat i)) mod 256) (seq 0 4) = word4 v.
Proof. cbn [seq map]. unfold word4. change (2 ^ (8 * Z.of_nat 0)) with 1. rewrite Z.div_1_r. reflexivity. Qed.
Lemma word4_value v : 0 <= v < 2 ^ 32 -> le_value (word4 v) = v.
Proof.
  intros Hv. unfold word4. cbn [le_value].
  change (2 ^ 8) with 256. change (2 ^ 16) with (256 * 256). change (2 ^ 24) with (256 * 256 * 256).
  rewrite <- !Z.div_div by (discriminate || reflexivity). change (2 ^ 32) with (256 * 256 * 256 * 256) in Hv.
  pose proof (Z.div_mod v 256 ltac:(discriminate)) as E1. pose proof (Z.mod_pos_bound v 256 eq_refl).
  pose proof (Z.div_mod (v / 256) 256 ltac:(discriminate)) as E2. pose proof (Z.mod_pos_bound (v / 256) 256 eq_refl).
  pose proof (Z.div_mod (v / 256 / 256) 256 ltac:(discriminate)) as E3. pose proof (Z.mod_pos_bound (v / 256 / 256) 256 eq_refl).
  rewrite (Z.mod_small (v / 256 / 256 / 256)); [lia|]. lia.
Qed.
Lemma device_loop n : forall fuel rd calls done seed, zlen seed = 4 * Z.of_nat n -> (n < fuel)%nat ->
  device_seed_loop fuel rd calls (zlen done) (done ++ seed) = Ok (done ++ concat (map (fun i => word4 (rd i)) (seq calls n)), (calls + n)%nat).
Proof.
  induction n as [|n IH]; intros fuel rd calls done seed L Hf; destruct fuel as [|fuel]; try (exfalso; lia); cbn [device_seed_loop].
  - assert (seed = []) by (destruct seed; [reflexivity|unfold zlen in L; cbn [length] in L; lia]). subst seed.
    rewrite app_nil_r. replace (zlen done <? zlen done) with false by (symmetry; apply Z.ltb_ge; lia). cbn [seq map concat]. rewrite app_nil_r, Nat.add_0_r. reflexivity.
  - unfold zlen in *. rewrite app_length. replace (Z.of_nat (length done) <? Z.of_nat (length done + length seed)) with true by (symmetry; apply Z.ltb_lt; lia).
    cbv zeta. rewrite word4_map. unfold write_at, zlen. rewrite app_length. change (length (word4 (rd calls))) with 4%nat.
    replace ((0 <=? Z.of_nat (length done)) && (Z.of_nat (length done) + Z.of_nat 4 <=? Z.of_nat (length done + length seed))) with true
      by (symmetry; apply andb_true_intro; split; apply Z.leb_le; lia).
    rewrite Nat2Z.id. cbn [bind]. rewrite firstn_app, Nat.sub_diag, firstn_all. cbn [firstn]. rewrite app_nil_r.
    rewrite skipn_app. rewrite (skipn_all2 done) by lia. cbn [app].
    replace (length done + 4 - length done)%nat with 4%nat by lia.
    specialize (IH fuel rd (S calls) (done ++ word4 (rd calls)) (skipn 4 seed)).
    rewrite app_assoc. replace (Z.of_nat (length done) + 4) with (Z.of_nat (length (done ++ word4 (rd calls)))) by (rewrite app_length; change (length (word4 (rd calls))) with 4%nat; lia).
    rewrite IH; [|rewrite skipn_length; lia|lia]. cbn [seq map concat]. rewrite <- app_assoc. replace (S calls + n)%nat with (calls + S n)%nat by lia. reflexivity.
Qed.
Lemma device_seed_ok rd fuel : (9 <= fuel)%nat -> device_seed fuel rd = Ok (concat (map (fun i => word4 (rd i)) (seq 0 8)), 8%nat).
Proof. intros Hf. exact (device_loop 8 fuel rd 0%nat [] (repeat 0 32) eq_refl Hf). Qed.
Lemma concat_word4 rd i : forall n s, (i < n)%nat -> firstn 4 (skipn (4 * i) (concat (map (fun i => word4 (rd i)) (seq s n)))) = word4 (rd (s + i)%nat).
Proof.
  induction i as [|i IH]; intros n s Hn; (destruct n as [|n]; [exfalso; lia|]); cbn [seq map concat].
  - rewrite Nat.add_0_r. reflexivity.
  - replace (4 * S i)%nat with (4 + 4 * i)%nat by lia. rewrite skipn_app, (skipn_all2 (word4 (rd s))) by (change (length (word4 (rd s))) with 4%nat; lia).
    change (length (word4 (rd s))) with 4%nat. cbn [app]. replace (4 + 4 * i - 4)%nat with (4 * i)%nat by lia. rewrite IH by lia. do 2 f_equal. lia.
Qed.
Lemma word4_byte v : Forall is_byte (word4 v).
Proof. unfold word4. repeat (constructor; [apply Z.mod_pos_bound; reflexivity|]). constructor. Qed.
Lemma reads_facts sizes : forall tp pos bs p, prng_reads (Prng tp pos) sizes = (bs, p) ->
  map (@length Z) bs = sizes /\ concat bs = stream_bytes (fun i => byteZ (tp i)) pos (fold_right Nat.add 0%nat sizes) /\ p = Prng tp (pos + fold_right Nat.add 0%nat sizes).
Proof.
  induction sizes as [|n sizes IH]; intros tp pos bs p E; cbn [prng_reads] in E.
  - apply pair_equal_spec in E. destruct E as [<- <-]. cbn [fold_right]. rewrite Nat.add_0_r. split; [reflexivity|split; reflexivity].
  - unfold prng_read in E. cbn [tape ppos] in E. destruct (prng_reads (Prng tp (pos + n)) sizes) as [bs' p'] eqn:E'.
    apply pair_equal_spec in E. destruct E as [<- <-]. destruct (IH tp (pos + n)%nat bs' p' E') as (H1 & H2 & H3). cbn [map concat fold_right]. rewrite H1, H2. split; [|split].
    + rewrite map_length, seq_length. reflexivity.
    + unfold stream_bytes. rewrite seq_app, map_app. reflexivity.
    + rewrite H3, Nat.add_assoc. reflexivity.
Qed.
