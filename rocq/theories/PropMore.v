(* Property theorems about public members that the scheme itself does not call. *)
From Coq Require Import ZArith List Bool Lia.
From Verif Require Import ModelBase ModelU128 ModelField ModelUtils ModelPoly ModelVec ModelMore.
From Verif Require Import Spec.
From Verif Require Import Words FieldProofs ArithLemmas PolyProofs MaskedProofs PolyLemmas SampleProofs SampleLemmas SigEnc ExOracle MaskUniform MoreProofs PropPoly.
Import ListNotations.
Open Scope Z_scope.

Definition const_one : list Z := 1 :: repeat 0 511.
Lemma const_one_poly : is_poly const_one.
Proof. apply is_polyb_ok. vm_compute. reflexivity. Qed.

(* C47 is false for two and more shares: multiplying share by share is not multiplication of the
   shared polynomials.  For every number of shares d >= 2 there are sharings of 1 and 1 whose
   product, transformed back, is a sharing of 0. *)
Theorem C47_masked_product_refuted : forall d, (2 <= d)%nat -> exists a b,
  masked d a /\ masked d b /\
  unmask (mp_intt (mp_mul (mp_ntt a) (mp_ntt b))) = ring_zero /\
  unmask a = const_one /\ unmask b = const_one /\ ring_mul (unmask a) (unmask b) <> ring_zero.
Proof.
  intros d Hd. set (n := (d - 2)%nat). exists (const_one :: ring_zero :: repeat ring_zero n), (ring_zero :: const_one :: repeat ring_zero n).
  assert (Z0 : is_poly ring_zero) by apply ring_zero_poly. pose proof const_one_poly as C1.
  assert (FR : Forall is_poly (repeat ring_zero n)) by (apply Forall_forall; intros x Hx; apply repeat_spec in Hx; subst x; exact Z0).
  assert (M1 : masked d (const_one :: ring_zero :: repeat ring_zero n)) by (split; [cbn [length]; rewrite repeat_length; lia|constructor; [exact C1|constructor; assumption]]).
  assert (M2 : masked d (ring_zero :: const_one :: repeat ring_zero n)) by (split; [cbn [length]; rewrite repeat_length; lia|constructor; [exact Z0|constructor; assumption]]).
  assert (U0 : forall l, Forall (fun x => x = ring_zero) l -> forall k, fold_right Z.add 0 (map (fun s => coef s k) l) = 0).
  { intros l F k. induction F as [|x l -> F IH]; [reflexivity|]. cbn [map fold_right]. rewrite IH, coef_ring_zero. reflexivity. }
  assert (FZ : Forall (fun x => x = ring_zero) (repeat ring_zero n)) by (apply Forall_forall; intros x Hx; apply repeat_spec in Hx; exact Hx).
  assert (U1 : unmask (const_one :: ring_zero :: repeat ring_zero n) = const_one).
  { unfold unmask. cbn [map fold_right]. apply poly_ext; [rewrite map_length, seq_length; reflexivity|apply C1|]. intros k Hk.
    unfold coef at 1. rewrite (nth_indep _ 0 ((fun k => (coef const_one k + (coef ring_zero k + fold_right Z.add 0 (map (fun s => coef s k) (repeat ring_zero n)))) mod q) 0%nat)) by (rewrite map_length, seq_length; exact Hk).
    rewrite (map_nth (fun k => (coef const_one k + (coef ring_zero k + fold_right Z.add 0 (map (fun s => coef s k) (repeat ring_zero n)))) mod q)), seq_nth by exact Hk.
    rewrite (U0 _ FZ), coef_ring_zero. cbn [Nat.add]. rewrite !Z.add_0_r. apply mod_q_reduced, is_poly_coef'. exact C1. }
  assert (U2 : unmask (ring_zero :: const_one :: repeat ring_zero n) = const_one).
  { rewrite <- U1 at 2. unfold unmask. cbn [map fold_right]. apply map_ext. intros k. f_equal. ring. }
  split; [exact M1|]. split; [exact M2|]. split; [|split; [exact U1|split; [exact U2|]]].
  - rewrite mp_mul_shares by (apply M1 || apply M2). unfold unmask.
    transitivity (map (fun _ : nat => 0) (seq 0 512)); [|reflexivity]. apply map_ext. intros k. rewrite U0; [reflexivity|].
    cbn [map2]. rewrite ring_mul_zero_l, ring_mul_zero_r. constructor; [reflexivity|]. constructor; [reflexivity|].
    clear. clearbody n. clear. induction n as [|m IH]; [constructor|]. cbn [repeat map2]. rewrite ring_mul_zero_l. constructor; [reflexivity|exact IH].
  - rewrite U1, U2. intros E. assert (X := f_equal (fun p => coef p 0) E). cbv beta in X. rewrite coef_ring_zero in X. revert X.
    unfold ring_mul, coef at 1. cbn [seq map nth]. vm_compute. discriminate.
Qed.
Print Assumptions C47_masked_product_refuted.
(* what it computes for any number of shares; with one share it is the product *)
Theorem C47_masked_product_partial :
  (forall d a b, masked d a -> masked d b -> mp_intt (mp_mul (mp_ntt a) (mp_ntt b)) = map2 ring_mul a b) /\
  (forall a b, masked 1 a -> masked 1 b -> unmask (mp_intt (mp_mul (mp_ntt a) (mp_ntt b))) = ring_mul (unmask a) (unmask b)).
Proof.
  split; [intros d a b [_ Fa] [_ Fb]; apply mp_mul_shares; assumption|].
  assert (U : forall p, is_poly p -> unmask [p] = p).
  { intros p Hp. unfold unmask. cbn [map fold_right]. apply poly_ext; [rewrite map_length, seq_length; reflexivity|apply Hp|]. intros k Hk.
    unfold coef at 1. rewrite (nth_indep _ 0 ((fun k => (coef p k + 0) mod q) 0%nat)) by (rewrite map_length, seq_length; exact Hk). rewrite (map_nth (fun k => (coef p k + 0) mod q)), seq_nth by exact Hk.
    rewrite Z.add_0_r. apply mod_q_reduced, is_poly_coef'. exact Hp. }
  intros a b [La Fa] [Lb Fb]. rewrite mp_mul_shares by assumption. destruct a as [|x [|? ?]]; try discriminate. destruct b as [|y [|? ?]]; try discriminate.
  inversion Fa; inversion Fb; subst. cbn [map2]. rewrite !U by (try assumption; apply ring_mul_poly). reflexivity.
Qed.
Print Assumptions C47_masked_product_partial.
Example C47_nonvacuous : masked 1 [const_one] /\ masked 2 [const_one; const_one].
Proof. split; (split; [reflexivity|]); repeat (apply Forall_cons; [exact const_one_poly|]); apply Forall_nil. Qed.

(* C48 is false: sampleQ of a masked polynomial leaves it as it was, whatever the hash function, the
   header and the seed. *)
Theorem C48_masked_sampleQ_refuted : forall O fuel hdr sigma a,
  (forall a', mp_sampleQ O fuel hdr sigma a = Ok a' -> a' = a) /\
  (forall p, sampleQ O fuel hdr sigma = Ok p -> mp_sampleQ O fuel hdr sigma a = Ok a).
Proof.
  intros O fuel hdr sigma a. unfold mp_sampleQ. split.
  - intros a'. destruct (sampleQ O fuel hdr sigma); cbn [bind]; intros E; [injection E as <-; reflexivity|discriminate E|discriminate E].
  - intros p ->. reflexivity.
Qed.
Print Assumptions C48_masked_sampleQ_refuted.
(* C48, what holds: the sampling function itself (a static member) returns the polynomial sampled from header and
   seed, and the call on a masked polynomial returns exactly if that polynomial exists, without undefined
   behaviour.  Missing: the object does not receive the polynomial. *)
Theorem C48_masked_sampleQ_partial : forall O fuel hdr sigma a, let S := hash_of O (hdr ++ sigma) in
  (forall p, sampleQ O fuel hdr sigma = Ok p -> is_poly p /\ uniform_poly S p) /\
  mp_sampleQ O fuel hdr sigma a <> UB /\
  (mp_sampleQ O fuel hdr sigma a = OutOfFuel <-> (length (accepted49 S fuel) < 512)%nat).
Proof.
  intros O fuel hdr sigma a S. pose proof (proj1 (uniform_facts O fuel) hdr sigma) as E. cbv zeta in E. fold S in E.
  unfold mp_sampleQ. unfold poly in *. rewrite E. destruct (512 <=? length (accepted49 S fuel))%nat eqn:L; cbn [bind].
  - apply Nat.leb_le in L. split; [|split; [discriminate|]].
    + intros p X. apply ok_inj in X. assert (U : uniform_poly S p) by (exists fuel; split; [exact L|symmetry; exact X]). split; [exact (uniform_poly_poly _ _ U)|exact U].
    + split; [discriminate|]. intros X. exfalso. revert X L. generalize (length (accepted49 S fuel)). intros n X L. exact (Nat.lt_irrefl _ (Nat.lt_le_trans _ _ _ X L)).
  - apply Nat.leb_gt in L. split; [discriminate|]. split; [discriminate|]. split; [intros _; exact L|reflexivity].
Qed.
Print Assumptions C48_masked_sampleQ_partial.
(* .. so that it differs from the sampled polynomial *)
Example C48_nonvacuous : exists p, sampleQ ex_O 512 [65; 0; 0; 0; 0; 0; 0; 0] [1; 2] = Ok p /\
  mp_sampleQ ex_O 512 [65; 0; 0; 0; 0; 0; 0; 0] [1; 2] [ring_zero] = Ok [ring_zero] /\ p <> ring_zero.
Proof.
  eexists. split; [apply (ex_sampleQ 512 [65; 0; 0; 0; 0; 0; 0; 0] [1; 2]); apply le_n|]. split.
  - unfold mp_sampleQ. rewrite (ex_sampleQ 512 [65; 0; 0; 0; 0; 0; 0; 0] [1; 2]) by apply le_n. reflexivity.
  - intros E. assert (X := f_equal (fun p => coef p 1) E). cbv beta in X. rewrite coef_ring_zero in X. revert X. unfold coef. rewrite nth_map_seq by lia. vm_compute. discriminate.
Qed.

(* C49: a random polynomial has reduced coefficients; coefficient i is the i-th eight-byte little-endian
   word of the tape modulo q; exactly 4096 bytes are read; every residue stems from 2^64 / q or one
   more of the 2^64 words, so no value is missed and the bias is one word. *)
Theorem C49_random_polynomial : forall tp pos, let T := fun i => byteZ (tp i) in
  (forall p g, poly_random 512 (Prng tp pos) = (p, g) ->
     is_poly p /\ g = Prng tp (pos + 8 * 512) /\
     forall i, (i < 512)%nat -> coef p i = le_value (stream_bytes T (pos + 8 * i) 8) mod q) /\
  (forall v, 0 <= v < q -> exists n, (n = 2 ^ 64 / q \/ n = 2 ^ 64 / q + 1) /\
     forall w, 0 <= w < 2 ^ 64 -> (w mod q = v <-> exists t, 0 <= t < n /\ w = v + q * t)).
Proof.
  intros tp pos T. split; [exact (poly_random_facts tp pos)|].
  - intros v Hv. destruct (residue_count v Hv) as (n & Hn & H). exists n. split; [exact Hn|]. intros w Hw. split.
    + intros E. exists (w / q). pose proof (Z.div_mod w q ltac:(lia)) as D. rewrite E in D. assert (W : w = v + q * (w / q)) by (rewrite D at 1; ring).
      split; [|exact W]. apply H. rewrite <- W. exact Hw.
    + intros (t & _ & ->). rewrite Z.add_comm, Z.mul_comm, Z_mod_plus_full || (rewrite Z.mul_comm, Z_mod_plus_full). apply Z.mod_small. exact Hv.
Qed.
Print Assumptions C49_random_polynomial.
Example C49_nonvacuous : coef (fst (poly_random 512 (Prng ex_tape 0))) 1 = le_value (stream_bytes (fun i => byteZ (ex_tape i)) 8 8) mod q /\
  coef (fst (poly_random 512 (Prng ex_tape 0))) 1 <> coef (fst (poly_random 512 (Prng ex_tape 0))) 2.
Proof.
  destruct (poly_random 512 (Prng ex_tape 0)) as [p g] eqn:E. cbn [fst]. destruct (proj1 (C49_random_polynomial ex_tape 0) p g E) as (_ & _ & H).
  rewrite (H 1%nat), (H 2%nat) by lia. split; [reflexivity|]. vm_compute. discriminate.
Qed.

(* C60: the default constructor of the generator calls the device eight times; its 32-byte seed consists of
   the eight words in order, so different device outputs give different seeds; every bound of nine or
   more on the iterations is enough. *)
Theorem C60_device_seed : forall rd, (forall i, 0 <= rd i < 2 ^ 32) ->
  exists seed, length seed = 32%nat /\ Forall is_byte seed /\
    (forall i, (i < 8)%nat -> le_value (firstn 4 (skipn (4 * i) seed)) = rd i) /\
    forall fuel, (9 <= fuel)%nat -> device_seed fuel rd = Ok (seed, 8%nat) /\
      forall shake128, prng_of_device shake128 fuel rd = Ok (prng_of_seed shake128 seed).
Proof.
  intros rd Hrd. exists (concat (map (fun i => word4 (rd i)) (seq 0 8))). split; [reflexivity|]. split; [|split].
  - apply Forall_concat, Forall_map, Forall_forall. intros i _. apply word4_byte.
  - intros i Hi. rewrite concat_word4 by exact Hi. apply word4_value, Hrd.
  - intros fuel Hf. split; [apply device_seed_ok, Hf|]. intros shake128. unfold prng_of_device. rewrite (device_seed_ok rd fuel Hf). reflexivity.
Qed.
Print Assumptions C60_device_seed.
(* C60: however the reads are cut, the bytes read are the consecutive bytes of one output stream: none is
   skipped, none is returned twice. *)
Theorem C60_reads : forall shake128 seed sizes bs p, prng_reads (prng_of_seed shake128 seed) sizes = (bs, p) ->
  map (@length Z) bs = sizes /\
  concat bs = stream_bytes (fun i => byteZ (shake128 seed i)) 0 (fold_right Nat.add 0%nat sizes) /\
  forall sizes', concat (fst (prng_reads p sizes')) = stream_bytes (fun i => byteZ (shake128 seed i)) (fold_right Nat.add 0%nat sizes) (fold_right Nat.add 0%nat sizes').
Proof.
  intros shake128 seed sizes bs p E. destruct (reads_facts sizes _ _ _ _ E) as (H1 & H2 & H3). split; [exact H1|]. split; [exact H2|].
  intros sizes'. destruct (prng_reads p sizes') as [bs' p'] eqn:E'. rewrite H3 in E'. cbn [fst]. exact (proj1 (proj2 (reads_facts sizes' _ _ _ _ E'))).
Qed.
Print Assumptions C60_reads.
Example C60_nonvacuous : 
  device_seed 9 (fun i => 16909060 * Z.of_nat i) = Ok ([0;0;0;0; 4;3;2;1; 8;6;4;2; 12;9;6;3; 16;12;8;4; 20;15;10;5; 24;18;12;6; 28;21;14;7], 8%nat) /\
  concat (fst (prng_reads (prng_of_seed (fun _ => ex_tape) [7]) [3; 0; 2]%nat)) = stream_bytes (fun i => byteZ (ex_tape i)) 0 5.
Proof. split; vm_compute; reflexivity. Qed.
