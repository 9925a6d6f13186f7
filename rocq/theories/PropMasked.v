(* Property theorems about masked polynomials: masked_poly.hpp, poly_vec.hpp, poly_mat.hpp,
   rng/mrng.hpp and skey_t::refresh. *)
From Coq Require Import ZArith List Bool.
From Verif Require Import ModelBase ModelField ModelUtils ModelPoly ModelVec ModelSerial ModelScheme PolyLemmas MaskedLemmas ExOracle PropPoly.
From Verif Require Import Spec.
Import ListNotations.
Open Scope Z_scope.

(* C13: refresh() is free of undefined behaviour and changes neither the public key nor the sum of
   the shares; shares stay reduced when they were reduced; with one share nothing changes.  Shares
   may be any 49-bit numbers (deserialized keys). *)
Theorem C13_refresh_preserves_secret : forall O fuel P sk e,
  p_d P = (2 ^ e)%nat -> masked_vec49 (p_l P) (p_d P) (sk_s sk) ->
  sk_refresh O fuel P sk <> UB /\
  forall sk', sk_refresh O fuel P sk = Ok sk' ->
    sk_pkey sk' = sk_pkey sk /\
    map unmask (sk_s sk') = map unmask (sk_s sk) /\
    masked_vec49 (p_l P) (p_d P) (sk_s sk') /\
    (masked_vec (p_l P) (p_d P) (sk_s sk) -> masked_vec (p_l P) (p_d P) (sk_s sk')) /\
    (p_d P = 1%nat -> masked_vec (p_l P) (p_d P) (sk_s sk) -> sk' = sk).
Proof. exact refresh_preserves. Qed.
Print Assumptions C13_refresh_preserves_secret.
(* a two-share key with one row: refresh returns, and really changes the shares *)
Definition ex_P2 : params := Params 128 5 1 2 6 42 41 44 4 19 11524 41954689765971 14656575897.
Definition ex_sk2 : skey := Skey (Pkey [] []) [[ex_poly; repeat (2 ^ 49 - 1) 512]].
Example C13_nonvacuous : p_d ex_P2 = (2 ^ 1)%nat /\ masked_vec49 (p_l ex_P2) (p_d ex_P2) (sk_s ex_sk2) /\
  exists sk', sk_refresh ex_O 512 ex_P2 ex_sk2 = Ok sk' /\ sk_s sk' <> sk_s ex_sk2.
Proof.
  split; [reflexivity|]. split.
  - split; [reflexivity|]. constructor; [|constructor]. split; [reflexivity|].
    constructor; [|constructor; [|constructor]].
    + apply is_poly49_of, ex_poly_is_poly.
    + split; [reflexivity|]. apply Forall_forall. intros x Hx. apply repeat_spec in Hx. subst x.
      split; [discriminate|reflexivity].
  - destruct (sk_refresh ex_O 512 ex_P2 ex_sk2) as [sk'| |] eqn:E.
    + exists sk'. split; [reflexivity|]. intros H.
      assert (X : match sk_refresh ex_O 512 ex_P2 ex_sk2 with Ok sk' => nth 1 (nth 0 (nth 0 (sk_s sk') []) []) 0 | _ => 0 end = 102) by (vm_compute; reflexivity).
      rewrite E, H in X. vm_compute in X. discriminate.
    + exfalso. assert (X : match sk_refresh ex_O 512 ex_P2 ex_sk2 with UB => false | _ => true end = true) by (vm_compute; reflexivity).
      rewrite E in X. discriminate.
    + exfalso. assert (X : match sk_refresh ex_O 512 ex_P2 ex_sk2 with OutOfFuel => false | _ => true end = true) by (vm_compute; reflexivity).
      rewrite E in X. discriminate.
Qed.

(* C14: a zero encoding with 2^e shares is free of undefined behaviour (in particular every share
   index is in range), its shares are reduced and their sum is the zero polynomial. *)
Theorem C14_zero_encoding : forall O fuel e m,
  mp_zero_encoding O fuel (2 ^ e) m <> UB /\
  forall z m', mp_zero_encoding O fuel (2 ^ e) m = Ok (z, m') ->
    masked (2 ^ e) z /\ unmask z = ring_zero.
Proof. exact zero_encoding_zero. Qed.
Print Assumptions C14_zero_encoding.
Example C14_nonvacuous : exists z m', mp_zero_encoding ex_O 512 2 (mrng_new ex_O 2) = Ok (z, m') /\
  nth 3 (nth 0 z []) 0 = 3 /\ nth 3 (nth 1 z []) 0 = q - 3.
Proof.
  assert (X : match mp_zero_encoding ex_O 512 2 (mrng_new ex_O 2) with
              | Ok (z, _) => (nth 3 (nth 0 z []) 0 =? 3) && (nth 3 (nth 1 z []) 0 =? q - 3) | _ => false end = true)
    by (vm_compute; reflexivity).
  destruct (mp_zero_encoding ex_O 512 2 (mrng_new ex_O 2)) as [[z m']| |]; try discriminate.
  exists z, m'. split; [reflexivity|]. apply andb_true_iff in X. split; apply Z.eqb_eq; apply X.
Qed.

(* C12 is false: for every Ascon permutation and every number of shares, the generators of all
   shares produce the same stream (it does not depend on i), the first word of each is 0, and the
   masks added by refresh() are the same for every key and every call. *)
Theorem C12_mask_randomness_refuted :
  (forall O d i n, (i < d - 1)%nat ->
     fst (mrng_get O d i (Nat.iter n (fun m => snd (mrng_get O d i m)) (mrng_new O d)))
     = a0 (Nat.iter n (ascon_permute O 6) ascon_zero)) /\
  (forall O d i, fst (mrng_get O d i (mrng_new O d)) = 0) /\
  (forall O fuel P, exists masks, forall sk sk', length (sk_s sk) = p_l P ->
     sk_refresh O fuel P sk = Ok sk' -> sk_s sk' = pv_add (sk_s sk) masks).
Proof. exact mrng_refuted. Qed.
Print Assumptions C12_mask_randomness_refuted.

(* C39: unmasking commutes with addition, both transforms, multiplication by a public polynomial
   (in the transform domain, as the code does it), the matrix-vector product (A is the matrix over
   the ring, the code holds its transform row by row), and decode() is unmasking. *)
Theorem C39_masked_computation :
  (forall d a b, masked49 d a -> masked d b -> unmask (mp_add a b) = ring_add (unmask a) (unmask b)) /\
  (forall d a, masked d a -> unmask (mp_ntt a) = ntt (unmask a) /\ unmask (mp_intt a) = intt (unmask a)) /\
  (forall k d v c, masked_vec k d v -> is_poly c ->
     map unmask (pv_intt (pv_mul_poly (pv_ntt v) (ntt c))) = map (fun p => ring_mul p c) (map unmask v)) /\
  (forall rows cols d A v, length A = rows ->
     Forall (fun row => length row = cols /\ Forall is_poly row) A -> masked_vec cols d v ->
     map unmask (pv_intt (mat_mul rows cols d (concat (map (map ntt) A)) (pv_ntt v)))
     = ring_matvec A (map unmask v)) /\
  (forall d a, masked d a -> mp_decode a = unmask a).
Proof. exact masked_hom. Qed.
Print Assumptions C39_masked_computation.
(* 1 x 1 matrix X, vector X^511 split into two shares: the product is -1 *)
Example C39_nonvacuous :
  let A := [[ex_X]] in let v := [[ex_poly; ring_sub ex_X511 ex_poly]] in
  Forall (fun row => length row = 1%nat /\ Forall is_poly row) A /\ masked_vec 1 2 v /\
  coef (nth 0 (map unmask (pv_intt (mat_mul 1 1 2 (concat (map (map ntt) A)) (pv_ntt v)))) []) 0 = q - 1.
Proof.
  intros A v.
  assert (HA : Forall (fun row => length row = 1%nat /\ Forall is_poly row) A).
  { constructor; [|constructor]. split; [reflexivity|]. constructor; [|constructor].
    apply is_polyb_ok. vm_compute. reflexivity. }
  assert (Hv : masked_vec 1 2 v).
  { split; [reflexivity|]. constructor; [|constructor]. split; [reflexivity|].
    constructor; [exact ex_poly_is_poly|]. constructor; [|constructor].
    apply is_polyb_ok. vm_compute. reflexivity. }
  split; [exact HA|]. split; [exact Hv|].
  transitivity (coef (nth 0 (ring_matvec A (map unmask v)) []) 0).
  { apply masked_matvec_coef; [reflexivity|exact HA|exact Hv]. }
  assert (U : unmask [ex_poly; ring_sub ex_X511 ex_poly] = ex_X511) by (vm_compute; reflexivity).
  change (coef (ring_dot [ex_X] [unmask [ex_poly; ring_sub ex_X511 ex_poly]]) 0 = q - 1). rewrite U.
  rewrite ring_dot_1_coef by (vm_compute; repeat constructor). vm_compute. reflexivity.
Qed.
