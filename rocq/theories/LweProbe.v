(* Probing a masked LWE sample: composition over rows and the matrix product. *)
From Coq Require Import ZArith Lia Bool List Arith.
From Coq Require Import ZifyBool ZifyNat.
From Verif Require Import ModelBase ModelU128 ModelField ModelUtils ModelPoly ModelVec.
From Verif Require Import Spec SpecScheme SpecMask SpecProbe SpecNoiseProbe SpecSchemeProbe.
From Verif Require Import Words FieldProofs ArithLemmas PolyProofs NttLayers Cong NttEval MaskedProofs LinProofs LatticeProofs PolyLemmas SigEnc MaskUniform MaskProg MoreProofs ProbeCore ProbeProofs ProbeProg ProbeFull NoiseProbe NoiseFull ProbeLin.
Import ListNotations.
Open Scope Z_scope.
Ltac Zify.zify_post_hook ::= idtac.

(* ---- sums of lengths ---- *)
Fixpoint nsum (n : nat) (f : nat -> nat) : nat := match n with 0%nat => 0%nat | S n => (nsum n f + f n)%nat end.
Lemma nsum_plus n f g : nsum n (fun i => f i + g i)%nat = (nsum n f + nsum n g)%nat.
Proof. induction n as [|n IH]; [reflexivity|]. cbn [nsum]. rewrite IH. lia. Qed.
Lemma nsum_le n f g : (forall i, (i < n)%nat -> (f i <= g i)%nat) -> (nsum n f <= nsum n g)%nat.
Proof. induction n as [|n IH]; intros H; [apply le_n|]. cbn [nsum]. pose proof (H n (Nat.lt_succ_diag_r n)). pose proof (IH (fun i Hi => H i (Nat.lt_lt_succ_r _ _ Hi))). lia. Qed.
Lemma nsum_ext n f g : (forall i, (i < n)%nat -> f i = g i) -> nsum n f = nsum n g.
Proof. induction n as [|n IH]; intros H; [reflexivity|]. cbn [nsum]. rewrite (H n (Nat.lt_succ_diag_r n)), (IH (fun i Hi => H i (Nat.lt_lt_succ_r _ _ Hi))). reflexivity. Qed.
Lemma nsum_zero n : nsum n (fun _ => 0%nat) = 0%nat.
Proof. induction n as [|n IH]; [reflexivity|]. cbn [nsum]. rewrite IH. reflexivity. Qed.
Lemma nsum_single n j x : nsum n (fun i => if Nat.eqb j i then x else 0%nat) = if (j <? n)%nat then x else 0%nat.
Proof.
  induction n as [|n IH]; [reflexivity|]. cbn [nsum]. rewrite IH. destruct (Nat.ltb_spec j n), (Nat.eqb_spec j n), (Nat.ltb_spec j (S n)); lia.
Qed.
Lemma nsum_ge n f i : (i < n)%nat -> (f i <= nsum n f)%nat.
Proof. induction n as [|n IH]; intros H; [lia|]. cbn [nsum]. destruct (Nat.eq_dec i n) as [->|N]; [lia|]. pose proof (IH ltac:(lia)). lia. Qed.
Lemma concat_seq_length {A} (f : nat -> list A) n : length (concat (map f (seq 0 n))) = nsum n (fun i => length (f i)).
Proof. induction n as [|n IH]; [reflexivity|]. rewrite seq_S, map_app, concat_app, app_length, IH. cbn [Nat.add map concat nsum]. rewrite app_nil_r. reflexivity. Qed.
Lemma in_concat_seq {A} (f : nat -> list A) n i x : (i < n)%nat -> In x (f i) -> In x (concat (map f (seq 0 n))).
Proof. intros Hi Hx. apply in_concat. exists (f i). split; [apply in_map, in_seq; lia|exact Hx]. Qed.

(* ---- linear algebra ---- *)
Lemma dot_add_maps {B} (f g : B -> list Z) : (forall x, is_poly (f x)) -> (forall x, is_poly (g x)) -> forall row js, Forall is_poly row ->
  ring_dot row (map (fun j => ring_add (f j) (g j)) js) = ring_add (ring_dot row (map f js)) (ring_dot row (map g js)).
Proof.
  intros Hf Hg. induction row as [|a row IH]; intros js F; [symmetry; apply ring_add_zero_r, ring_zero_poly|].
  inversion F; subst. destruct js as [|j js]; [symmetry; apply ring_add_zero_r, ring_zero_poly|]. cbn [map]. rewrite !dot_cons, IH by assumption.
  rewrite mul_add_r by auto. apply add4.
Qed.
Lemma dot_zero_map {B} row (js : list B) : ring_dot row (map (fun _ => ring_zero) js) = ring_zero.
Proof.
  revert js. induction row as [|a row IH]; intros js; [reflexivity|]. destruct js as [|j js]; [reflexivity|]. cbn [map]. rewrite dot_cons, IH, ring_mul_zero_r. apply ring_add_zero_r, ring_zero_poly.
Qed.
Lemma share_list d s : masked d s -> s = map (fun kk => nth kk s []) (seq 0 d).
Proof. intros [L _]. apply (nth_ext _ _ [] []); [rewrite map_length, seq_length; exact L|]. intros k Hk. rewrite nth_map_seq by lia. reflexivity. Qed.
Lemma matrix_row k l A i : matrix_ok k l A -> (i < k)%nat -> length (nth i A []) = l /\ Forall is_poly (nth i A []).
Proof. intros [L F] H. rewrite Forall_forall in F. apply F, nth_In. lia. Qed.
Lemma product_masked e l A s i : masked (2 ^ e) (product_row e l A s i).
Proof. split; [unfold product_row; rewrite map_length; apply seq_length|]. apply Forall_forall. intros y Hy. apply in_map_iff in Hy. destruct Hy as (kk & <- & _). apply ring_dot_poly. Qed.
Definition poly_or (y : list Z) : list Z := map (fun c => coef y c mod q) (seq 0 512).
Lemma poly_or_poly y : is_poly (poly_or y).
Proof. apply mod_poly. Qed.
Lemma poly_or_id y : is_poly y -> poly_or y = y.
Proof. intros H. apply poly_ext; [apply is_poly_length, poly_or_poly|apply H|]. intros c Hc. unfold poly_or. rewrite coef_map_seq by exact Hc. apply mod_q_reduced, is_poly_coef'. exact H. Qed.
Lemma share_vec_poly e l s kk : (forall j, (j < l)%nat -> masked (2 ^ e) (s j)) -> (kk < 2 ^ e)%nat -> share_vec l s kk = map (fun j => poly_or (nth kk (s j) [])) (seq 0 l).
Proof. intros H Hk. unfold share_vec. apply map_ext_in. intros j Hj. apply in_seq in Hj. symmetry. apply poly_or_id, (masked_nth_poly (2 ^ e)); [apply H; lia|exact Hk]. Qed.
Lemma product_add e k l A s t i : matrix_ok k l A -> (i < k)%nat -> (forall j, (j < l)%nat -> masked (2 ^ e) (s j)) -> (forall j, (j < l)%nat -> masked (2 ^ e) (t j)) ->
  product_row e l A (fun j => tuple_add (s j) (t j)) i = tuple_add (product_row e l A s i) (product_row e l A t i).
Proof.
  intros HA Hi Hs Ht. destruct (matrix_row k l A i HA Hi) as [_ FR].
  apply (nth_ext _ _ [] []); [rewrite tuple_add_len; rewrite !(proj1 (product_masked e l A _ i)); reflexivity|]. intros kk Hkk. rewrite (proj1 (product_masked e l A _ i)) in Hkk.
  rewrite nth_tuple_add by (rewrite (proj1 (product_masked e l A _ i)); exact Hkk). unfold product_row. rewrite !nth_map_seq by exact Hkk.
  rewrite (share_vec_poly e l s kk Hs Hkk), (share_vec_poly e l t kk Ht Hkk), <- dot_add_maps; [|intros; apply poly_or_poly|intros; apply poly_or_poly|exact FR].
  f_equal. unfold share_vec. apply map_ext_in. intros j Hj. apply in_seq in Hj. destruct (Hs j ltac:(lia)) as [Ls Fs]. destruct (Ht j ltac:(lia)) as [Lt Ft].
  rewrite nth_tuple_add by lia. rewrite !poly_or_id; [reflexivity| |]; [apply (masked_nth_poly (2 ^ e))|apply (masked_nth_poly (2 ^ e))]; try assumption; split; assumption.
Qed.
Lemma unmask_product e k l A s i : matrix_ok k l A -> (i < k)%nat -> (forall j, (j < l)%nat -> masked (2 ^ e) (s j)) ->
  unmask (product_row e l A s i) = ring_dot (nth i A []) (map (fun j => unmask (s j)) (seq 0 l)).
Proof.
  intros HA Hi Hs. destruct (matrix_row k l A i HA Hi) as [_ FR]. unfold product_row.
  assert (G : forall ks, (forall kk, In kk ks -> (kk < 2 ^ e)%nat) -> unmask (map (fun kk => ring_dot (nth i A []) (share_vec l s kk)) ks)
    = ring_dot (nth i A []) (map (fun j => unmask (map (fun kk => nth kk (s j) []) ks)) (seq 0 l))).
  { induction ks as [|kk ks IH]; intros H.
    - cbn [map]. rewrite unmask_nil. symmetry. etransitivity; [|apply (dot_zero_map (nth i A []) (seq 0 l))]. f_equal.
    - cbn [map]. rewrite unmask_cons, IH by (intros; apply H; right; assumption). rewrite (share_vec_poly e l s kk Hs) by (apply H; left; reflexivity).
      rewrite <- (dot_add_maps (fun j => poly_or (nth kk (s j) [])) (fun j => unmask (map (fun kk => nth kk (s j) []) ks))); [|intros; apply poly_or_poly|intros; apply unmask_poly|exact FR].
      f_equal. apply map_ext_in. intros j Hj. apply in_seq in Hj. rewrite unmask_cons. f_equal. apply poly_or_id, (masked_nth_poly (2 ^ e)); [apply Hs; lia|apply H; left; reflexivity]. }
  rewrite G by (intros kk Hk; apply in_seq in Hk; lia). f_equal. apply map_ext_in. intros j Hj. apply in_seq in Hj. f_equal. symmetry. apply share_list, Hs. lia.
Qed.
Lemma product_zero_at e l A s i kk : (kk < 2 ^ e)%nat -> (forall j, (j < l)%nat -> nth kk (s j) [] = ring_zero) -> nth kk (product_row e l A s i) [] = ring_zero.
Proof.
  intros Hk H. unfold product_row. rewrite nth_map_seq by exact Hk. etransitivity; [|apply (dot_zero_map (nth i A []) (seq 0 l))]. f_equal. unfold share_vec. apply map_ext_in. intros j Hj. apply in_seq in Hj. apply H. lia.
Qed.
Lemma unmask_zshares e : unmask (zshares e) = ring_zero.
Proof. unfold zshares. generalize (2 ^ e)%nat. induction n as [|n IH]; [apply unmask_nil|]. cbn [repeat]. rewrite unmask_cons, IH. apply ring_add_zero_r, ring_zero_poly. Qed.
Lemma add_masks_zero e : add_masks e (zshares e) (zmasks e) = zshares e.
Proof.
  apply (sharing_ext (2 ^ e)); [apply add_masks_masked|apply zshares_masked|]. intros k c Hk Hc. rewrite (add_masks_coef e _ _ k c Hk Hc).
  assert (E : mask_coef k c (combine (mask_pairs e) (zmasks e)) = 0).
  { unfold zmasks. generalize (length (mask_pairs e)) as n. generalize (mask_pairs e). induction l as [|[i j] l IH]; intros [|n]; try reflexivity. cbn [repeat combine mask_coef]. rewrite IH, coef_ring_zero. destruct (Nat.eqb k i), (Nat.eqb k j); reflexivity. }
  rewrite E. apply cg_refl'. ring.
Qed.

(* ---- observations by kind and row ---- *)
Definition sel_s (j : nat) (w : lwire) : list nwire := match w with lw_secret j' v => if Nat.eqb j' j then [v] else [] | _ => [] end.
Definition sel_e (j : nat) (w : lwire) : list nwire := match w with lw_error j' v => if Nat.eqb j' j then [v] else [] | _ => [] end.
Definition sel_h (w : lwire) : list nat := match w with lw_share kk => [kk] | _ => [] end.
Lemma sel_count l k W : (nsum l (fun j => length (flat_map (sel_s j) W)) + length (flat_map sel_h W) + nsum k (fun i => length (flat_map (sel_e i) W)) <= length W)%nat.
Proof.
  induction W as [|w W IH]; [cbn [flat_map length]; rewrite !nsum_zero; apply le_n|]. cbn [flat_map length].
  rewrite (nsum_ext l (fun j => length (sel_s j w ++ flat_map (sel_s j) W)) (fun j => length (sel_s j w) + length (flat_map (sel_s j) W))%nat) by (intros; apply app_length).
  rewrite (nsum_ext k (fun j => length (sel_e j w ++ flat_map (sel_e j) W)) (fun j => length (sel_e j w) + length (flat_map (sel_e j) W))%nat) by (intros; apply app_length).
  rewrite !nsum_plus, app_length.
  assert (X : (nsum l (fun j => length (sel_s j w)) + length (sel_h w) + nsum k (fun i => length (sel_e i w)) <= 1)%nat); [|lia].
  destruct w as [j v|j v|kk|j v]; cbn [sel_s sel_h sel_e length].
  - rewrite !nsum_zero. apply Nat.le_0_l.
  - rewrite nsum_zero, (nsum_ext l _ (fun i => if Nat.eqb j i then 1 else 0)%nat) by (intros i _; destruct (Nat.eqb j i); reflexivity). rewrite nsum_single. destruct (j <? l)%nat; lia.
  - rewrite !nsum_zero. apply le_n.
  - rewrite nsum_zero, (nsum_ext k _ (fun i => if Nat.eqb j i then 1 else 0)%nat) by (intros i _; destruct (Nat.eqb j i); reflexivity). rewrite nsum_single. destruct (j <? k)%nat; lia.
Qed.
Lemma sel_s_in j v W : In (lw_secret j v) W -> In v (flat_map (sel_s j) W).
Proof. intros H. apply in_flat_map. exists (lw_secret j v). split; [exact H|]. cbn [sel_s]. rewrite Nat.eqb_refl. left. reflexivity. Qed.
Lemma sel_e_in j v W : In (lw_error j v) W -> In v (flat_map (sel_e j) W).
Proof. intros H. apply in_flat_map. exists (lw_error j v). split; [exact H|]. cbn [sel_e]. rewrite Nat.eqb_refl. left. reflexivity. Qed.
Lemma sel_h_in kk W : In (lw_share kk) W -> In kk (flat_map sel_h W).
Proof. intros H. apply in_flat_map. exists (lw_share kk). split; [exact H|left; reflexivity]. Qed.
Lemma sel_ok e rep l k W : Forall (lwire_ok e rep l k) W ->
  (forall j, Forall (nwire_ok e rep) (flat_map (sel_s j) W)) /\ (forall j, Forall (nwire_ok e rep) (flat_map (sel_e j) W)) /\ Forall (fun kk => (kk < 2 ^ e)%nat) (flat_map sel_h W).
Proof.
  intros F. rewrite Forall_forall in F. split; [|split]; intros; apply Forall_forall; intros y Hy; apply in_flat_map in Hy; destruct Hy as (w & Hw & Hy); specialize (F w Hw); destruct w as [j' v|j' v|kk|j' v]; cbn [sel_s sel_e sel_h lwire_ok] in *;
    try (destruct (Nat.eqb j' j)); try destruct Hy as [<-|[]]; try destruct Hy; try apply F.
Qed.

Lemma lwe_lin e l k rep A W (Oq : nat -> list nat) : (0 < rep)%nat -> matrix_ok k l A -> Forall (lwire_ok e rep l k) W ->
  (forall j, (j < l)%nat -> Forall (fun kk => (kk < 2 ^ e)%nat) (Oq j) /\ (length W + length (Oq j) < 2 ^ e)%nat) -> (length W < 2 ^ e)%nat ->
  exists U V : list (nat * nat * nat), (length U + length V <= length W)%nat /\
  forall N, noise_ok e rep l k N -> zero_terms (n_s N) U -> zero_terms (n_e N) V -> (forall i, (i < k)%nat -> sample_total l rep A N i = ring_zero) ->
  exists M, masks_ok e rep l k M /\ (forall w, In w W -> Forall (eq ring_zero) (lwire_value e l rep A N M w)) /\
    (forall i, (i < k)%nat -> sample_row e l rep A N M i = zshares e) /\
    (forall j kk, (j < l)%nat -> In kk (Oq j) -> nth kk (secret_row e rep N M j) [] = ring_zero).
Proof.
  intros Hrep HA FW HO HL. destruct (sel_ok e rep l k W FW) as (FS & FE & FH). 
  set (WS := fun j => flat_map (sel_s j) W) in *. set (WE := fun i => flat_map (sel_e i) W) in *. set (SH := flat_map sel_h W) in *.
  assert (CNT : (nsum l (fun j => length (WS j)) + length SH + nsum k (fun i => length (WE i)) <= length W)%nat) by exact (sel_count l k W).
  (* error rows *)
  destruct (list_choice ([], []) (fun i (VK : list (nat * nat) * list nat) => (length (fst VK) <= length (WE i))%nat /\ (length (snd VK) <= length (WE i))%nat /\ Forall (fun kk => (kk < 2 ^ e)%nat) (snd VK) /\
    forall vx v, masked (2 ^ e) vx -> (forall i, (i < rep)%nat -> masked (2 ^ e) (v i)) -> (forall kk, In kk (snd VK) -> nth kk vx [] = ring_zero) -> (forall r kk, In (r, kk) (fst VK) -> nth kk (v r) [] = ring_zero) ->
      ring_add (unmask vx) (noise_total v rep) = ring_zero ->
      exists delta : nat -> list (list Z), (forall i, (i < rep)%nat -> mask_tuple e (delta i)) /\ (forall w, In w (WE i) -> nwire_value e vx v delta w = ring_zero) /\ noise_state e vx v delta rep = zshares e) k) as (LV & LLV & HV).
  { intros i Hi. destruct (noise_lin_full e rep (WE i) Hrep (FE i)) as (V & K & LV & LK & FK & H).
    - pose proof (nsum_ge k (fun i => length (WE i)) i Hi) as G. cbv beta in G. revert G CNT HL. clear. generalize (nsum k (fun i => length (WE i))), (nsum l (fun j => length (WS j))), (length (WE i)). intros; lia.
    - exists (V, K). cbn [fst snd]. split; [exact LV|]. split; [exact LK|]. split; [exact FK|exact H]. }
  set (Vi := fun i => fst (nth i LV ([], []))) in *. set (Ki := fun i => snd (nth i LV ([], []))) in *.
  set (KT := concat (map Ki (seq 0 k))).
  assert (LKT : (length KT <= nsum k (fun i => length (WE i)))%nat) by (unfold KT; rewrite concat_seq_length; apply nsum_le; intros i Hi; apply (HV i Hi)).
  assert (FKT : Forall (fun kk => (kk < 2 ^ e)%nat) KT).
  { apply Forall_forall. intros kk Hk. unfold KT in Hk. apply in_concat in Hk. destruct Hk as (y & Hy & Hk). apply in_map_iff in Hy. destruct Hy as (i & <- & Hi). apply in_seq in Hi.
    destruct (HV i ltac:(lia)) as (_ & _ & F & _). rewrite Forall_forall in F. apply F, Hk. }
  (* secret rows *)
  destruct (list_choice [] (fun j (U : list (nat * nat)) => (length U <= length (WS j))%nat /\
    forall v, (forall i, (i < rep)%nat -> masked (2 ^ e) (v i)) -> (forall r kk, In (r, kk) U -> nth kk (v r) [] = ring_zero) ->
      exists delta : nat -> list (list Z), (forall i, (i < rep)%nat -> mask_tuple e (delta i)) /\ (forall w, In w (WS j) -> nwire_value e (zshares e) v delta w = ring_zero) /\
        (forall kk, In kk (KT ++ SH ++ Oq j) -> nth kk (noise_state e (zshares e) v delta rep) [] = ring_zero)) l) as (LU & LLU & HU).
  { intros j Hj. destruct (HO j Hj) as [FOj LOj]. destruct (noise_lin e rep (WS j) (KT ++ SH ++ Oq j) Hrep (FS j)) as (U & K & LU & _ & FK & H).
    - apply Forall_app. split; [exact FKT|]. apply Forall_app. split; [exact FH|exact FOj].
    - pose proof (nsum_ge l (fun j => length (WS j)) j Hj) as G. cbv beta in G. rewrite !app_length. revert G CNT LOj LKT. clear. generalize (nsum k (fun i => length (WE i))), (nsum l (fun j => length (WS j))), (length (WS j)). intros; lia.
    - exists U. split; [exact LU|]. intros v Mv Zv. apply H; [apply zshares_masked|exact Mv| |exact Zv]. intros kk Hk. apply nth_zshares. rewrite Forall_forall in FK. apply FK, Hk. }
  set (Ui := fun j => nth j LU []) in *.
  exists (concat (map (fun j => map (fun rk => (j, fst rk, snd rk)) (Ui j)) (seq 0 l))), (concat (map (fun i => map (fun rk => (i, fst rk, snd rk)) (Vi i)) (seq 0 k))).
  split.
  { rewrite !concat_seq_length.
    assert (X1 : (nsum l (fun j => length (map (fun rk : nat * nat => (j, fst rk, snd rk)) (Ui j))) <= nsum l (fun j => length (WS j)))%nat) by (apply nsum_le; intros j Hj; rewrite map_length; apply (HU j Hj)).
    assert (X2 : (nsum k (fun i => length (map (fun rk : nat * nat => (i, fst rk, snd rk)) (Vi i))) <= nsum k (fun i => length (WE i)))%nat) by (apply nsum_le; intros i Hi; rewrite map_length; apply (HV i Hi)).
    lia. }
  intros N [NS NE] ZS ZE TOT.
  destruct (list_choice (fun _ => []) (fun j (delta : nat -> list (list Z)) => (forall i, (i < rep)%nat -> mask_tuple e (delta i)) /\ (forall w, In w (WS j) -> nwire_value e (zshares e) (n_s N j) delta w = ring_zero) /\
        (forall kk, In kk (KT ++ SH ++ Oq j) -> nth kk (noise_state e (zshares e) (n_s N j) delta rep) [] = ring_zero)) l) as (DS & LDS & HDS).
  { intros j Hj. apply (HU j Hj); [intros i Hi; apply NS; assumption|]. intros r kk Hin. apply ZS. apply (in_concat_seq _ l j); [exact Hj|]. apply in_map_iff. exists (r, kk). split; [reflexivity|exact Hin]. }
  set (ds := fun j => nth j DS (fun _ => [])) in *.
  set (S := fun j => noise_state e (zshares e) (n_s N j) (ds j) rep).
  assert (MS : forall j, masked (2 ^ e) (S j)) by (intros j; apply noise_state_masked, zshares_masked).
  assert (US : forall j, (j < l)%nat -> unmask (S j) = noise_total (n_s N j) rep).
  { intros j Hj. unfold S. rewrite unmask_state; [|apply zshares_masked|intros i Hi; apply NS; assumption]. rewrite unmask_zshares. apply ring_add_zero_l. destruct rep; [apply ring_zero_poly|apply ring_add_poly]. }
  destruct (list_choice (fun _ => []) (fun i (delta : nat -> list (list Z)) => (forall r, (r < rep)%nat -> mask_tuple e (delta r)) /\ (forall w, In w (WE i) -> nwire_value e (product_row e l A S i) (n_e N i) delta w = ring_zero) /\
        noise_state e (product_row e l A S i) (n_e N i) delta rep = zshares e) k) as (DE & LDE & HDE).
  { intros i Hi. destruct (HV i Hi) as (_ & _ & FK & H). apply H; [apply product_masked|intros r Hr; apply NE; assumption| | |].
    - intros kk Hk. rewrite Forall_forall in FK. apply product_zero_at; [apply FK, Hk|]. intros j Hj. apply (HDS j Hj). apply in_or_app. left. apply (in_concat_seq _ k i); [exact Hi|exact Hk].
    - intros r kk Hin. apply ZE. apply (in_concat_seq _ k i); [exact Hi|]. apply in_map_iff. exists (r, kk). split; [reflexivity|exact Hin].
    - rewrite (unmask_product e k l A S i HA Hi) by (intros; apply MS). rewrite <- (TOT i Hi). unfold sample_total. f_equal. f_equal. apply map_ext_in. intros j Hj. apply in_seq in Hj. apply US. lia. }
  set (de := fun i => nth i DE (fun _ => [])) in *.
  exists (LMasks (fun _ => zmasks e) ds de).
  assert (ST : forall j, start_row e (LMasks (fun _ => zmasks e) ds de) j = zshares e) by (intros j; apply add_masks_zero).
  assert (SR : secret_row e rep N (LMasks (fun _ => zmasks e) ds de) = S).
  { unfold secret_row. cbn [m_s]. reflexivity || idtac. unfold S, start_row. cbn [m_zero m_s]. change (repeat ring_zero (2 ^ e)) with (zshares e). rewrite add_masks_zero. reflexivity. }
  split; [split; [intros; apply zmasks_ok|split; [intros j i Hj Hi; apply (HDS j Hj), Hi|intros j i Hj Hi; apply (HDE j Hj), Hi]]|]. split; [|split].
  - rewrite Forall_forall in FW. intros w Hw. pose proof (FW w Hw) as OK. destruct w as [j v|j v|kk|i v]; cbn [lwire_value lwire_ok] in *.
    + constructor; [|constructor]. cbn [m_zero]. change (repeat ring_zero (2 ^ e)) with (zshares e). destruct OK as [_ OK].
      symmetry. destruct v as [kk|n|n kk]; cbn [wire_value wire_ok] in *; [apply nth_zshares; exact OK| |].
      * unfold zmasks. rewrite (nth_indep _ [] ring_zero) by (rewrite repeat_length; exact OK). apply nth_repeat.
      * pose proof (accumulator_add e (zmasks e) (zmasks e) n kk (zmasks_ok e) (zmasks_ok e)) as X. rewrite (masks_add_zero e _ (zmasks_ok e)) in X.
        eapply ring_add_self; [| |exact X]; apply accumulator_poly.
    + constructor; [|constructor]. rewrite ST. cbn [m_s]. symmetry. apply (HDS j (proj1 OK)), sel_s_in, Hw.
    + rewrite SR. apply Forall_forall. intros y Hy. unfold share_vec in Hy. apply in_map_iff in Hy. destruct Hy as (j & <- & Hj). apply in_seq in Hj. symmetry.
      apply (HDS j ltac:(lia)). apply in_or_app. right. apply in_or_app. left. apply sel_h_in, Hw.
    + constructor; [|constructor]. rewrite SR. cbn [m_e]. symmetry. apply (HDE i (proj1 OK)), sel_e_in, Hw.
  - intros i Hi. unfold sample_row. rewrite SR. cbn [m_e]. apply (HDE i Hi).
  - intros j kk Hj Hk. rewrite SR. apply (HDS j Hj). apply in_or_app. right. apply in_or_app. right. exact Hk.
Qed.
