(* Termination: rejection loops finish when their streams contain enough acceptable values. *)
From Coq Require Import ZArith Lia Bool List Arith.
From Coq Require Import ZifyBool ZifyNat.
From Verif Require Import ModelBase ModelU128 ModelField ModelUtils ModelPoly ModelVec ModelSerial ModelScheme.
From Verif Require Import Spec SpecScheme.
From Verif Require Import Words FieldProofs ArithLemmas BytesProofs PolyProofs NttLayers Cong NttEval NttBounds MaskedProofs LinProofs SampleProofs MaskedLemmas SampleLemmas.
Import ListNotations.
Open Scope Z_scope.
Ltac Zify.zify_post_hook ::= idtac.

(* not out of fuel, and the result satisfies P *)
Definition fn {A} (r : res A) (P : A -> Prop) : Prop :=
  match r with Ok a => P a | UB => True | OutOfFuel => False end.
Lemma fn_bind {A B} (m : res A) (f : A -> res B) P : fn m (fun a => fn (f a) P) -> fn (bind m f) P.
Proof. destruct m; exact (fun H => H). Qed.
Lemma fn_mono {A} (m : res A) (P R : A -> Prop) : fn m P -> (forall a, P a -> R a) -> fn m R.
Proof. destruct m; cbn [fn]; auto. Qed.
Lemma fn_foldM {S A} (I : S -> Prop) (f : S -> A -> res S) l : forall s, I s ->
  (forall s a, In a l -> I s -> fn (f s a) I) -> fn (foldM f l s) I.
Proof.
  induction l as [|a l IH]; intros s Hs H; [exact Hs|]. cbn [foldM]. apply fn_bind.
  apply (fn_mono _ I); [apply H; [left; reflexivity|exact Hs]|].
  intros s' Hs'. apply IH; [exact Hs'|]. intros s'' a' Ha. apply H. right. exact Ha.
Qed.
Lemma fn_wp {A} (r : res A) P R : fn r P -> wp r R -> exists a, r = Ok a /\ P a /\ R a.
Proof. destruct r as [a| |]; cbn [fn wp]; intros H1 H2; [exists a; auto|contradiction|contradiction]. Qed.
Lemma fn_ok {A} (r : res A) P : fn r P -> r <> OutOfFuel.
Proof. destruct r; cbn [fn]; intros; [discriminate|discriminate|contradiction]. Qed.
Lemma fn_split {A} (r : res A) (P : A -> Prop) : r <> OutOfFuel -> (forall a, r = Ok a -> P a) -> fn r P.
Proof. destruct r; cbn [fn]; intros H1 H2; [apply H2; reflexivity|exact I|congruence]. Qed.

(* the streams of the oracles *)
Definition mask_word (O : oracles) (t : nat) : Z := a0 (Nat.iter t (ascon_permute O 6) ascon_zero) mod 2 ^ 49.
Definition good_hash (O : oracles) (fuel : nat) : Prop :=
  forall m, (512 <= length (accepted49 (hash_of O m) fuel))%nat.
(* only needed if there are at least two shares *)
Definition good_mask (O : oracles) (fuel d : nat) : Prop := (2 <= d)%nat -> window_accepts (mask_word O) fuel.
Definition good_chal (O : oracles) (fuel omega : nat) : Prop :=
  forall c, (omega <= length (distinct (map (chal_pos (challenge_stream (hash_of O) omega c)) (seq 0 fuel))))%nat.

Lemma sampleQ_fin O fuel hdr sigma : good_hash O fuel -> exists p, sampleQ O fuel hdr sigma = Ok p.
Proof.
  intros G. rewrite sampleQ_eq. unfold take512. pose proof (G (hdr ++ sigma)).
  replace (512 <=? _)%nat with true by lia. eexists. reflexivity.
Qed.
Lemma chal_poly_fin O fuel omega c : (omega < 256)%nat -> good_chal O fuel omega -> exists p, chal_poly O fuel omega c = Ok p.
Proof.
  intros Ho G. destruct (challenge_facts O fuel omega c Ho) as (_ & H2 & H3 & _). specialize (G c).
  destruct (chal_poly O fuel omega c) as [p| |]; [exists p; reflexivity|congruence|]. destruct H3 as [H3 _].
  specialize (H3 eq_refl). lia.
Qed.
Definition orbit (O : oracles) (d : nat) (m : mrng) : Prop :=
  length m = (d - 1)%nat /\ forall i, (i < d - 1)%nat -> exists t, nth i m ascon_zero = Nat.iter t (ascon_permute O 6) ascon_zero.
Lemma orbit_new O d : orbit O d (mrng_new O d).
Proof.
  rewrite mrng_new_eq. split; [apply repeat_length|]. intros i Hi. exists 0%nat. cbn. rewrite nth_repeat. reflexivity.
Qed.
Lemma orbit_get O d i m : orbit O d m -> orbit O d (snd (mrng_get O d i m)).
Proof.
  intros [L H]. unfold mrng_get. destruct (d - 1 <=? i)%nat eqn:E; [split; assumption|]. cbn [snd].
  split; [rewrite upd_length; exact L|]. intros j Hj. destruct (Nat.eq_dec j i) as [->|N].
  - rewrite upd_nth_eq by (unfold mrng in *; lia). destruct (H i Hj) as [t ->]. exists (S t). reflexivity.
  - rewrite upd_nth_neq by lia. apply H. exact Hj.
Qed.
Lemma sample_loop_orbit O fuel d idx : forall m acc, orbit O d m ->
  forall p m', sample_polynomial_loop O fuel d idx m acc = Ok (p, m') -> orbit O d m'.
Proof.
  induction fuel as [|f IH]; intros m acc Hm p m'; cbn [sample_polynomial_loop].
  - destruct (PN <=? length acc)%nat; intros H; inversion H; subst; exact Hm.
  - destruct (PN <=? length acc)%nat; [intros H; inversion H; subst; exact Hm|].
    pose proof (orbit_get O d idx m Hm) as G. destruct (mrng_get O d idx m) as [v m1]. cbn [snd] in G.
    destruct (_ <? _); intros H; apply (IH _ _ G _ _ H).
Qed.
Lemma sample_polynomial_fin O fuel d idx m : good_mask O fuel d -> orbit O d m ->
  fn (sample_polynomial O fuel d idx m) (fun r => orbit O d (snd r)).
Proof.
  intros G Hm. unfold sample_polynomial. destruct (d - 1 <=? idx)%nat eqn:E; [exact Hm|].
  destruct Hm as [L H]. destruct (H idx ltac:(lia)) as [t Et].
  pose proof (sample_loop_eq O d idx ltac:(lia) fuel t ascon_zero m [] L Et ltac:(cbn; lia)) as X.
  pose proof (G ltac:(lia) t) as Gt. unfold take512 in X. cbn [app] in X.
  assert (Eq : acc_from (mrng_word O ascon_zero) t fuel = filter (fun x => x <? q) (map (mask_word O) (seq t fuel))) by reflexivity.
  rewrite Eq in X. replace (512 <=? _)%nat with true in X by lia.
  destruct (sample_polynomial_loop O fuel d idx m []) as [[p m']| |] eqn:El; [|exact I|discriminate X].
  cbn [fn snd]. apply (sample_loop_orbit O fuel d idx m [] (conj L H) p m' El).
Qed.
Section Fin.
Variables (O : oracles) (fuel d : nat).
Hypothesis G : good_mask O fuel d.
Definition orb {A} (r : A * mrng) : Prop := orbit O d (snd r).
Lemma zenc_step_fin off st sidx : orb st -> fn (zenc_step O fuel d off st sidx) (orb).
Proof.
  intros Hm. destruct st as [mp m]. unfold zenc_step. apply fn_bind. eapply fn_mono; [apply sample_polynomial_fin; [exact G|exact Hm]|].
  intros [r m'] H. cbn [snd] in H. destruct (_ <? _)%nat; [|exact I]. exact H.
Qed.
Lemma zenc_while_fin : forall n e j st, d = (2 ^ e)%nat -> (e <= j + n)%nat -> orb st ->
  fn (zenc_while O fuel n d (2 ^ j)%nat st) (orb).
Proof.
  induction n as [|n IH]; intros e j st Hd Hn Hst; cbn [zenc_while].
  - destruct (d <=? 2 ^ j)%nat eqn:E; [exact Hst|]. exfalso.
    assert (2 ^ e <= 2 ^ j)%nat by (apply Nat.pow_le_mono_r; lia). lia.
  - destruct (d <=? 2 ^ j)%nat eqn:E; [exact Hst|]. apply fn_bind.
    apply (fn_mono _ (orb)).
    + apply fn_foldM; [exact Hst|]. intros s i Hi Hs.
      apply fn_foldM; [exact Hs|]. intros s' sidx Hsi Hs'. apply zenc_step_fin. exact Hs'.
    + intros st' Hst'. change (2 * 2 ^ j)%nat with (2 ^ S j)%nat. apply (IH e); [exact Hd|lia|exact Hst'].
Qed.
Lemma mp_zero_encoding_fin m : pow2 d -> orbit O d m -> fn (mp_zero_encoding O fuel d m) (orb).
Proof.
  intros [e Hd] Hm. unfold mp_zero_encoding. destruct (1 <? d)%nat eqn:E; [|exact Hm]. apply fn_bind.
  apply (fn_mono _ (orb)).
  - apply fn_foldM; [exact Hm|]. intros s i Hi Hs. apply zenc_step_fin. exact Hs.
  - intros st Hst. change 2%nat with (2 ^ 1)%nat at 1. apply (zenc_while_fin d e 1); [exact Hd| |exact Hst].
    rewrite Hd. assert (e < 2 ^ e)%nat by (apply Nat.pow_gt_lin_r; lia). lia.
Qed.
Lemma mp_refresh_fin a m : pow2 d -> orbit O d m -> fn (mp_refresh O fuel d a m) (orb).
Proof.
  intros Hd Hm. unfold mp_refresh. apply fn_bind. eapply fn_mono; [apply mp_zero_encoding_fin; eassumption|].
  intros [z m'] H. exact H.
Qed.
Lemma pv_zero_encoding_fin rows m : pow2 d -> orbit O d m -> fn (pv_zero_encoding O fuel rows d m) (orb).
Proof.
  intros Hd Hm. unfold pv_zero_encoding. apply fn_foldM; [exact Hm|]. intros [v m'] i _ H. apply fn_bind.
  eapply fn_mono; [apply mp_zero_encoding_fin; [exact Hd|exact H]|]. intros [z m2] H2. exact H2.
Qed.
Lemma pv_refresh_fin v m : pow2 d -> orbit O d m -> fn (pv_refresh O fuel d v m) (orb).
Proof.
  intros Hd Hm. unfold pv_refresh. apply fn_foldM; [exact Hm|]. intros [acc m'] row _ H. apply fn_bind.
  eapply fn_mono; [apply mp_refresh_fin; [exact Hd|exact H]|]. intros [z m2] H2. exact H2.
Qed.
Lemma mp_add_rep_noise_fin u rep kappa idx a p m : pow2 d -> orbit O d m ->
  fn (mp_add_rep_noise O fuel u rep kappa d idx a p m) (orb).
Proof.
  intros Hd Hm. unfold mp_add_rep_noise. apply fn_foldM; [exact Hm|]. intros [[a' p'] m'] i _ H.
  destruct (fold_left _ _ (a', p')) as [a2 p2]. apply fn_bind.
  eapply fn_mono; [apply mp_refresh_fin; [exact Hd|exact H]|]. intros [z m2] H2. exact H2.
Qed.
Lemma pv_add_rep_noise_fin u rep kappa v p m : pow2 d -> orbit O d m ->
  fn (pv_add_rep_noise O fuel u rep kappa d v p m) (orb).
Proof.
  intros Hd Hm. unfold pv_add_rep_noise. apply fn_foldM; [exact Hm|]. intros [[acc p'] m'] ridx _ H. apply fn_bind.
  eapply fn_mono; [apply mp_add_rep_noise_fin; [exact Hd|exact H]|]. intros [[z p2] m2] H2. exact H2.
Qed.
End Fin.
Lemma sk_refresh_fin O fuel P sk : good_mask O fuel (p_d P) -> pow2 (p_d P) -> sk_refresh O fuel P sk <> OutOfFuel.
Proof.
  intros G Hd. apply (fn_ok _ (fun _ => True)). unfold sk_refresh. apply fn_bind.
  eapply fn_mono; [apply pv_refresh_fin; [exact G|exact Hd|apply orbit_new]|]. intros [s m] _. exact I.
Qed.
Lemma expandA_fin O fuel k l seed : good_hash O fuel -> fn (expandA O fuel k l seed) (fun _ => True).
Proof.
  intros G. unfold expandA. apply fn_foldM; [exact I|]. intros A r _ _. apply fn_foldM; [exact I|]. intros A' c _ _.
  destruct (sampleQ_fin O fuel (expandA_hdr r c) seed G) as [p ->]. exact I.
Qed.
Lemma sk_generate_fin O fuel P seed tp : expandA O fuel (p_k P) (p_l P) seed <> OutOfFuel -> good_mask O fuel (p_d P) -> pow2 (p_d P) ->
  sk_generate O fuel P seed tp <> OutOfFuel.
Proof.
  intros Gh Gm Hd. apply (fn_ok _ (fun _ => True)). unfold sk_generate. cbv zeta. apply fn_bind.
  apply (fn_split _ _ Gh). intros A _. apply fn_bind.
  eapply fn_mono; [apply pv_zero_encoding_fin; [exact Gm|exact Hd|apply orbit_new]|]. intros [s m] Hm. apply fn_bind.
  eapply fn_mono; [apply pv_add_rep_noise_fin; [exact Gm|exact Hd|exact Hm]|]. intros [[s' p] m'] Hm'. apply fn_bind.
  eapply fn_mono; [apply pv_add_rep_noise_fin; [exact Gm|exact Hd|exact Hm']|]. intros [[t p'] m''] _. exact I.
Qed.
Lemma mask_compress_fin O fuel kappa d s s_c p : good_hash O fuel -> mask_compress O fuel kappa d s s_c p <> OutOfFuel.
Proof.
  intros Gh. apply (fn_ok _ (fun _ => True)). unfold mask_compress. cbv zeta. apply fn_bind.
  apply (fn_mono _ (fun _ => True)).
  - apply fn_foldM; [exact I|]. intros [[x out] p'] i _ _. unfold mc_share. destruct (prng_read p' (kbytes kappa)) as [z p2].
    apply fn_bind. unfold write_at at 1. destruct (_ && _); [|exact I]. cbn [fn]. apply fn_bind.
    apply (fn_mono _ (fun _ => True)); [|intros; exact I]. apply fn_foldM; [exact I|]. intros x' r _ _.
    destruct (sampleQ_fin O fuel (hdr_K i r) z Gh) as [pp ->]. exact I.
  - intros [[x out] p'] _. apply fn_bind. apply (fn_mono _ (fun _ => True)); [|intros [o f] _; exact I].
    apply fn_foldM; [exact I|]. intros [o off] row _ _. unfold mc_row. apply fn_bind.
    apply (fn_mono _ (fun _ => True)); [|intros [[[a b] c] e] _; exact I].
    apply fn_foldM; [exact I|]. intros [[[a b] c] e] x0 _ _. unfold mc_put.
    apply fn_bind. unfold shl_chk. destruct (_ && _); [|exact I]. cbn [fn]. apply fn_bind.
    unfold put_le. apply fn_bind. unfold subspan. destruct (_ && _); [|exact I]. cbn [fn]. unfold write_at. destruct (_ && _); [|exact I].
    cbn [fn]. apply fn_bind. unfold shr_chk. destruct (_ && _); exact I.
Qed.
