(* The iteration bounds of the model do not influence results: a call that finishes within some bound
   gives the same result with every larger bound. *)
From Coq Require Import ZArith Lia Bool List Arith.
From Verif Require Import ModelBase ModelU128 ModelField ModelUtils ModelPoly ModelVec ModelSerial ModelScheme ModelApi.
Import ListNotations.
Open Scope Z_scope.

(* x has run out of fuel or is y *)
Definition lr {A} (x y : res A) : Prop := x = OutOfFuel \/ x = y.
Lemma lr_refl {A} (x : res A) : lr x x. Proof. right. reflexivity. Qed.
Lemma lr_out {A} (x : res A) : lr OutOfFuel x. Proof. left. reflexivity. Qed.
Lemma lr_bind {A B} (m m' : res A) (f f' : A -> res B) : lr m m' -> (forall a, lr (f a) (f' a)) -> lr (bind m f) (bind m' f').
Proof. intros [->| ->] H; [apply lr_out|]. destruct m' as [a| |]; cbn [bind]; [apply H|apply lr_refl|apply lr_refl]. Qed.
Lemma lr_foldM {S A} (f f' : S -> A -> res S) : (forall s a, lr (f s a) (f' s a)) -> forall l s, lr (foldM f l s) (foldM f' l s).
Proof. intros H. induction l as [|a l IH]; intros s; cbn [foldM]; [apply lr_refl|]. apply lr_bind; [apply H|intros; apply IH]. Qed.
Lemma lr_ok {A} (x y : res A) r : lr x y -> x = r -> r <> OutOfFuel -> y = r.
Proof. intros [E|E] H N; [rewrite E in H; subst r; contradiction|congruence]. Qed.

Ltac lrt := cbv zeta; repeat first [ lazymatch goal with |- lr ?a ?a => apply lr_refl end
  | apply lr_bind; [|intros ?] | apply lr_foldM; intros ? ? | solve [eauto]
  | match goal with |- lr (match ?x with pair _ _ => _ end) _ => destruct x
                  | |- lr (if ?x then _ else _) (if ?x then _ else _) => destruct x end
  | progress cbv beta zeta ].

Lemma sampleQ_loop_lr O : forall f f', (f <= f')%nat -> forall x buf off acc, lr (sampleQ_loop O f x buf off acc) (sampleQ_loop O f' x buf off acc).
Proof.
  induction f as [|f IH]; intros f' Hf x buf off acc.
  - cbn [sampleQ_loop]. destruct f'; cbn [sampleQ_loop]; destruct (_ <=? _)%nat; (apply lr_refl || apply lr_out).
  - destruct f' as [|f']; [lia|]. cbn [sampleQ_loop]. destruct (_ <=? _)%nat; [apply lr_refl|].
    destruct (if (_ <? _)%nat then _ else _) as [[b o] y]. destruct (Q <=? _); apply IH; lia.
Qed.
Lemma sample_loop_lr O : forall f f', (f <= f')%nat -> forall d idx m acc, lr (sample_polynomial_loop O f d idx m acc) (sample_polynomial_loop O f' d idx m acc).
Proof.
  induction f as [|f IH]; intros f' Hf d idx m acc.
  - cbn [sample_polynomial_loop]. destruct f'; cbn [sample_polynomial_loop]; destruct (_ <=? _)%nat; (apply lr_refl || apply lr_out).
  - destruct f' as [|f']; [lia|]. cbn [sample_polynomial_loop]. destruct (_ <=? _)%nat; [apply lr_refl|].
    destruct (mrng_get O d idx m) as [v m']. destruct (_ <? Q); apply IH; lia.
Qed.
Lemma chal_loop_lr O : forall f f', (f <= f')%nat -> forall om x c cnt, lr (chal_poly_loop O f om x c cnt) (chal_poly_loop O f' om x c cnt).
Proof.
  induction f as [|f IH]; intros f' Hf om x c cnt.
  - cbn [chal_poly_loop]. destruct f'; cbn [chal_poly_loop]; destruct (_ <=? _)%nat; (apply lr_refl || apply lr_out).
  - destruct f' as [|f']; [lia|]. cbn [chal_poly_loop]. destruct (_ <=? _)%nat; [apply lr_refl|].
    destruct (xof_squeeze O x 2) as [b y]. destruct (chal_step c b) as [c' inc]. apply IH. lia.
Qed.
Section Fuel.
Variables (O : oracles) (f f' : nat).
Hypothesis Hf : (f <= f')%nat.
Lemma sampleQ_lr hdr sigma : lr (sampleQ O f hdr sigma) (sampleQ O f' hdr sigma).
Proof. unfold sampleQ. cbv zeta. destruct (xof_squeeze _ _ _). apply sampleQ_loop_lr, Hf. Qed.
Lemma sample_polynomial_lr d idx m : lr (sample_polynomial O f d idx m) (sample_polynomial O f' d idx m).
Proof. unfold sample_polynomial. destruct (_ <=? _)%nat; [apply lr_refl|apply sample_loop_lr, Hf]. Qed.
Lemma chal_poly_lr om c : lr (chal_poly O f om c) (chal_poly O f' om c).
Proof. unfold chal_poly. apply chal_loop_lr, Hf. Qed.
Lemma zenc_step_lr d off st sidx : lr (zenc_step O f d off st sidx) (zenc_step O f' d off st sidx).
Proof. unfold zenc_step. destruct st. apply lr_bind; [apply sample_polynomial_lr|]. intros. lrt. Qed.
Lemma zenc_while_lr d : forall n j st, lr (zenc_while O f n d j st) (zenc_while O f' n d j st).
Proof.
  induction n as [|n IH]; intros j st; cbn [zenc_while]; destruct (_ <=? _)%nat; try apply lr_refl.
  apply lr_bind; [|intros; apply IH]. apply lr_foldM. intros s i. apply lr_foldM. intros. apply zenc_step_lr.
Qed.
Lemma zero_encoding_lr d m : lr (mp_zero_encoding O f d m) (mp_zero_encoding O f' d m).
Proof.
  unfold mp_zero_encoding. cbv zeta. destruct (1 <? d)%nat; [|apply lr_refl].
  apply lr_bind; [apply lr_foldM; intros; apply zenc_step_lr|intros; apply zenc_while_lr].
Qed.
Lemma mp_refresh_lr d a m : lr (mp_refresh O f d a m) (mp_refresh O f' d a m).
Proof. unfold mp_refresh. apply lr_bind; [apply zero_encoding_lr|intros; apply lr_refl]. Qed.
Lemma pv_zero_lr rows d m : lr (pv_zero_encoding O f rows d m) (pv_zero_encoding O f' rows d m).
Proof. unfold pv_zero_encoding. apply lr_foldM. intros [v m'] i. apply lr_bind; [apply zero_encoding_lr|intros; apply lr_refl]. Qed.
Lemma pv_refresh_lr d v m : lr (pv_refresh O f d v m) (pv_refresh O f' d v m).
Proof. unfold pv_refresh. apply lr_foldM. intros [acc m'] i. apply lr_bind; [apply mp_refresh_lr|intros; apply lr_refl]. Qed.
Lemma mp_noise_lr u rep kappa d idx a p m : lr (mp_add_rep_noise O f u rep kappa d idx a p m) (mp_add_rep_noise O f' u rep kappa d idx a p m).
Proof.
  unfold mp_add_rep_noise. apply lr_foldM. intros [[a' p'] m'] i. destruct (fold_left _ _ _) as [a2 p2].
  apply lr_bind; [apply mp_refresh_lr|intros; apply lr_refl].
Qed.
Lemma pv_noise_lr u rep kappa d v p m : lr (pv_add_rep_noise O f u rep kappa d v p m) (pv_add_rep_noise O f' u rep kappa d v p m).
Proof. unfold pv_add_rep_noise. apply lr_foldM. intros [[acc p'] m'] i. apply lr_bind; [apply mp_noise_lr|intros; apply lr_refl]. Qed.
Lemma expandA_lr k l seed : lr (expandA O f k l seed) (expandA O f' k l seed).
Proof.
  unfold expandA. apply lr_foldM. intros A r. apply lr_foldM. intros A' c. apply lr_bind; [apply sampleQ_lr|intros; apply lr_refl].
Qed.
Lemma mask_compress_lr kappa d s sc p : lr (mask_compress O f kappa d s sc p) (mask_compress O f' kappa d s sc p).
Proof.
  unfold mask_compress. cbv zeta. apply lr_bind; [|intros; apply lr_refl]. apply lr_foldM. intros [[x out] p'] i. unfold mc_share.
  destruct (prng_read p' (kbytes kappa)) as [z p2]. cbv zeta. apply lr_bind; [apply lr_refl|intros out']. apply lr_bind; [|intros; apply lr_refl].
  apply lr_foldM. intros x' r. apply lr_bind; [apply sampleQ_lr|intros; apply lr_refl].
Qed.
Lemma mask_decompress_lr kappa l d sc : lr (mask_decompress O f kappa l d sc) (mask_decompress O f' kappa l d sc).
Proof.
  unfold mask_decompress. apply lr_bind; [apply lr_refl|]. intros [s o]. apply lr_foldM. intros s1 i. apply lr_foldM. intros s2 r.
  apply lr_bind; [apply lr_refl|intros sg]. apply lr_bind; [apply sampleQ_lr|intros; apply lr_refl].
Qed.
Lemma verify_lr P pk msg sig : lr (verify O f P pk msg sig) (verify O f' P pk msg sig).
Proof.
  unfold verify. apply lr_bind; [apply lr_refl|]. intros [sg|]; [|apply lr_refl]. apply lr_bind; [apply lr_refl|]. intros ok. destruct (negb ok); [apply lr_refl|].
  apply lr_bind; [apply lr_refl|]. intros mu. apply lr_bind; [apply expandA_lr|]. intros A. cbv zeta. apply lr_bind; [apply chal_poly_lr|]. intros; apply lr_refl.
Qed.
Lemma sk_refresh_lr P sk : lr (sk_refresh O f P sk) (sk_refresh O f' P sk).
Proof. unfold sk_refresh. apply lr_bind; [apply pv_refresh_lr|intros; apply lr_refl]. Qed.
Lemma sk_generate_lr P seed tp : lr (sk_generate O f P seed tp) (sk_generate O f' P seed tp).
Proof.
  unfold sk_generate. cbv zeta. apply lr_bind; [apply expandA_lr|]. intros A. apply lr_bind; [apply pv_zero_lr|]. intros [s m].
  apply lr_bind; [apply pv_noise_lr|]. intros [[s' p] m']. apply lr_bind; [apply pv_noise_lr|]. intros; apply lr_refl.
Qed.
Lemma sk_to_bytes_lr P sk b p : lr (sk_to_bytes O f P sk b p) (sk_to_bytes O f' P sk b p).
Proof.
  unfold sk_to_bytes. cbv zeta. apply lr_bind; [apply lr_refl|]. intros pb. apply lr_bind; [apply lr_refl|]. intros sb. apply lr_bind; [apply lr_refl|]. intros pb'.
  apply lr_bind; [apply mask_compress_lr|]. intros; apply lr_refl.
Qed.
Lemma sk_from_bytes_lr P b : lr (sk_from_bytes O f P b) (sk_from_bytes O f' P b).
Proof.
  unfold sk_from_bytes. cbv zeta. apply lr_bind; [apply lr_refl|]. intros pb. apply lr_bind; [apply lr_refl|]. intros sb. apply lr_bind; [apply lr_refl|]. intros pb'.
  apply lr_bind; [apply mask_decompress_lr|]. intros; apply lr_refl.
Qed.
Lemma sign_loop_lr P A t mu : forall n n', (n <= n')%nat -> forall s p m sig, lr (sign_loop O f n P A t mu s p m sig) (sign_loop O f' n' P A t mu s p m sig).
Proof.
  induction n as [|n IH]; intros n' Hn s p m sig; [apply lr_out|]. destruct n' as [|n']; [lia|]. cbn [sign_loop].
  apply lr_bind; [apply pv_zero_lr|]. intros [r m1]. apply lr_bind; [apply pv_noise_lr|]. intros [[r1 p1] m2]. cbv zeta.
  apply lr_bind; [apply pv_noise_lr|]. intros [[w p2] m3]. apply lr_bind; [apply chal_poly_lr|]. intros c.
  apply lr_bind; [apply pv_refresh_lr|]. intros [s1 m4]. apply lr_bind; [apply pv_refresh_lr|]. intros [r2 m5].
  apply lr_bind; [apply pv_refresh_lr|]. intros [z m6]. apply lr_bind; [apply lr_refl|]. intros [ok sig'].
  destruct (negb ok); [apply IH; lia|]. apply lr_bind; [apply lr_refl|]. intros b. destruct (negb b); [apply IH; lia|apply lr_refl].
Qed.
Lemma sk_sign_lr P sk msg sig tp : lr (sk_sign O f P sk msg sig tp) (sk_sign O f' P sk msg sig tp).
Proof.
  unfold sk_sign. cbv zeta. apply lr_bind; [apply lr_refl|]. intros mu. apply lr_bind; [apply expandA_lr|]. intros A. apply sign_loop_lr. exact Hf.
Qed.
Lemma api_step_lr P st op : lr (api_step O f P st op) (api_step O f' P st op).
Proof.
  destruct op; cbn [api_step].
  - apply lr_bind; [apply sk_refresh_lr|intros; apply lr_refl].
  - apply lr_bind; [apply sk_to_bytes_lr|]. intros [b p]. apply lr_bind; [apply sk_from_bytes_lr|intros; apply lr_refl].
  - apply lr_refl.
  - apply lr_refl.
  - apply lr_bind; [apply sk_sign_lr|intros; apply lr_refl].
  - apply lr_bind; [apply verify_lr|intros; apply lr_refl].
Qed.
End Fuel.
Lemma api_run_lr O f f' P ops : (f <= f')%nat -> forall st, lr (api_run O f P st ops) (api_run O f' P st ops).
Proof. intros H st. unfold api_run. apply lr_foldM. intros s op. apply api_step_lr, H. Qed.

(* no result (normal or undefined) depends on the bound *)
Lemma fuel_irrelevant O f f' : (f <= f')%nat ->
  (forall hdr sigma r, sampleQ O f hdr sigma = Ok r -> sampleQ O f' hdr sigma = Ok r) /\
  (forall omega c r, chal_poly O f omega c = Ok r -> chal_poly O f' omega c = Ok r) /\
  (forall d idx m r, sample_polynomial O f d idx m = Ok r -> sample_polynomial O f' d idx m = Ok r) /\
  (forall P seed tp r, sk_generate O f P seed tp = r -> r <> OutOfFuel -> sk_generate O f' P seed tp = r) /\
  (forall P sk msg buf tp r, sk_sign O f P sk msg buf tp = r -> r <> OutOfFuel -> sk_sign O f' P sk msg buf tp = r) /\
  (forall P pk msg sig r, verify O f P pk msg sig = r -> r <> OutOfFuel -> verify O f' P pk msg sig = r) /\
  (forall P st ops r, api_run O f P st ops = r -> r <> OutOfFuel -> api_run O f' P st ops = r).
Proof.
  intros H. split; [|split; [|split; [|split; [|split; [|split]]]]].
  - intros hdr sigma r E. apply (lr_ok _ _ _ (sampleQ_lr O f f' H hdr sigma) E). discriminate.
  - intros om c r E. apply (lr_ok _ _ _ (chal_poly_lr O f f' H om c) E). discriminate.
  - intros d idx m r E. apply (lr_ok _ _ _ (sample_polynomial_lr O f f' H d idx m) E). discriminate.
  - intros P seed tp r. apply (lr_ok _ _ _ (sk_generate_lr O f f' H P seed tp)).
  - intros P sk msg buf tp r. apply (lr_ok _ _ _ (sk_sign_lr O f f' H P sk msg buf tp)).
  - intros P pk msg sig r. apply (lr_ok _ _ _ (verify_lr O f f' H P pk msg sig)).
  - intros P st ops r. apply (lr_ok _ _ _ (api_run_lr O f f' P ops H st)).
Qed.
