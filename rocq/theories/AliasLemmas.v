(* Signing into a memory that also holds the message. *)
From Coq Require Import ZArith Lia Bool List Arith.
From Verif Require Import ModelBase ModelU128 ModelField ModelUtils ModelPoly ModelVec ModelSerial ModelScheme ModelTrace ModelAlias.
From Verif Require Import Words FieldProofs ArithLemmas BytesProofs SigEnc SchemeCore SignProofs TraceProofs TraceSign.
Import ListNotations.
Open Scope Z_scope.
Ltac Zify.zify_post_hook ::= idtac.

Definition place (a : list Z) (r : res (list Z)) (c : list Z) : res (list Z) :=
  match r with Ok sig => Ok (a ++ sig ++ c) | UB => UB | OutOfFuel => OutOfFuel end.
Lemma sign_loop_at_eq O wfuel P A t mu (a c : list Z) : forall fuel s prng m (buf : list Z), zlen buf = p_siglen P ->
  sign_loop_at O wfuel fuel P A t mu s prng m (a ++ buf ++ c) (zlen a) =
  place a (sign_loop O wfuel fuel P A t mu s prng m buf) c.
Proof.
  induction fuel as [|fuel IH]; intros s prng m buf Lb; [reflexivity|]. rewrite sign_loop_step. cbn [sign_loop_at].
  destruct (sign_try O wfuel P A t mu s prng m) as [[[[sg s'] prng'] m']| |]; [|reflexivity|reflexivity]. cbn [bind].
  unfold to_bytes_at. rewrite subspan_app by (try reflexivity; symmetry; exact Lb). cbn [bind].
  unfold sig_to_bytes. destruct (encode_sig (sg_c sg) (sg_h sg) (sg_z sg) buf) as [[ok out]| |] eqn:E; [|reflexivity|reflexivity]. cbn [bind].
  pose proof (encode_sig_len _ _ _ _ _ _ E) as LO. rewrite write_at_app by (try reflexivity; exact LO). cbn [bind].
  rewrite Lb in LO. destruct ok; cbn [negb].
  - destruct (check_bounds (p_nuw P) (p_Binf P) (p_B22 P) sg) as [b| |]; [|reflexivity|reflexivity]. cbn [bind].
    destruct b; cbn [negb]; [reflexivity|]. apply IH. exact LO.
  - apply IH. exact LO.
Qed.
Lemma sign_at_eq O fuel P sk (mem msg buf a c : list Z) moff mlen soff tp :
  subspan mem moff mlen = Ok msg -> mem = a ++ buf ++ c -> zlen a = soff -> zlen buf = p_siglen P ->
  sign_at O fuel P sk mem moff mlen soff tp = place a (sk_sign O fuel P sk msg buf tp) c.
Proof.
  intros EM -> <- Lb. unfold sign_at, sk_sign. cbv zeta. rewrite EM. cbn [bind].
  destruct (bind_msg O P (sk_pkey sk) msg) as [mu| |]; [|reflexivity|reflexivity]. cbn [bind].
  destruct (expandA O fuel (p_k P) (p_l P) (pk_seed (sk_pkey sk))) as [A| |]; [|reflexivity|reflexivity]. cbn [bind].
  apply sign_loop_at_eq. exact Lb.
Qed.
Lemma subspan_keep (a sig sig' c : list Z) off n : zlen sig = zlen sig' -> off + n <= zlen a \/ zlen a + zlen sig <= off ->
  subspan (a ++ sig ++ c) off n = subspan (a ++ sig' ++ c) off n.
Proof.
  intros L D. unfold subspan. rewrite !zlen_app, L. destruct ((0 <=? off) && (0 <=? n) && _) eqn:E; [|reflexivity]. f_equal.
  assert (Ho : 0 <= off) by lia. assert (Hn : 0 <= n) by lia. clear E. unfold zlen in *.
  destruct D as [D|D].
  - rewrite !skipn_app. assert (X : forall l : list Z, firstn (Z.to_nat n) (skipn (Z.to_nat off) a ++ l) = firstn (Z.to_nat n) (skipn (Z.to_nat off) a)).
    { intros l. rewrite firstn_app, skipn_length. replace (Z.to_nat n - (length a - Z.to_nat off))%nat with 0%nat by lia. cbn [firstn]. apply app_nil_r. }
    rewrite !X. reflexivity.
  - assert (X : forall s : list Z, length s = length sig -> skipn (Z.to_nat off) (a ++ s ++ c) = skipn (Z.to_nat off - length a - length sig) c).
    { intros s Ls. rewrite skipn_app, (skipn_all2 a) by lia. cbn [app]. rewrite skipn_app, (skipn_all2 s) by lia. rewrite Ls. reflexivity. }
    rewrite (X sig eq_refl), (X sig') by lia. reflexivity.
Qed.
