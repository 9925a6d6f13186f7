(* Concrete keys for the non-vacuity examples of PropKeys.v, and the counterexample to C38. *)
From Coq Require Import ZArith Lia Bool List Arith.
From Coq Require Import ZifyBool ZifyNat.
From Verif Require Import ModelBase ModelU128 ModelField ModelUtils ModelPoly ModelVec ModelSerial ModelScheme.
From Verif Require Import Spec SpecScheme.
From Verif Require Import Words FieldProofs ArithLemmas BytesProofs PolyProofs MaskedProofs PackProofs SkeyProofs PolyLemmas KeyLemmas FinProofs ExOracle ExGood.
Import ListNotations.
Open Scope Z_scope.
Ltac Zify.zify_post_hook ::= idtac.

Lemma Forall_repeat {A} (P : A -> Prop) x n : P x -> Forall P (repeat x n).
Proof. intros H. apply Forall_forall. intros y Hy. apply repeat_spec in Hy. subst. exact H. Qed.
Lemma const_poly x : reduced x -> is_poly (repeat x 512).
Proof. intros H. split; [apply repeat_length|]. apply Forall_repeat. exact H. Qed.
Lemma small_reduced x : 0 <= x < 2 ^ 48 -> reduced x.
Proof. intros H. change (2 ^ 48) with 281474976710656 in H. unfold reduced. rewrite q_Q, Q_val. lia. Qed.
Lemma const_public x n kb seed k : 0 <= x < 128 -> is_byte seed -> n = kb ->
  valid_public kb k (repeat seed n) (repeat [repeat x 512] k).
Proof.
  intros Hx Hs ->. split; [apply repeat_length|]. split; [apply Forall_repeat; exact Hs|]. split; [apply repeat_length|].
  apply Forall_repeat. exists (repeat x 512). split; [reflexivity|]. split; [apply repeat_length|]. apply Forall_repeat. exact Hx.
Qed.
Lemma c09_example :
  params_ok (raccoon192_params 4) = true /\ pk_byte_len (raccoon192_params 4) = 3160 /\
  zlen (repeat 173 3160) = 3160 /\ Forall is_byte (repeat 173 3160) /\
  valid_public 24 7 (repeat 200 24) (repeat [repeat 127 512] 7).
Proof.
  split; [vm_compute; reflexivity|]. split; [vm_compute; reflexivity|].
  split; [unfold zlen; rewrite repeat_length; reflexivity|]. split; [apply Forall_repeat; split; [discriminate|reflexivity]|].
  apply const_public; [lia|split; [discriminate|reflexivity]|reflexivity].
Qed.

(* two shares: 5 and -3 *)
Definition ex_key2 : skey :=
  Skey (Pkey (repeat 200 16) (repeat [repeat 100 512] 5)) (repeat [repeat 5 512; repeat (q - 3) 512] 4).
Lemma q3_reduced : reduced (q - 3).
Proof. unfold reduced. rewrite q_Q, Q_val. lia. Qed.
Lemma ex_key2_masked : masked_vec 4 2 (sk_s ex_key2).
Proof.
  split; [reflexivity|]. cbn [ex_key2 sk_s]. apply Forall_repeat. split; [reflexivity|].
  constructor; [apply const_poly, small_reduced; split; [discriminate|reflexivity]|]. constructor; [|constructor].
  apply const_poly. exact q3_reduced.
Qed.
Lemma ex_key2_public : valid_public 16 5 (pk_seed (sk_pkey ex_key2)) (pk_t (sk_pkey ex_key2)).
Proof. cbn [ex_key2 sk_pkey pk_seed pk_t]. apply const_public; [lia|split; [discriminate|reflexivity]|reflexivity]. Qed.
Lemma sk_to_bytes_fin O fuel P sk buf p : good_hash O fuel ->
  (forall b, zlen b = pk_byte_len P -> exists r, pk_to_bytes P (sk_pkey sk) b = Ok r) ->
  zlen buf = sk_byte_len P -> sk_to_bytes O fuel P sk buf p <> OutOfFuel.
Proof.
  intros G Hp Hb. apply (fn_ok _ (fun _ => True)). unfold sk_to_bytes. cbv zeta. apply fn_bind.
  destruct (subspan buf 0 (pk_byte_len P)) as [pkb| |] eqn:E; [cbn [fn]|exact I|unfold subspan in E; destruct (_ && _); discriminate].
  apply fn_bind. destruct (subspan buf (pk_byte_len P) _) as [skb| |] eqn:E2; [cbn [fn]|exact I|unfold subspan in E2; destruct (_ && _); discriminate].
  assert (L : zlen pkb = pk_byte_len P).
  { unfold subspan in E. destruct (_ && _) eqn:C; [|discriminate]. inversion E as [E']. unfold zlen in *. rewrite firstn_length, ?skipn_length. change (Z.to_nat 0) with 0%nat. cbn [skipn]. lia. }
  destruct (Hp pkb L) as [r ->]. cbn [bind]. apply fn_bind.
  pose proof (mask_compress_fin O fuel (p_kappa P) (p_d P) (sk_s sk) skb p G) as X.
  destruct (mask_compress _ _ _ _ _ _ _) as [[a b]| |]; [exact I|exact I|congruence].
Qed.
Lemma c10_example :
  params_ok (raccoon128_params 2) = true /\
  valid_public 16 5 (pk_seed (sk_pkey ex_key2)) (pk_t (sk_pkey ex_key2)) /\
  secret_vec 4 2 (sk_s ex_key2) /\ masked_vec 4 2 (sk_s ex_key2) /\
  exists bytes p, sk_to_bytes ex_G 512 (raccoon128_params 2) ex_key2
                    (repeat 9 (Z.to_nat (sk_byte_len (raccoon128_params 2)))) (Prng ex_tape 3) = Ok (bytes, p).
Proof.
  assert (HP : params_ok (raccoon128_params 2) = true) by (vm_compute; reflexivity).
  split; [exact HP|]. split; [exact ex_key2_public|].
  assert (S : secret_vec 4 2 (sk_s ex_key2)) by (apply secret_of_masked; [lia|exact ex_key2_masked]).
  split; [exact S|]. split; [exact ex_key2_masked|].
  assert (LB : 0 <= sk_byte_len (raccoon128_params 2)) by (vm_compute; discriminate).
  assert (L : zlen (repeat 9 (Z.to_nat (sk_byte_len (raccoon128_params 2)))) = sk_byte_len (raccoon128_params 2)).
  { unfold zlen. rewrite repeat_length. apply Z2Nat.id. exact LB. }
  destruct (sk_roundtrip ex_G 512 (raccoon128_params 2) ex_key2 _ ex_tape 3 HP ex_key2_public S L) as [U _].
  pose proof (sk_to_bytes_fin ex_G 512 (raccoon128_params 2) ex_key2 _ (Prng ex_tape 3) (exG_good_hash 512 (le_n _))
     (fun b Hb => match pk_key_roundtrip (raccoon128_params 2) (sk_pkey ex_key2) b HP ex_key2_public Hb with
                  | ex_intro _ r H => ex_intro _ r (proj1 H) end) L) as X.
  destruct (sk_to_bytes _ _ _ _ _ _) as [[bytes p]| |]; [exists bytes, p; reflexivity|congruence|congruence].
Qed.
Lemma map_const {A B} (b : B) (l : list A) : map (fun _ => b) l = repeat b (length l).
Proof. induction l as [|a l IH]; [reflexivity|]. cbn [map length repeat]. f_equal. exact IH. Qed.
Lemma map_rep {A B} (f : A -> B) x n : map f (repeat x n) = repeat (f x) n.
Proof. induction n as [|n IH]; [reflexivity|]. cbn [map repeat]. f_equal. exact IH. Qed.
Lemma c11_example :
  map unmask (sk_s ex_key2) = repeat (repeat 2 512) 4 /\ ~ In (repeat 2 512) (concat (sk_s ex_key2)).
Proof.
  split.
  - assert (E : unmask [repeat 5 512; repeat (q - 3) 512] = repeat 2 512).
    { unfold unmask. replace (repeat 2 512) with (map (fun _ : nat => 2) (seq 0 512)) by (rewrite map_const, seq_length; reflexivity).
      apply map_ext_in. intros k Hk. apply in_seq in Hk. cbn [map fold_right]. unfold coef.
      assert (N : forall x, nth k (repeat x 512) 0 = x) by (intros x; apply (repeat_spec 512 x), nth_In; rewrite repeat_length; lia).
      rewrite !N. replace (5 + (q - 3 + 0)) with (2 + 1 * q) by ring. rewrite Z.mod_add by (rewrite q_Q, Q_val; discriminate).
      apply Z.mod_small. rewrite q_Q, Q_val. lia. }
    cbn [ex_key2 sk_s]. rewrite map_rep, E. reflexivity.
  - intros H. apply in_concat in H. destruct H as (row & Hr & H). cbn [ex_key2 sk_s] in Hr. apply repeat_spec in Hr. subst row.
    assert (N : forall x, x <> 2 -> repeat 2 512 = repeat x 512 -> False).
    { intros x Hx E. apply Hx. apply (f_equal (fun l => nth 0 l 0)) in E. cbn [repeat nth] in E. congruence. }
    assert (Nq : q - 3 <> 2) by (rewrite q_Q, Q_val; discriminate).
    destruct H as [H|[H|[]]]; symmetry in H; revert H; apply N; [discriminate|exact Nq].
Qed.

Lemma bits255 n : bits_of_bytes (repeat 255 n) = repeat true (8 * n).
Proof.
  induction n as [|n IH]; [reflexivity|]. cbn [repeat]. change (255 :: repeat 255 n) with ([255] ++ repeat 255 n).
  rewrite bits_of_bytes_app, IH. replace (8 * S n)%nat with (8 + 8 * n)%nat by lia. rewrite repeat_app. reflexivity.
Qed.
Lemma app_repeat {A} (x : A) n : forall a b, a ++ b = repeat x n -> b = repeat x (n - length a).
Proof.
  induction n as [|n IH]; intros a b H; cbn [repeat] in H.
  - apply app_eq_nil in H. destruct H as [-> ->]. reflexivity.
  - destruct a as [|y a]; [cbn [app length] in *; rewrite Nat.sub_0_r; exact H|]. cbn [app] in H. inversion H; subst.
    apply IH. assumption.
Qed.
Lemma sk_not_canonical : exists O fuel P bytes sk,
  params_ok P = true /\ Forall is_byte bytes /\ zlen bytes = sk_byte_len P /\
  sk_from_bytes O fuel P bytes = Ok sk /\
  coef (nth 0 (nth 0 (sk_s sk) []) []) 0 = 2 ^ 49 - 1 /\ q <= 2 ^ 49 - 1.
Proof.
  set (P := raccoon128_params 1).
  assert (HP : params_ok P = true) by (vm_compute; reflexivity).
  assert (LB : 0 <= sk_byte_len P) by (vm_compute; discriminate).
  set (n := Z.to_nat (sk_byte_len P)). exists ex_G, 512%nat, P, (repeat 255 n).
  assert (Hb : Forall is_byte (repeat 255 n)) by (apply Forall_repeat; split; [discriminate|reflexivity]).
  assert (L : zlen (repeat 255 n) = sk_byte_len P) by (unfold zlen; rewrite repeat_length; apply Z2Nat.id; exact LB).
  destruct (sk_decode_shape ex_G 512 P (repeat 255 n) HP Hb L) as (_ & D1 & D). destruct (D1 eq_refl) as [sk E].
  exists sk. split; [exact HP|]. split; [exact Hb|]. split; [exact L|]. split; [exact E|].
  destruct (D sk E) as (_ & S & _ & pkb & seeds & packed & Eb & _ & _ & Fp & Bp).
  assert (Ep : exists m, packed = repeat 255 m).
  { rewrite app_assoc in Eb. symmetry in Eb. apply app_repeat in Eb. eexists. exact Eb. }
  destruct Ep as [m ->]. rewrite bits255 in Bp. destruct S as [Ls Fs]. change (p_l P) with 4%nat in Ls.
  clear D D1 E HP LB L Hb Eb. destruct (sk_s sk) as [|row rest]; [discriminate Ls|].
  inversion Fs as [|? ? (Lr & [Lp Rp] & _) _]; subst. clear Fs Ls Lr.
  change (nth 0 (row :: rest) []) with row. rewrite map_cons in Bp. rewrite concat_cons in Bp.
  revert Lp Rp Bp. change (@nth poly) with (@nth (list Z)). generalize (@nth (list Z) 0 row []) as p0. generalize (map (fun row => nth 0 row []) rest) as rst.
  intros rst p0 Lp Rp Bp. destruct p0 as [|x p]; [exfalso; discriminate Lp|].
  inversion Rp as [|? ? Rx _]; subst. rewrite <- app_comm_cons, map_cons, concat_cons in Bp.
  assert (X : bits_of 49 x = repeat true 49).
  { assert (F : firstn 49 (repeat true (8 * m)) = bits_of 49 x) by (rewrite Bp, firstn_app, bits_of_length, Nat.sub_diag, firstn_O, app_nil_r; apply firstn_all2; rewrite bits_of_length; lia).
    assert (Lm : (49 <= 8 * m)%nat) by (apply (f_equal (@length bool)) in Bp; rewrite repeat_length, app_length, bits_of_length in Bp; lia).
    rewrite <- F. replace (8 * m)%nat with (49 + (8 * m - 49))%nat by lia. rewrite repeat_app, firstn_app, repeat_length, Nat.sub_diag, firstn_O, app_nil_r.
    apply firstn_all2. rewrite repeat_length. lia. }
  split.
  - apply (f_equal bits_value) in X. rewrite bits_value_bits_of in X. change (2 ^ Z.of_nat 49) with (2 ^ 49) in X.
    rewrite Z.mod_small in X by exact Rx. unfold coef. change (nth 0 (x :: p) 0) with x. rewrite X. vm_compute. reflexivity.
  - rewrite q_Q, Q_val. discriminate.
Qed.
