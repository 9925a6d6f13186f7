(* Which hash inputs and which random bytes an operation depends on. *)
From Coq Require Import ZArith Lia Bool List Arith.
From Verif Require Import ModelBase ModelU128 ModelField ModelUtils ModelPoly ModelVec ModelSerial ModelScheme ModelApi.
From Verif Require Import Spec SpecScheme SpecSig SpecVerify SpecApi SpecEnc SpecHash.
From Verif Require Import Words FieldProofs ArithLemmas BytesProofs PolyProofs MaskedProofs PolyLemmas MaskedLemmas.
From Verif Require Import ParamProofs KeyLemmas SigEnc SigLemmas SigExact SchemeCore VerifyProofs SignProofs SignVerify KeygenProofs HistoryProofs FuelProofs TermProofs SignExact HashLemmas MaskIndep.
Import ListNotations.
Open Scope Z_scope.
Ltac Zify.zify_post_hook ::= idtac.

Lemma query_inj a b : query_input a = query_input b -> a = b.
Proof.
  destruct a, b; cbn [query_input app]; intros E; try discriminate E; injection E; intros; subst; f_equal; try assumption; lia.
Qed.
Lemma stream_ext S T p n : (forall i, (p <= i < p + n)%nat -> S i = T i) -> stream_bytes S p n = stream_bytes T p n.
Proof. intros H. apply map_ext_in. intros i Hi. apply in_seq in Hi. apply H. lia. Qed.
Lemma accepted_ext S T n : (forall i, S i = T i) -> accepted49 S n = accepted49 T n.
Proof.
  intros H. unfold accepted49. f_equal. apply map_ext. intros t. unfold candidate49. rewrite (stream_ext S T); [reflexivity|]. intros i _. apply H.
Qed.
Lemma uniform_ext S T p : (forall i, S i = T i) -> uniform_poly S p -> uniform_poly T p.
Proof.
  intros H (n & L & E). assert (X : accepted49 S n = accepted49 T n).
  { unfold accepted49. f_equal. apply map_ext. intros t. unfold candidate49. rewrite (stream_ext S T); [reflexivity|]. intros i _. apply H. }
  exists n. rewrite <- X. split; [exact L|exact E].
Qed.
Lemma chal_word_ext S T t : (forall i, S i = T i) -> chal_word S t = chal_word T t.
Proof. intros H. unfold chal_word. rewrite (stream_ext S T); [reflexivity|]. intros i _. apply H. Qed.
Lemma find_ext {A} (f g : A -> bool) l : (forall x, f x = g x) -> find f l = find g l.
Proof. intros H. induction l as [|x l IH]; [reflexivity|]. cbn [find]. rewrite H, IH. reflexivity. Qed.
Lemma chal_pos_ext S T t : (forall i, S i = T i) -> chal_pos S t = chal_pos T t.
Proof. intros H. unfold chal_pos. rewrite (chal_word_ext S T t H). reflexivity. Qed.
Lemma chal_pos_map_ext S T l : (forall i, S i = T i) -> map (chal_pos S) l = map (chal_pos T) l.
Proof. intros H. apply map_ext. intros t. apply chal_pos_ext, H. Qed.
Lemma challenge_ext S T omega c : (forall i, S i = T i) -> challenge_poly S omega c -> challenge_poly T omega c.
Proof.
  intros H (n & L & E). exists n. split.
  - rewrite <- L. do 2 f_equal. apply map_ext. intros t. symmetry. apply chal_pos_ext, H.
  - rewrite E. apply map_ext. intros i. unfold chal_coef.
    rewrite (find_ext (fun t => (chal_pos S t =? i)%nat) (fun t => (chal_pos T t =? i)%nat)) by (intros t; rewrite (chal_pos_ext S T t H); reflexivity).
    destruct (find _ _) as [t|]; [|reflexivity]. unfold chal_sign. rewrite (chal_word_ext S T t H). reflexivity.
Qed.
Lemma digest_ext H H' n m : (forall i, H m i = H' m i) -> digest H n m = digest H' n m.
Proof. intros E. apply stream_ext. intros i _. apply E. Qed.
Lemma matrix_ext H H' seed k l A :
  (forall r c, (r < k)%nat -> (c < l)%nat -> forall i, H (query_input (hq_matrix r c seed)) i = H' (query_input (hq_matrix r c seed)) i) ->
  public_matrix H seed k l A -> public_matrix H' seed k l A.
Proof.
  intros E (L & F & U). split; [exact L|]. split; [exact F|]. intros r c Hr Hc. exact (uniform_ext _ _ _ (E r c Hr Hc) (U r c Hr Hc)).
Qed.
Lemma Zsum_ext n f g : (forall i, (i < n)%nat -> f i = g i) -> Zsum n f = Zsum n g.
Proof. induction n as [|n IH]; intros H; [reflexivity|]. cbn [Zsum]. rewrite IH by (intros; apply H; lia). rewrite H by lia. reflexivity. Qed.
Lemma noise_ext H H' T T' p u n pos :
  (forall i r j s, (i < Z.to_nat (r_rep p))%nat -> (j < Z.to_nat (r_d p))%nat -> (r < n)%nat -> length s = Z.to_nat (r_kappa p / 8) ->
     forall x, H (query_input (hq_noise i r j s)) x = H' (query_input (hq_noise i r j s)) x) ->
  (forall x, (pos <= x < pos + n * row_bytes p)%nat -> T x = T' x) ->
  noise H T p u n pos = noise H' T' p u n pos.
Proof.
  intros EH ET. unfold noise, noise_vec. apply map_ext_in. intros r Hr. apply in_seq in Hr. unfold noise_poly. apply map_ext. intros x. f_equal.
  unfold noise_coef. apply Zsum_ext. intros i Hi. apply Zsum_ext. intros j Hj.
  unfold row_bytes in ET. set (rep := Z.to_nat (r_rep p)) in *. set (d := Z.to_nat (r_d p)) in *. set (kb := Z.to_nat (r_kappa p / 8)) in *.
  assert (ES : stream_bytes T (pos + r * (rep * d * kb) + (i * d + j) * kb) kb = stream_bytes T' (pos + r * (rep * d * kb) + (i * d + j) * kb) kb).
  { apply stream_ext. intros y Hy. apply ET.
    assert (X1 : (i * d + j + 1 <= rep * d)%nat).
    { assert (Y : (i * d + d <= rep * d)%nat) by (replace (i * d + d)%nat with (S i * d)%nat by (cbn [Nat.mul]; lia); apply Nat.mul_le_mono_r; lia). lia. }
    assert (X2 : ((i * d + j + 1) * kb <= rep * d * kb)%nat) by (apply Nat.mul_le_mono_r; exact X1).
    assert (X3 : ((r + 1) * (rep * d * kb) <= n * (rep * d * kb))%nat) by (apply Nat.mul_le_mono_r; lia).
    rewrite Nat.mul_add_distr_r, Nat.mul_1_l in X2, X3. lia. }
  unfold noise_sample, noise_stream. rewrite ES. f_equal. f_equal. apply stream_ext. intros y _.
  refine (EH i r j _ Hi Hj _ _ y); [lia|]. unfold stream_bytes. rewrite map_length, seq_length. reflexivity.
Qed.
Lemma zipw_len {A B C} (f : A -> B -> C) a b : length (zipw f a b) = Nat.min (length a) (length b).
Proof. unfold zipw. rewrite map_length. apply combine_length. Qed.
Lemma attempt_ext H H' T T' p A t s mu n c cp h z :
  (forall i r j s, (i < Z.to_nat (r_rep p))%nat -> (j < Z.to_nat (r_d p))%nat -> (r < Nat.max (Z.to_nat (r_k p)) (Z.to_nat (r_l p)))%nat -> length s = Z.to_nat (r_kappa p / 8) ->
     forall x, H (query_input (hq_noise i r j s)) x = H' (query_input (hq_noise i r j s)) x) ->
  (forall c, length c = Z.to_nat (2 * r_kappa p / 8) -> forall x, H (query_input (hq_challenge (Z.to_nat (r_omega p)) c)) x = H' (query_input (hq_challenge (Z.to_nat (r_omega p)) c)) x) ->
  (forall data x, H (query_input (hq_commitment (Z.to_nat (r_k p)) data)) x = H' (query_input (hq_commitment (Z.to_nat (r_k p)) data)) x) ->
  length A = Z.to_nat (r_k p) ->
  (forall x, (n * ((Z.to_nat (r_l p) + Z.to_nat (r_k p)) * row_bytes p) <= x < (n + 1) * ((Z.to_nat (r_l p) + Z.to_nat (r_k p)) * row_bytes p))%nat -> T x = T' x) ->
  sign_attempt H T p A t s mu n c cp h z -> sign_attempt H' T' p A t s mu n c cp h z.
Proof.
  intros EN EC EW LA ET. unfold sign_attempt. cbv zeta.
  set (k := Z.to_nat (r_k p)) in *. set (l := Z.to_nat (r_l p)) in *. set (pos := (n * ((l + k) * row_bytes p))%nat) in *.
  assert (EP : ((n + 1) * ((l + k) * row_bytes p) = pos + l * row_bytes p + k * row_bytes p)%nat).
  { unfold pos. rewrite Nat.mul_add_distr_r, Nat.mul_1_l. rewrite (Nat.mul_add_distr_r l k). lia. }
  rewrite EP in ET. clearbody pos.
  rewrite (noise_ext H H' T T' p (r_uw p) l pos); [|intros; apply EN; try assumption; lia|intros x Hx; apply ET; lia].
  rewrite (noise_ext H H' T T' p (r_uw p) k (pos + l * row_bytes p)); [|intros; apply EN; try assumption; lia|intros x Hx; apply ET; lia].
  set (r := noise H' T' p (r_uw p) l pos). set (e := noise H' T' p (r_uw p) k (pos + l * row_bytes p)).
  set (w := map (round_poly (r_nuw p)) (zipw ring_add (ring_matvec A r) e)).
  assert (Lw : length w = k).
  { unfold w. rewrite map_length, zipw_len. unfold ring_matvec. rewrite map_length, LA. unfold e, noise, noise_vec. rewrite map_length, seq_length. lia. }
  clearbody w. intros (C1 & C2 & C3).
  assert (E1 : challenge_value H (Z.to_nat (2 * r_kappa p / 8)) w mu = challenge_value H' (Z.to_nat (2 * r_kappa p / 8)) w mu).
  { unfold challenge_value. apply digest_ext. intros i. unfold challenge_input. rewrite Lw. exact (EW (concat w ++ mu) i). }
  rewrite E1 in C1. split; [exact C1|]. split; [|exact C3].
  refine (challenge_ext _ _ _ _ _ C2). intros i. apply (EC c). rewrite C1. unfold challenge_value, digest, stream_bytes. rewrite map_length, seq_length. reflexivity.
Qed.
Lemma agree_hash O O' (Q : list Z -> Prop) : (forall m, Q m -> forall i, shake256 O m i = shake256 O' m i) -> forall m, Q m -> forall i, hash_of O m i = hash_of O' m i.
Proof. intros H m Hm i. unfold hash_of. rewrite (H m Hm i). reflexivity. Qed.
Lemma row_fields P : Z.to_nat (r_k (row_of P)) = p_k P /\ Z.to_nat (r_l (row_of P)) = p_l P /\ Z.to_nat (r_omega (row_of P)) = p_omega P /\
  Z.to_nat (r_rep (row_of P)) = p_rep P /\ Z.to_nat (r_d (row_of P)) = p_d P /\ r_kappa (row_of P) = p_kappa P.
Proof. cbn [row_of r_k r_l r_omega r_rep r_d r_kappa]. rewrite !Nat2Z.id. repeat split. Qed.
Lemma valid_ext O H' p seed t msg sig : Forall is_byte sig -> length t = Z.to_nat (r_k p) ->
  (forall pkb, public_key_code seed t pkb -> forall m, verify_input (hash_of O) p seed pkb msg sig m -> forall i, hash_of O m i = H' m i) ->
  valid_signature (hash_of O) p seed t msg sig -> valid_signature H' p seed t msg sig.
Proof.
  intros Bs Lt EH. unfold valid_signature. cbv zeta. intros (c & h & z & A & cp & pkb & L1 & L2 & L3 & C1 & C2 & C3 & C4 & C5 & C6 & C7).
  specialize (EH pkb C6). set (n := Z.to_nat (2 * r_kappa p / 8)) in *.
  assert (Ec : firstn n sig = c).
  { rewrite <- L1. apply (code_prefix c h z); [rewrite C7; apply digest_bytes|exact Bs|exact C1]. }
  assert (E0 : forall i, hash_of O pkb i = H' pkb i) by (intros i; apply EH; left; reflexivity).
  assert (E1 : digest (hash_of O) n pkb = digest H' n pkb) by (apply digest_ext; exact E0).
  exists c, h, z, A, cp, pkb. do 6 (split; [assumption|]). split; [|split; [|split; [exact C6|]]].
  - refine (matrix_ext (hash_of O) H' _ _ _ _ _ C4). intros r c0 Hr Hc i. apply EH. right. right. left. exists r, c0. split; [exact Hr|]. split; [exact Hc|reflexivity].
  - refine (challenge_ext _ _ _ _ _ C5). intros i. apply (EH (query_input (hq_challenge (Z.to_nat (r_omega p)) c))). right. right. right. left. fold n. rewrite Ec. reflexivity.
  - etransitivity; [exact C7|]. unfold bound_message. rewrite <- E1.
    assert (E2 : digest (hash_of O) n (digest (hash_of O) n pkb ++ msg) = digest H' n (digest (hash_of O) n pkb ++ msg)) by (apply digest_ext; intros i; apply EH; right; left; reflexivity).
    rewrite <- E2. unfold challenge_value. apply digest_ext. intros i. apply EH. right. right. right. right.
    match goal with |- context [challenge_input ?w ?mu] => exists (concat w ++ mu); unfold challenge_input; assert (Lw : length w = Z.to_nat (r_k p)) end.
    { unfold commitment, noisy_product. rewrite zipw_len, map_length, zipw_len. unfold ring_matvec, rows_of_flat, rows1. rewrite !map_length, seq_length.
      destruct C4 as (LA & _). rewrite LA, Lt. lia. }
    rewrite Lw. reflexivity.
Qed.
Lemma verify_confined O O' fuel fuel' P pk pkb msg sig : params_ok P = true ->
  valid_public (Z.to_nat (p_kappa P / 8)) (p_k P) (pk_seed pk) (pk_t pk) -> Forall is_byte sig -> zlen sig = p_siglen P ->
  public_key_code (pk_seed pk) (pk_t pk) pkb ->
  (forall m, verify_input (hash_of O) (row_of P) (pk_seed pk) pkb msg sig m -> forall i, shake256 O m i = shake256 O' m i) ->
  verify O fuel P pk msg sig <> OutOfFuel -> verify O' fuel' P pk msg sig <> OutOfFuel ->
  verify O fuel P pk msg sig = verify O' fuel' P pk msg sig.
Proof.
  intros HP V B L CP AG N1 N2. destruct (row_fields P) as (Rk & _).
  assert (Lt : length (pk_t pk) = Z.to_nat (r_k (row_of P))) by (rewrite Rk; destruct V as (_ & _ & Lt & _); exact Lt).
  pose proof (agree_hash O O' _ AG) as AH.
  assert (D1 : valid_signature (hash_of O) (row_of P) (pk_seed pk) (pk_t pk) msg sig -> valid_signature (hash_of O') (row_of P) (pk_seed pk) (pk_t pk) msg sig).
  { apply valid_ext; [exact B|exact Lt|]. intros pkb' CP'. rewrite (public_key_code_unique _ _ _ _ CP' CP). exact AH. }
  assert (D2 : valid_signature (hash_of O') (row_of P) (pk_seed pk) (pk_t pk) msg sig -> valid_signature (hash_of O) (row_of P) (pk_seed pk) (pk_t pk) msg sig).
  { apply valid_ext; [exact B|exact Lt|]. intros pkb' CP' m Hm i. rewrite (public_key_code_unique _ _ _ _ CP' CP) in Hm. symmetry. apply AH.
    unfold verify_input in Hm |- *. cbv zeta in Hm |- *.
    rewrite <- (digest_ext (hash_of O) (hash_of O') (Z.to_nat (2 * r_kappa (row_of P) / 8)) pkb) in Hm; [exact Hm|]. intros j. apply AH. left. reflexivity. }
  pose proof (verify_spec O fuel P pk msg sig HP V B L) as S1. pose proof (verify_spec O' fuel' P pk msg sig HP V B L) as S2.
  pose proof (verify_ub_exact O fuel P pk msg sig HP V B L) as U1. pose proof (verify_ub_exact O' fuel' P pk msg sig HP V B L) as U2.
  destruct (verify O fuel P pk msg sig) as [b| |]; [| |congruence].
  - destruct (verify O' fuel' P pk msg sig) as [b'| |]; [| |congruence].
    + f_equal. destruct b, b'; try reflexivity; exfalso; (assert (true = false -> False) by discriminate); assert (false = true -> False) by discriminate; tauto.
    + exfalso. assert (X : Ok b = UB) by (apply U1, U2; reflexivity). discriminate X.
  - symmetry. apply U2, U1. reflexivity.
Qed.
Lemma sign_confined O fuel P sk msg buf tp sig pkb : params_ok P = true ->
  valid_public (Z.to_nat (p_kappa P / 8)) (p_k P) (pk_seed (sk_pkey sk)) (pk_t (sk_pkey sk)) ->
  masked_vec49 (p_l P) (p_d P) (sk_s sk) -> zlen buf = p_siglen P ->
  public_key_code (pk_seed (sk_pkey sk)) (pk_t (sk_pkey sk)) pkb ->
  sk_sign O fuel P sk msg buf tp = Ok sig ->
  exists n A s c cp h z,
    public_matrix (hash_of O) (pk_seed (sk_pkey sk)) (p_k P) (p_l P) A /\ Forall is_poly s /\ map transform s = map unmask (sk_s sk) /\
    sign_attempt (hash_of O) (tape_of tp) (row_of P) A (rows1 (pk_t (sk_pkey sk))) s (bound_message (hash_of O) (Z.to_nat (2 * p_kappa P / 8)) pkb msg) n c cp h z /\
    signature_code c h z sig /\
    forall O' fuel' sk' buf' tp',
      (forall m, sign_input (hash_of O) (row_of P) (pk_seed (sk_pkey sk)) pkb msg m -> forall i, shake256 O m i = shake256 O' m i) ->
      (forall x, (x < (n + 1) * ((p_l P + p_k P) * row_bytes (row_of P)))%nat -> tp x = tp' x) ->
      masked_vec49 (p_l P) (p_d P) (sk_s sk') -> sk_pkey sk' = sk_pkey sk -> map unmask (sk_s sk') = map unmask (sk_s sk) ->
      zlen buf' = p_siglen P -> sk_sign O' fuel' P sk' msg buf' tp' <> OutOfFuel -> sk_sign O' fuel' P sk' msg buf' tp' = Ok sig.
Proof.
  intros HP V Hs Lb CP ES. assert (N : sk_sign O fuel P sk msg buf tp <> OutOfFuel) by (rewrite ES; discriminate).
  destruct (row_fields P) as (Rk & Rl & Ro & Rr & Rd & Rka).
  destruct (sign_inputs O fuel P sk msg buf tp HP V Hs Lb N) as (A & pkb0 & s & S1 & S2 & S3 & S4).
  rewrite (public_key_code_unique _ _ _ _ S2 CP) in S2. clear pkb0 S2.
  destruct (proj1 (sign_exact O fuel P sk msg buf tp A pkb s HP V Hs Lb S1 CP S3 S4) N) as [X1 _].
  apply X1 in ES. destruct ES as (B1 & B2 & n & c & cp & h & z & T1 & T2 & T3 & T4). clear X1.
  exists n, A, s, c, cp, h, z. do 5 (split; [assumption|]).
  intros O' fuel' sk' buf' tp' AG ET Hs' Ep Eu Lb' N'. pose proof (agree_hash O O' _ AG) as AH. rewrite <- Ep in V, CP. rewrite <- Eu in S4.
  assert (E1 : digest (hash_of O) (Z.to_nat (2 * p_kappa P / 8)) pkb = digest (hash_of O') (Z.to_nat (2 * p_kappa P / 8)) pkb)
    by (apply digest_ext; intros j; apply AH; left; reflexivity).
  assert (EB : bound_message (hash_of O) (Z.to_nat (2 * p_kappa P / 8)) pkb msg = bound_message (hash_of O') (Z.to_nat (2 * p_kappa P / 8)) pkb msg).
  { unfold bound_message. rewrite <- E1. apply digest_ext. intros j. apply AH. right. left. reflexivity. }
  assert (S1' : public_matrix (hash_of O') (pk_seed (sk_pkey sk')) (p_k P) (p_l P) A).
  { rewrite Ep. refine (matrix_ext (hash_of O) (hash_of O') _ _ _ _ _ S1). intros r c0 Hr Hc i. apply AH. right. right. left. left.
    rewrite Rk, Rl. exists r, c0. split; [exact Hr|]. split; [exact Hc|reflexivity]. }
  destruct (proj1 (sign_exact O' fuel' P sk' msg buf' tp' A pkb s HP V Hs' Lb' S1' CP S3 S4) N') as [X2 _].
  apply X2. split; [exact B1|]. split; [exact B2|]. rewrite <- EB, Ep.
  assert (TR : forall i c cp h z, (i <= n)%nat ->
    sign_attempt (hash_of O) (tape_of tp) (row_of P) A (rows1 (pk_t (sk_pkey sk))) s (bound_message (hash_of O) (Z.to_nat (2 * p_kappa P / 8)) pkb msg) i c cp h z ->
    sign_attempt (hash_of O') (tape_of tp') (row_of P) A (rows1 (pk_t (sk_pkey sk))) s (bound_message (hash_of O) (Z.to_nat (2 * p_kappa P / 8)) pkb msg) i c cp h z).
  { intros i c0 cp0 h0 z0 Hi. apply attempt_ext.
    - intros a r j sd H1 H2 H3 H4 x. apply AH. right. right. left. right. exists a, r, j, sd. do 4 (split; [assumption|]). reflexivity.
    - intros c1 Hc1 x. apply AH. right. right. right. left. exists c1. split; [exact Hc1|reflexivity].
    - intros data x. apply AH. right. right. right. right. exists data. reflexivity.
    - rewrite Rk. destruct S1 as (LA & _). exact LA.
    - intros x Hx. unfold tape_of. f_equal. apply ET. rewrite Rk, Rl in Hx. destruct Hx as [_ Hx].
      refine (Nat.lt_le_trans _ _ _ Hx _). apply Nat.mul_le_mono_r. lia. }
  exists n, c, cp, h, z. split; [exact (TR n c cp h z (le_n n) T1)|]. split; [exact T2|]. split; [exact T3|].
  intros i Hi. destruct (T4 i Hi) as (c1 & cp1 & h1 & z1 & Y1 & Y2 & Y3). exists c1, cp1, h1, z1. split; [exact (TR i c1 cp1 h1 z1 (Nat.lt_le_incl _ _ Hi) Y1)|]. split; [exact Y2|exact Y3].
Qed.
Lemma generate_confined O O' fuel fuel' P seed tp tp' sk sk' : params_ok P = true ->
  Forall is_byte seed -> length seed = Z.to_nat (p_kappa P / 8) ->
  (forall m, generate_input (row_of P) seed m -> forall i, shake256 O m i = shake256 O' m i) ->
  (forall x, (x < (p_l P + p_k P) * row_bytes (row_of P))%nat -> tp x = tp' x) ->
  sk_generate O fuel P seed tp = Ok sk -> sk_generate O' fuel' P seed tp' = Ok sk' ->
  sk_pkey sk = sk_pkey sk' /\ map unmask (sk_s sk) = map unmask (sk_s sk').
Proof.
  intros HP B L AG ET E1 E2. pose proof (agree_hash O O' _ AG) as AH. destruct (row_fields P) as (Rk & Rl & Ro & Rr & Rd & Rka).
  pose proof (generate_spec O fuel P seed tp HP B L) as G. pose proof (generate_spec O' fuel' P seed tp' HP B L) as G'.
  rewrite E1 in G. rewrite E2 in G'. cbn [wp] in G, G'. cbv zeta in G, G'.
  assert (NA : forall u n pos, (n <= Nat.max (p_k P) (p_l P))%nat -> (pos + n * row_bytes (row_of P) <= (p_l P + p_k P) * row_bytes (row_of P))%nat ->
    noise (hash_of O) (tape_of tp) (row_of P) u n pos = noise (hash_of O') (tape_of tp') (row_of P) u n pos).
  { intros u n pos Hn Hp. apply noise_ext.
    - intros a r j sd H1 H2 H3 H4 x. apply AH. right. exists a, r, j, sd. rewrite Rk, Rl. do 2 (split; [assumption|]). split; [lia|]. split; [exact H4|reflexivity].
    - intros x Hx. unfold tape_of. f_equal. apply ET. lia. }
  rewrite Nat.mul_add_distr_r in NA.
  rewrite <- (NA (p_ut P) (p_l P) 0%nat), <- (NA (p_ut P) (p_k P) (p_l P * row_bytes (row_of P))%nat) in G' by lia.
  destruct G as (G1 & (_ & _ & G2) & _ & A & G4 & G5 & G6 & _). destruct G' as (G1' & (_ & _ & G2') & _ & A' & G4' & G5' & G6' & _).
  split; [|rewrite G5; symmetry; exact G5'].
  assert (G4'' : public_matrix (hash_of O') seed (p_k P) (p_l P) A).
  { refine (matrix_ext (hash_of O) (hash_of O') _ _ _ _ _ G4). intros r c0 Hr Hc i. apply AH. left. rewrite Rk, Rl. exists r, c0. split; [exact Hr|]. split; [exact Hc|reflexivity]. }
  destruct (sk_pkey sk) as [sd t], (sk_pkey sk') as [sd' t']. cbn [pk_seed pk_t] in *. f_equal; [congruence|].
  apply (rows1_inj (p_k P)); [exact G2|exact G2'|]. rewrite G6, G6', (public_matrix_fun _ _ _ _ _ _ G4'' G4'). reflexivity.
Qed.

(* positions of the seeds in the random stream *)
Lemma mix_inj a b x y m : (x < m)%nat -> (y < m)%nat -> (a * m + x = b * m + y)%nat -> a = b /\ x = y.
Proof.
  intros Hx Hy E. assert (a = b).
  { destruct (lt_eq_lt_dec a b) as [[H|H]|H]; [exfalso|exact H|exfalso].
    - assert ((a + 1) * m <= b * m)%nat by (apply Nat.mul_le_mono_r; lia). rewrite Nat.mul_add_distr_r in H0. lia.
    - assert ((b + 1) * m <= a * m)%nat by (apply Nat.mul_le_mono_r; lia). rewrite Nat.mul_add_distr_r in H0. lia. }
  subst b. split; [reflexivity|lia].
Qed.
Lemma windows_disjoint a b kb x : (a <> b)%nat -> (a * kb <= x < a * kb + kb)%nat -> (b * kb <= x < b * kb + kb)%nat -> False.
Proof.
  intros N Ha Hb. destruct (Nat.lt_gt_cases a b) as [H _]. destruct (H N) as [H1|H1].
  - assert ((a + 1) * kb <= b * kb)%nat by (apply Nat.mul_le_mono_r; lia). rewrite Nat.mul_add_distr_r in H0. lia.
  - assert ((b + 1) * kb <= a * kb)%nat by (apply Nat.mul_le_mono_r; lia). rewrite Nat.mul_add_distr_r in H0. lia.
Qed.
Lemma seeds_disjoint p n n' v v' r r' i i' j j' x :
  let rows (v : bool) := Z.to_nat (if v then r_k p else r_l p) in
  (r < rows v)%nat -> (r' < rows v')%nat -> (i < Z.to_nat (r_rep p))%nat -> (i' < Z.to_nat (r_rep p))%nat ->
  (j < Z.to_nat (r_d p))%nat -> (j' < Z.to_nat (r_d p))%nat ->
  (n, v, r, i, j) <> (n', v', r', i', j') ->
  (seed_at p n v r i j <= x < seed_at p n v r i j + Z.to_nat (r_kappa p / 8))%nat ->
  (seed_at p n' v' r' i' j' <= x < seed_at p n' v' r' i' j' + Z.to_nat (r_kappa p / 8))%nat -> False.
Proof.
  cbv zeta. intros Hr Hr' Hi Hi' Hj Hj' NE W W'. unfold seed_at in W, W'. cbv zeta in W, W'.
  set (k := Z.to_nat (r_k p)) in *. set (l := Z.to_nat (r_l p)) in *. set (rep := Z.to_nat (r_rep p)) in *. set (d := Z.to_nat (r_d p)) in *. set (kb := Z.to_nat (r_kappa p / 8)) in *.
  refine (windows_disjoint _ _ kb x _ W W'). clear W W'. intros E. apply NE. clear NE.
  assert (M : forall i j, (i < rep)%nat -> (j < d)%nat -> (i * d + j < rep * d)%nat).
  { intros a b Ha Hb. assert ((a + 1) * d <= rep * d)%nat by (apply Nat.mul_le_mono_r; lia). rewrite Nat.mul_add_distr_r in H. lia. }
  apply mix_inj in E; [|apply M; assumption|apply M; assumption]. destruct E as [E1 E2]. apply mix_inj in E2; [|assumption|assumption]. destruct E2 as [-> ->].
  assert (RW : forall (v : bool) r, (r < Z.to_nat (if v then r_k p else r_l p))%nat -> ((if v then l + r else r) < l + k)%nat).
  { intros u a Ha. destruct u; unfold k, l in *; lia. }
  apply mix_inj in E1; [|apply RW; assumption|apply RW; assumption]. destruct E1 as [-> E3].
  destruct v, v'; unfold k, l in *; try (exfalso; lia).
  - assert (r = r') by lia. subst. reflexivity.
  - assert (r = r') by lia. subst. reflexivity.
Qed.
(* the noise of an attempt, coefficient by coefficient *)
Lemma noise_seeds H T p u n (second : bool) r x :
  let pos := (n * ((Z.to_nat (r_l p) + Z.to_nat (r_k p)) * row_bytes p))%nat in
  (r < Z.to_nat (if second then r_k p else r_l p))%nat -> (x < 512)%nat ->
  coef (nth r (noise H T p u (Z.to_nat (if second then r_k p else r_l p)) (if second then pos + Z.to_nat (r_l p) * row_bytes p else pos)) []) x =
  Zsum (Z.to_nat (r_rep p)) (fun i => Zsum (Z.to_nat (r_d p)) (fun j =>
    noise_sample (H (query_input (hq_noise i r j (stream_bytes T (seed_at p n second r i j) (Z.to_nat (r_kappa p / 8)))))) u x)) mod q.
Proof.
  cbv zeta. intros Hr Hx. unfold noise, noise_vec, coef. rewrite (nth_map_seq _ _ _ [] Hr). unfold noise_poly. rewrite (nth_map_seq _ 512 _ 0 Hx). f_equal.
  unfold noise_coef. apply Zsum_ext. intros i Hi. apply Zsum_ext. intros j Hj. unfold noise_stream. cbn [query_input].
  set (k := Z.to_nat (r_k p)) in *. set (l := Z.to_nat (r_l p)) in *. unfold row_bytes, seed_at.
  fold k. fold l. set (rep := Z.to_nat (r_rep p)). set (d := Z.to_nat (r_d p)). set (kb := Z.to_nat (r_kappa p / 8)).
  assert (E : ((if second then n * ((l + k) * (rep * d * kb)) + l * (rep * d * kb) else n * ((l + k) * (rep * d * kb))) + r * (rep * d * kb) + (i * d + j) * kb =
    ((n * (l + k) + (if second then l + r else r)) * (rep * d) + (i * d + j)) * kb)%nat) by (destruct second; ring).
  unfold l at 2 in E. cbv zeta. rewrite <- E. reflexivity.
Qed.
