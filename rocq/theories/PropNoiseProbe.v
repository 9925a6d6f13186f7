(* Property theorems about what an observer of values inside add_rep_noise learns. *)
From Coq Require Import ZArith List Bool Lia.
From Verif Require Import ModelBase ModelU128 ModelField ModelUtils ModelPoly ModelVec ModelSerial ModelScheme.
From Verif Require Import Spec SpecScheme SpecMask SpecProbe SpecNoiseProbe.
From Verif Require Import Words FieldProofs ArithLemmas BytesProofs PolyProofs Cong MaskedProofs PolyLemmas SampleProofs MaskUniform MaskProg ProbeProofs ProbeProg NoiseProbe NoiseFull NoiseRun ExGood FinProofs.
Import ListNotations.
Open Scope Z_scope.

(* C64, the program: after n repetitions of add_rep_noise on a sharing with 2^e shares the shares are those of
   SpecNoiseProbe.v, the noise of repetition i is noise_family, the masks are the ones drawn; nothing else is
   held in the shares in between (the share loop adds one noise polynomial to each share). *)
Theorem C64_noise_values : forall O fuel u kappa e row a tp pos m, 1 <= u <= 48 -> (2 ^ e <= 256)%nat -> (row < 256)%nat -> masked (2 ^ e) a ->
  let kb := kbytes kappa in let us := noise_family (hash_of O) (tape_of tp) u kb (2 ^ e) row pos in
  (forall rep a' p' m', (rep <= 256)%nat -> mp_add_rep_noise O fuel u rep kappa (2 ^ e) row a (Prng tp pos) m = Ok (a', p', m') ->
  exists (rss : nat -> list (list Z)) (ms : nat -> mrng), ms 0%nat = m /\
  (forall i, (i < rep)%nat -> mask_tuple e (rss i) /\ drawn O fuel (2 ^ e) (mask_pairs e) (ms i) (rss i) (ms (S i))) /\
  forall n, (n <= rep)%nat -> mp_add_rep_noise O fuel u n kappa (2 ^ e) row a (Prng tp pos) m = Ok (noise_state e a us rss n, Prng tp (pos + n * 2 ^ e * kb), ms n)) /\
  (forall i b, (i < 256)%nat -> masked (2 ^ e) b ->
     fold_left (noise_share O u kappa row i) (seq 0 (2 ^ e)) (b, Prng tp (pos + i * 2 ^ e * kb)) = (tuple_add b (us i), Prng tp (pos + (S i) * 2 ^ e * kb))).
Proof.
  intros O fuel u kappa e row a tp pos m Hu Hd Hrow Ha kb us. split; [exact (noise_run O fuel u kappa e row a tp pos m Hu Hd Hrow Ha)|].
  intros i b Hi Hb. exact (noise_shares_exact O u kappa (2 ^ e) row i b tp pos Hu Hd Hrow Hi Hb).
Qed.
Print Assumptions C64_noise_values.

(* C64: an observer of the values W inside rep repetitions and of the output shares Oq, fewer than 2^e
   together, learns at most as many of the rep * 2^e noise polynomials as there are values in W (the set U) and
   at most that many input shares (the set K): every change of the others is compensated by a change delta of
   the masks, the same for all inputs, noise and masks, that leaves all observed values as they are.  So the
   view does not depend on the other noise polynomials, and the translations of masks are permutations. *)
Theorem C64_noise_probing : forall e rep (W : list nwire) (Oq : list nat), (0 < rep)%nat ->
  Forall (nwire_ok e rep) W -> Forall (fun k => (k < 2 ^ e)%nat) Oq -> (length W + length Oq < 2 ^ e)%nat ->
  exists (U : list (nat * nat)) (K : list nat), (length U <= length W)%nat /\ (length K <= length W)%nat /\
  forall vx v, masked (2 ^ e) vx -> (forall i, (i < rep)%nat -> masked (2 ^ e) (v i)) ->
    (forall k, In k K -> nth k vx [] = ring_zero) -> (forall i k, In (i, k) U -> nth k (v i) [] = ring_zero) ->
  exists delta : nat -> list (list Z), (forall i, (i < rep)%nat -> mask_tuple e (delta i)) /\
  (forall i ss, (i < rep)%nat -> mask_tuple e ss -> exists! rs, mask_tuple e rs /\ tuple_add rs (delta i) = ss) /\
  forall x us rss, masked (2 ^ e) x -> (forall i, (i < rep)%nat -> masked (2 ^ e) (us i)) -> (forall i, (i < rep)%nat -> mask_tuple e (rss i)) ->
    (forall w, In w W -> nwire_value e x us rss w = nwire_value e (tuple_add x vx) (family_add us v) (family_add rss delta) w) /\
    (forall k, In k Oq -> nth k (noise_state e x us rss rep) [] = nth k (noise_state e (tuple_add x vx) (family_add us v) (family_add rss delta) rep) []).
Proof.
  intros e rep W Oq Hr FW FO HL. destruct (noise_probe e rep W Oq FW FO HL) as (U & K & LU & LK & _ & _ & H). exists U, K. split; [exact LU|].
  split; [destruct rep; [lia|]; rewrite Nat.add_0_r in LK; exact LK|]. intros vx v Mx Mv Zk Zu. destruct (H vx v Mx Mv Zk Zu) as (delta & Md & HD).
  exists delta. split; [exact Md|]. split; [|exact HD]. intros i ss Hi Hs. apply tuple_add_perm; [apply Md; exact Hi|exact Hs].
Qed.
Print Assumptions C64_noise_probing.

(* four shares, two repetitions, three values: a noise polynomial, a share between the repetitions, an inner sum *)
Example C64_nonvacuous :
  let W := [nw_noise 0 1; nw_share 1 2; nw_refresh 1 (wire_acc 3 0)] in
  Forall (nwire_ok 2 2) W /\ (length W + length (@nil nat) < 2 ^ 2)%nat /\
  (* the share between the repetitions really contains noise 2 of repetition 0 *)
  let us := fun i => map (fun k => repeat (Z.of_nat (10 * i + k)) 512) (seq 5 4) in let rss := fun _ : nat => repeat ring_zero 4 in
  let x := repeat ring_zero 4 in
  masked (2 ^ 2) (us 0%nat) /\ mask_tuple 2 (rss 0%nat) /\ coef (nwire_value 2 x us rss (nw_share 1 2)) 7 = 7.
Proof.
  assert (R : forall z, 0 <= z < 100 -> is_poly (repeat z 512)).
  { intros z Hz. split; [apply repeat_length|]. apply Forall_forall. intros y Hy. apply repeat_spec in Hy. subst y. unfold reduced. rewrite q_Q, Q_val. lia. }
  assert (Z0 : is_poly ring_zero) by apply ring_zero_poly.
  intros W. split.
  { constructor; [split; apply Nat.ltb_lt; reflexivity|]. constructor; [split; apply Nat.ltb_lt; reflexivity|]. constructor; [|constructor].
    split; [apply Nat.ltb_lt; reflexivity|]. split; [apply Nat.leb_le; reflexivity|apply Nat.ltb_lt; reflexivity]. }
  split; [apply Nat.ltb_lt; reflexivity|]. intros us rss x. split; [|split].
  - split; [reflexivity|]. repeat (apply Forall_cons; [apply R; split; [apply Z.leb_le|apply Z.ltb_lt]; reflexivity|]). apply Forall_nil.
  - split; [reflexivity|]. repeat (apply Forall_cons; [exact Z0|]). apply Forall_nil.
  - vm_compute. reflexivity.
Qed.
