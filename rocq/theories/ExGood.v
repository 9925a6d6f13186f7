(* A second concrete instance of the external code, used only by the non-vacuity examples: its
   streams depend on the domain separation byte, and every window contains acceptable values. *)
From Coq Require Import ZArith Lia Bool List Arith.
From Coq Require Import ZifyBool ZifyNat.
From Verif Require Import ModelBase ModelU128 ModelField ModelUtils ModelPoly ModelVec ModelSerial ModelScheme.
From Verif Require Import Spec SpecScheme.
From Verif Require Import ArithLemmas FieldProofs Words SampleProofs ExOracle FinProofs.
Import ListNotations.
Open Scope Z_scope.
Ltac Zify.zify_post_hook ::= idtac.

(* 'A' and 'u' streams are zero, the 'c' stream counts in 16-bit words, all other streams depend on
   the length of the message *)
Definition ex_val (m : list Z) (i : nat) : Z :=
  let h := hd 0 m in
  if (h =? 65) || (h =? 117) then 0
  else if h =? 99 then Z.of_nat (i / 2) mod 128
  else (Z.of_nat (length m) + Z.of_nat i) mod 128.
Definition ex_G : oracles := {|
  shake256 := fun m i => ex_byte (ex_val m i);
  ascon_permute := fun _ st => Ascon ((a0 st + 1) mod 2 ^ 40) (a1 st) (a2 st) (a3 st) (a4 st);
  ascon80pq_iv := 0
|}.
Lemma ex_val_range m i : 0 <= ex_val m i < 128.
Proof.
  unfold ex_val. destruct (_ || _); [lia|]. destruct (_ =? _); apply Z.mod_pos_bound; reflexivity.
Qed.
Lemma exG_hash m i : hash_of ex_G m i = ex_val m i.
Proof. unfold hash_of, ex_G, shake256. rewrite ex_byte_val. apply Z.mod_small. pose proof (ex_val_range m i). lia. Qed.
Lemma exG_good_hash fuel : (512 <= fuel)%nat -> good_hash ex_G fuel.
Proof.
  intros H m. unfold accepted49. rewrite filter_all; [rewrite map_length, seq_length; exact H|].
  intros x Hx. apply in_map_iff in Hx. destruct Hx as (t & <- & _). apply Z.ltb_lt, small_bytes_candidate.
  intros i. rewrite exG_hash. apply ex_val_range.
Qed.
Lemma exG_iter t : a0 (Nat.iter t (ascon_permute ex_G 6) ascon_zero) = Z.of_nat t mod 2 ^ 40.
Proof.
  induction t as [|t IH]; [reflexivity|]. cbn [Nat.iter nat_rect]. unfold Nat.iter in IH.
  change (a0 (ascon_permute ex_G 6 ?s)) with ((a0 s + 1) mod 2 ^ 40). rewrite IH. rewrite Zplus_mod_idemp_l. f_equal. lia.
Qed.
Lemma exG_good_mask fuel d : (512 <= fuel)%nat -> good_mask ex_G fuel d.
Proof.
  intros H _ t. rewrite filter_all; [rewrite map_length, seq_length; exact H|].
  intros x Hx. apply in_map_iff in Hx. destruct Hx as (i & <- & _). apply Z.ltb_lt. unfold mask_word. rewrite exG_iter.
  pose proof (Z.mod_pos_bound (Z.of_nat i) (2 ^ 40) eq_refl) as B. rewrite Z.mod_small.
  - rewrite q_Q, Q_val. change (2 ^ 40) with 1099511627776 in B. lia.
  - change (2 ^ 40) with 1099511627776 in B. change (2 ^ 49) with 562949953421312. lia.
Qed.
Definition ex_count (i : nat) : Z := Z.of_nat (i / 2) mod 128.
Lemma exG_good_chal fuel omega : (100 <= fuel)%nat -> (omega <= 44)%nat -> good_chal ex_G fuel omega.
Proof.
  intros H Ho c.
  assert (M : forall S n m, (n <= m)%nat -> (length (distinct (map (chal_pos S) (seq 0 n))) <= length (distinct (map (chal_pos S) (seq 0 m))))%nat)
    by (intros S n m; apply (distinct_count_mono S n m)).
  eapply Nat.le_trans; [|apply (M _ 100%nat fuel H)].
  assert (E : map (chal_pos (challenge_stream (hash_of ex_G) omega c)) (seq 0 100)
            = map (chal_pos ex_count) (seq 0 100)).
  { apply map_ext. intros t. unfold chal_pos, chal_word, stream_bytes, challenge_stream.
    cbn [seq map]. rewrite !exG_hash. unfold ex_val. cbn [app hd]. reflexivity. }
  rewrite E. assert (X : (44 <= length (distinct (map (chal_pos ex_count) (seq 0 100))))%nat).
  { apply Nat.leb_le. vm_compute. reflexivity. }
  lia.
Qed.
