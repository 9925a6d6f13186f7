(* Several threads that call member functions of one shared secret key object at the same time
   (raccoon128.hpp:60-100 and the same lines of raccoon192.hpp, raccoon256.hpp; secret_key.hpp:19-57,
   101-208, 211-220; prng.hpp:35-50).

   The shared object is a memory of words, one for each coefficient and each seed byte.  A call is a
   program that reads and writes single words of the shared object and takes single words from
   std::random_device; everything else it computes in objects of its own (local variables and the
   caller's destination buffer, which no other thread uses).  A step of the machine is one such access,
   by any thread.
   Simplifications: accesses to one word are atomic and sequentially consistent (what C++ gives for
   concurrent reads, which are no data race; for writes the real program is worse: a data race is
   undefined); a call copies the words it needs in index order (the order in which the compiler copies an
   std::array is not specified); every word that the C++ code reads several times for one purpose
   (get_seed() once for each matrix entry) is read once for this purpose. *)
From Coq Require Import ZArith List Bool Arith.
From Coq.Init Require Import Byte.
From Verif Require Import ModelBase ModelField ModelUtils ModelPoly ModelVec ModelSerial ModelScheme ModelMore.
Import ListNotations.
Open Scope Z_scope.

(* words of the object: coefficient i of share [share] of row [row] of the masked vector s
   (secret_key.hpp:20), coefficient i of row [row] of the public vector t and byte i of the seed
   (public_key.hpp:20-21) *)
Inductive loc : Type := Ls (row share i : nat) | Lt (row i : nat) | Lseed (i : nat).
Definition loc_eqb (x y : loc) : bool :=
  match x, y with
  | Ls r j i, Ls r' j' i' => (r =? r')%nat && (j =? j')%nat && (i =? i')%nat
  | Lt r i, Lt r' i' => (r =? r')%nat && (i =? i')%nat
  | Lseed i, Lseed i' => (i =? i')%nat
  | _, _ => false
  end.
Definition mem : Type := loc -> Z.
Definition mem_set (m : mem) (x : loc) (v : Z) : mem := fun y => if loc_eqb y x then v else m y.
(* the memory of a key object *)
Definition key_mem (sk : skey) : mem := fun x =>
  match x with
  | Ls r j i => nth i (nth j (nth r (sk_s sk) []) []) 0
  | Lt r i => nth i (nth 0 (nth r (pk_t (sk_pkey sk)) []) []) 0
  | Lseed i => nth i (pk_seed (sk_pkey sk)) 0
  end.

(* programs *)
Inductive prog (A : Type) : Type :=
| p_ret (r : A)
| p_get (x : loc) (k : Z -> prog A)
| p_put (x : loc) (v : Z) (k : prog A)
| p_dev (k : Z -> prog A).
Arguments p_ret {A} r. Arguments p_get {A} x k. Arguments p_put {A} x v k. Arguments p_dev {A} k.
Fixpoint pbind {A B} (p : prog A) (f : A -> prog B) : prog B :=
  match p with
  | p_ret r => f r
  | p_get x k => p_get x (fun v => pbind (k v) f)
  | p_put x v k => p_put x v (pbind k f)
  | p_dev k => p_dev (fun v => pbind (k v) f)
  end.
Fixpoint pmap {A B} (f : A -> prog B) (l : list A) : prog (list B) :=
  match l with
  | [] => p_ret []
  | a :: l => pbind (f a) (fun b => pbind (pmap f l) (fun bs => p_ret (b :: bs)))
  end.
Definition get1 (x : loc) : prog Z := p_get x (fun v => p_ret v).

(* copies of the parts of the object: auto s = this->s (secret_key.hpp:104); this->pkey.get_t() (:105);
   the seed (read by pkey.to_bytes, :111, and by expandA, :129) *)
Definition copy_row (d r : nat) : prog mpoly := pmap (fun j => pmap (fun i => get1 (Ls r j i)) (seq 0 PN)) (seq 0 d).
Definition copy_s (P : params) : prog pvec := pmap (copy_row (p_d P)) (seq 0 (p_l P)).
Definition copy_t (P : params) : prog pvec :=
  pmap (fun r => pbind (pmap (fun i => get1 (Lt r i)) (seq 0 PN)) (fun p => p_ret [p])) (seq 0 (p_k P)).
Definition copy_seed (P : params) : prog (list Z) := pmap (fun i => get1 (Lseed i)) (seq 0 (Z.to_nat (p_kappa P / 8))).

(* prng.hpp:35-50: eight words of the device, stored as 32 bytes and absorbed (device_seed in ModelMore
   is the loop as it is written) *)
Definition dev1 : prog Z := p_dev (fun v => p_ret v).
Definition new_prng (shake128 : list Z -> nat -> byte) (fuel : nat) : prog (res prng) :=
  pbind (pmap (fun _ => dev1) (seq 0 8)) (fun ws => p_ret (prng_of_device shake128 fuel (fun i => nth i ws 0))).

(* what a call returns: the filled destination, a truth value, a key, nothing *)
Inductive answer : Type :=
| a_bytes (r : res (list Z))
| a_bool (r : res bool)
| a_key (pk : pkey)
| a_done (r : res unit).

(* the calls *)
Inductive call : Type :=
| call_sign (msg buf : list Z)          (* sk.sign(msg, buf), raccoon128.hpp:93-96 *)
| call_as_bytes (buf : list Z)          (* sk.as_bytes(buf), :74-78 *)
| call_get_pkey                         (* sk.get_pkey(), :90 *)
| call_verify (msg sig : list Z)        (* sk.get_pkey().verify(msg, sig), :90 and :52-55 *)
| call_refresh.                         (* sk.refresh(), :99 *)

(* secret_key.hpp:105-131 after s has been copied, then the loop 133-207, which uses only local objects *)
Definition sign_copied (O : oracles) (shake128 : list Z -> nat -> byte) (fuel : nat) (P : params) (msg buf : list Z) (s : pvec) : prog answer :=
  pbind (copy_t P) (fun t =>
  pbind (copy_seed P) (fun seed => pbind (copy_t P) (fun t2 =>
  pbind (copy_seed P) (fun seed2 =>
  pbind (new_prng shake128 fuel) (fun prng =>
  p_ret (a_bytes (
    prng <- prng ;;
    mu <- bind_msg O P (Pkey seed t2) msg ;;
    A <- expandA O fuel (p_k P) (p_l P) seed2 ;;
    sign_loop O fuel fuel P A (pv_ntt (pv_shl (p_nut P) t)) mu s prng (mrng_new O (p_d P)) buf))))))).
(* secret_key.hpp:101-208 *)
Definition prog_sign (O : oracles) (shake128 : list Z -> nat -> byte) (fuel : nat) (P : params) (msg buf : list Z) : prog answer :=
  pbind (copy_s P) (sign_copied O shake128 fuel P msg buf).
(* raccoon128.hpp:74-78, secret_key.hpp:211-220 *)
Definition prog_as_bytes (O : oracles) (shake128 : list Z -> nat -> byte) (fuel : nat) (P : params) (buf : list Z) : prog answer :=
  pbind (new_prng shake128 fuel) (fun prng =>
  pbind (copy_seed P) (fun seed => pbind (copy_t P) (fun t =>
  pbind (copy_s P) (fun s =>
  p_ret (a_bytes (
    prng <- prng ;;
    '(bytes, _) <- sk_to_bytes O fuel P (Skey (Pkey seed t) s) buf prng ;; Ok bytes)))))).
(* raccoon128.hpp:90 *)
Definition copy_pkey (P : params) : prog pkey :=
  pbind (copy_seed P) (fun seed => pbind (copy_t P) (fun t => p_ret (Pkey seed t))).
(* secret_key.hpp:53-57, poly_vec.hpp:158-163, masked_poly.hpp:242-248: for each row a local zero
   encoding z, then *this = *this + z (masked_poly.hpp:90): the sum is computed in a local object, which
   is then copied back *)
Definition put_row (r : nat) (row : mpoly) : prog (list (list unit)) :=
  pmap (fun j => pmap (fun i => p_put (Ls r j i) (nth i (nth j row []) 0) (p_ret tt)) (seq 0 PN)) (seq 0 (length row)).
Definition add_to_row (d r : nat) (z : mpoly) : prog (list (list unit)) :=
  pbind (copy_row d r) (fun row => put_row r (mp_add row z)).
Fixpoint refresh_rows (O : oracles) (fuel d : nat) (rows : list nat) (m : mrng) : prog (res unit) :=
  match rows with
  | [] => p_ret (Ok tt)
  | r :: rows =>
      match mp_zero_encoding O fuel d m with
      | Ok (z, m) => pbind (add_to_row d r z) (fun _ => refresh_rows O fuel d rows m)
      | UB => p_ret UB
      | OutOfFuel => p_ret OutOfFuel
      end
  end.
Definition prog_refresh (O : oracles) (fuel : nat) (P : params) : prog answer :=
  pbind (refresh_rows O fuel (p_d P) (seq 0 (p_l P)) (mrng_new O (p_d P))) (fun r => p_ret (a_done r)).

Definition prog_of (O : oracles) (shake128 : list Z -> nat -> byte) (fuel : nat) (P : params) (c : call) : prog answer :=
  match c with
  | call_sign msg buf => prog_sign O shake128 fuel P msg buf
  | call_as_bytes buf => prog_as_bytes O shake128 fuel P buf
  | call_get_pkey => pbind (copy_pkey P) (fun pk => p_ret (a_key pk))
  | call_verify msg sig => pbind (copy_pkey P) (fun pk => p_ret (a_bool (verify O fuel P pk msg sig)))
  | call_refresh => prog_refresh O fuel P
  end.

(* the machine: the shared memory, the number of words taken from the device so far, and for each thread
   what is left of its program and the numbers of the device words it has got *)
Record thread : Type := Thread { th_prog : prog answer; th_got : list nat }.
Record machine : Type := Machine { mc_mem : mem; mc_next : nat; mc_threads : list thread }.

Fixpoint set_thread (l : list thread) (i : nat) (t : thread) : list thread :=
  match l, i with
  | [], _ => []
  | _ :: l, O => t :: l
  | x :: l, S i => x :: set_thread l i t
  end.
(* one access by thread i; a thread that has finished does nothing *)
Definition mc_step (dev : nat -> Z) (c : machine) (i : nat) : machine :=
  match nth_error (mc_threads c) i with
  | None => c
  | Some th =>
      match th_prog th with
      | p_ret _ => c
      | p_get x k => Machine (mc_mem c) (mc_next c) (set_thread (mc_threads c) i (Thread (k (mc_mem c x)) (th_got th)))
      | p_put x v k => Machine (mem_set (mc_mem c) x v) (mc_next c) (set_thread (mc_threads c) i (Thread k (th_got th)))
      | p_dev k => Machine (mc_mem c) (S (mc_next c)) (set_thread (mc_threads c) i (Thread (k (dev (mc_next c))) (th_got th ++ [mc_next c])))
      end
  end.
Definition mc_run (dev : nat -> Z) (c : machine) (sched : list nat) : machine := fold_left (mc_step dev) sched c.
Definition mc_start (O : oracles) (shake128 : list Z -> nat -> byte) (fuel : nat) (P : params) (sk : skey) (calls : list call) : machine :=
  Machine (key_mem sk) 0 (map (fun c => Thread (prog_of O shake128 fuel P c) []) calls).
(* the value returned by a thread that has finished *)
Definition mc_answer (th : thread) : option answer := match th_prog th with p_ret r => Some r | _ => None end.
