(* Leakage model: the routines that handle secrets, once more, written against an abstract machine
   whose every operation records an event.  The word type W is a parameter: code in this file can
   compute with words, branch on a word or turn a word into an array index only through the operations
   of the machine, and each of them appends to the trace what an observer of control flow and addresses
   sees.  Loop counters, array sizes, share and row indices and shift distances are ordinary Coq
   values: they cannot depend on words except through [m_branch] and [m_index], which leak.
   Not modelled: the time an individual machine instruction takes, the compiler, caches beyond
   addresses.  128-bit words: portable branch of u128.hpp/u64.hpp. *)
From Verif Require Import ModelBase ModelU128 ModelField ModelUtils ModelPoly ModelVec ModelSerial.
Open Scope Z_scope.

Inductive prim : Type := Add | Sub | Mul | And | Or | Less | Equal.
Inductive event : Type :=
| Op (o : prim) | OpNeg | OpNot | OpShl (n : Z) | OpShr (n : Z)
| Branch (b : bool)                      (* a conditional jump and its direction *)
| Address (i : nat)                      (* an array index computed from data *)
| Load (i : nat) | Store (i : nat)
| CtEq | CtGe                            (* subtle::ct_eq, subtle::ct_ge *)
| Squeeze (absorbed from n : nat)        (* SHAKE256: lengths only *)
| ReadPrng (n : nat) | GetMrng (i : nat).

(* value (or undefined / not finished) and trace *)
Definition lk (A : Type) : Type := (res A * list event)%type.
Definition lret {A} (a : A) : lk A := (Ok a, []).
Definition lbind {A B} (m : lk A) (f : A -> lk B) : lk B :=
  match fst m with
  | Ok a => (fst (f a), snd m ++ snd (f a))
  | UB => (UB, snd m)
  | OutOfFuel => (OutOfFuel, snd m)
  end.
Notation "x <<- m ;; k" := (lbind m (fun x => k)) (at level 61, m at next level, right associativity).
Notation "' p <<- m ;; k" := (lbind m (fun x => match x with p => k end))
  (at level 61, p pattern, m at next level, right associativity).
(* for (i : l) s = body(i, s) *)
Fixpoint for_ {I S} (l : list I) (body : I -> S -> lk S) (s : S) : lk S :=
  match l with
  | [] => lret s
  | i :: l' => s <<- body i s ;; for_ l' body s
  end.

(* W: words, G: masked generator, P: system generator *)
Record machine (W G P : Type) : Type := {
  m_lit : Z -> W;
  m_op : prim -> W -> W -> lk W;
  m_neg : W -> lk W;
  m_not : W -> lk W;
  m_shl : W -> Z -> lk W;
  m_shr : W -> Z -> lk W;
  m_branch : W -> lk bool;
  m_index : W -> lk nat;
  m_ct_eq : W -> W -> lk W;
  m_ct_ge : W -> W -> lk W;
  m_squeeze : list W -> nat -> nat -> lk (list W);
  m_read : P -> nat -> lk (list W * P);
  m_get : nat -> nat -> G -> lk (W * G)
}.
Arguments m_lit {W G P}. Arguments m_op {W G P}. Arguments m_neg {W G P}. Arguments m_not {W G P}.
Arguments m_shl {W G P}. Arguments m_shr {W G P}. Arguments m_branch {W G P}. Arguments m_index {W G P}.
Arguments m_ct_eq {W G P}. Arguments m_ct_ge {W G P}. Arguments m_squeeze {W G P}. Arguments m_read {W G P}.
Arguments m_get {W G P}.

(* the machine of the model: 64-bit words, generators of ModelUtils.v *)
Definition zm (O : oracles) : machine Z mrng prng := {|
  m_lit := fun z => z;
  m_op := fun o a b => (Ok (match o with
                            | Add => add64 a b | Sub => sub64 a b | Mul => mul64 a b
                            | And => Z.land a b | Or => Z.lor a b
                            | Less => b2z (a <? b) | Equal => b2z (a =? b)
                            end), [Op o]);
  m_neg := fun a => (Ok (neg64 a), [OpNeg]);
  m_not := fun a => (Ok (not64 a), [OpNot]);
  m_shl := fun a n => (Ok (shl64 a n), [OpShl n]);
  m_shr := fun a n => (Ok (shr64 a n), [OpShr n]);
  m_branch := fun a => (Ok (negb (a =? 0)), [Branch (negb (a =? 0))]);
  m_index := fun a => (Ok (Z.to_nat a), [Address (Z.to_nat a)]);
  m_ct_eq := fun a b => (Ok (ct_eq32 a b), [CtEq]);
  m_ct_ge := fun a b => (Ok (ct_ge64 a b), [CtGe]);
  m_squeeze := fun m from n => (Ok (map (fun i => byteZ (shake256 O m i)) (seq from n)), [Squeeze (length m) from n]);
  m_read := fun p n => (Ok (prng_read p n), [ReadPrng n]);
  m_get := fun d i g => (Ok (mrng_get O d i g), [GetMrng i])
|}.

Section Code.
  Context {W G P : Type}.
  Variable M : machine W G P.
  Notation lit := (m_lit M).
  Notation op := (m_op M).
  (* a[i] and a[i] = v at an index that is not data *)
  Definition ld (l : list W) (i : nat) : lk W := (Ok (nth i l (lit 0)), [Load i]).
  Definition st (l : list W) (i : nat) (v : W) : lk (list W) := (Ok (upd i v l), [Store i]).

  (* utils.hpp:82-91 *)
  Definition ct_eq_byte_array_l (a b : list W) : lk W :=
    for_ (seq 0 (length a)) (fun i r =>
      x <<- ld a i ;; y <<- ld b i ;; e <<- m_ct_eq M x y ;; op And r e) (lit 4294967295).
  (* utils.hpp:17-30 *)
  Definition from_le_bytes_l (sz : nat) (b : list W) : lk W :=
    for_ (seq 0 (Nat.min sz (length b))) (fun i r =>
      x <<- ld b i ;; s <<- m_shl M x (8 * Z.of_nat i) ;; op Or r s) (lit 0).

  (* u64.hpp:36-58 *)
  Definition mul_full_l (lhs rhs : W) : lk (W * W) :=
    lhs_hi32 <<- m_shr M lhs 32 ;;
    lhs_lo32 <<- op And lhs (lit MASK32) ;;
    rhs_hi32 <<- m_shr M rhs 32 ;;
    rhs_lo32 <<- op And rhs (lit MASK32) ;;
    hi <<- op Mul lhs_hi32 rhs_hi32 ;;
    lo <<- op Mul lhs_lo32 rhs_lo32 ;;
    loxhi <<- op Mul lhs_lo32 rhs_hi32 ;;
    hixlo <<- op Mul lhs_hi32 rhs_lo32 ;;
    loxhi_hi32 <<- m_shr M loxhi 32 ;;
    loxhi_lo32 <<- op And loxhi (lit MASK32) ;;
    hixlo_hi32 <<- m_shr M hixlo 32 ;;
    hixlo_lo32 <<- op And hixlo (lit MASK32) ;;
    lo_hi32 <<- m_shr M lo 32 ;;
    s1 <<- op Add lo_hi32 loxhi_lo32 ;;
    s2 <<- op Add s1 hixlo_lo32 ;;
    carry <<- m_shr M s2 32 ;;
    h1 <<- op Add hi loxhi_hi32 ;;
    h2 <<- op Add h1 hixlo_hi32 ;;
    res_hi <<- op Add h2 carry ;;
    l1 <<- m_shl M loxhi_lo32 32 ;;
    l2 <<- op Add lo l1 ;;
    l3 <<- m_shl M hixlo_lo32 32 ;;
    res_lo <<- op Add l2 l3 ;;
    lret (res_hi, res_lo).
  (* u128.hpp: pairs (hi, lo) *)
  (* u128.hpp:141-157 *)
  Definition u128_add_l (a b : W * W) : lk (W * W) :=
    let '(ah, al) := a in let '(bh, bl) := b in
    lo <<- op Add al bl ;;
    tmp <<- op Sub (lit (two64 - 1)) bl ;;
    carry <<- op Less tmp al ;;
    h1 <<- op Add ah bh ;;
    hi <<- op Add h1 carry ;;
    lret (hi, lo).
  (* u128.hpp:163-174 *)
  Definition u128_neg_l (a : W * W) : lk (W * W) :=
    let '(ah, al) := a in
    lo <<- m_neg M al ;;
    borrow <<- op Less (lit 0) al ;;
    h1 <<- op Add ah borrow ;;
    hi <<- m_neg M h1 ;;
    lret (hi, lo).
  (* u128.hpp:177 *)
  Definition u128_sub_l (a b : W * W) : lk (W * W) := n <<- u128_neg_l b ;; u128_add_l a n.
  (* u128.hpp:183-195 *)
  Definition u128_mul_l (a b : W * W) : lk (W * W) :=
    let '(ah, al) := a in let '(bh, bl) := b in
    '(ph, pl) <<- mul_full_l al bl ;;
    x <<- op Mul al bh ;;
    y <<- op Mul ah bl ;;
    xy <<- op Add x y ;;
    hi <<- op Add xy ph ;;
    lret (hi, pl).
  (* u128.hpp:221-246, 252-279: the distance is a compile-time constant at every call *)
  Definition u128_shl_l (a : W * W) (n : Z) : lk (W * W) :=
    let '(ah, al) := a in
    if n =? 0 then lret (ah, al)
    else if n =? 128 then lret (lit 0, lit 0)
    else if n <? 64 then
      mv <<- m_shr M al (64 - n) ;;
      h <<- m_shl M ah n ;;
      hi <<- op Or h mv ;;
      lo <<- m_shl M al n ;;
      lret (hi, lo)
    else if n =? 64 then lret (al, lit 0)
    else h <<- m_shl M al (n - 64) ;; lret (h, lit 0).
  Definition u128_shr_l (a : W * W) (n : Z) : lk (W * W) :=
    let '(ah, al) := a in
    if n =? 0 then lret (ah, al)
    else if n =? 128 then lret (lit 0, lit 0)
    else if n <? 64 then
      mv <<- op And ah (lit (sub64 (shl64 1 n) 1)) ;;
      hi <<- m_shr M ah n ;;
      l <<- m_shr M al n ;;
      m <<- m_shl M mv (64 - n) ;;
      lo <<- op Or l m ;;
      lret (hi, lo)
    else if n =? 64 then lret (lit 0, ah)
    else l <<- m_shr M ah (n - 64) ;; lret (lit 0, l).
  (* u128.hpp:326-333, 339-346 *)
  Definition u128_or_l (a b : W * W) : lk (W * W) :=
    let '(ah, al) := a in let '(bh, bl) := b in
    h <<- op Or ah bh ;; l <<- op Or al bl ;; lret (h, l).
  Definition u128_and_l (a b : W * W) : lk (W * W) :=
    let '(ah, al) := a in let '(bh, bl) := b in
    h <<- op And ah bh ;; l <<- op And al bl ;; lret (h, l).

  (* field.hpp:38-46; poly.hpp:106-115 with modulus q *)
  Definition reduce_once_mod_l (q : Z) (v : W) : lk W :=
    t <<- op Sub v (lit q) ;;
    s <<- m_shr M t 63 ;;
    mask <<- m_neg M s ;;
    qm <<- op And (lit q) mask ;;
    op Add t qm.
  (* field.hpp:54-86 *)
  Definition barrett_reduce_l (v : W * W) : lk W :=
    op0_hi <<- u128_shr_l v 64 ;;
    op0_lo <<- u128_and_l v (lit 0, lit (two64 - 1)) ;;
    hi <<- u128_mul_l op0_hi (lit 0, lit 0) ;;
    m1 <<- u128_mul_l op0_hi (lit 0, lit R) ;;
    m2 <<- u128_mul_l (lit 0, lit 0) op0_lo ;;
    mid <<- u128_add_l m1 m2 ;;
    lo <<- u128_mul_l op0_lo (lit 0, lit R) ;;
    mid_hi <<- u128_shr_l mid 64 ;;
    mid_lo <<- u128_and_l mid (lit 0, lit (two64 - 1)) ;;
    t0 <<- u128_shr_l lo 64 ;;
    t1 <<- u128_add_l t0 mid_lo ;;
    carry <<- u128_shr_l t1 64 ;;
    r1 <<- u128_add_l hi mid_hi ;;
    res_hi <<- u128_add_l r1 carry ;;
    sh <<- u128_shl_l mid_lo 64 ;;
    res_lo <<- u128_add_l lo sh ;;
    a1 <<- u128_and_l res_hi (lit 0, lit 1048575) ;;
    a2 <<- u128_shl_l a1 30 ;;
    a3 <<- u128_shr_l res_lo (2 * Q_BIT_WIDTH) ;;
    res <<- u128_or_l a2 a3 ;;
    t2 <<- u128_mul_l res (lit 0, lit Q) ;;
    t3 <<- u128_sub_l v t2 ;;
    reduce_once_mod_l Q (snd t3).
  (* field.hpp:125, 129-130, 134, 142 *)
  Definition zq_add_l (a b : W) : lk W := s <<- op Add a b ;; reduce_once_mod_l Q s.
  Definition zq_sub_l (a b : W) : lk W := n <<- op Sub (lit Q) b ;; zq_add_l a n.
  Definition zq_mul_l (a b : W) : lk W := p <<- u128_mul_l (lit 0, a) (lit 0, b) ;; barrett_reduce_l p.
  Definition zq_shl_l (off : Z) (a : W) : lk W := s <<- m_shl M a off ;; barrett_reduce_l (lit 0, s).

  (* poly.hpp: for (i = 0; i < N; i++) res[i] = f(a[i], b[i]) into a fresh array *)
  Definition each2 (f : W -> W -> lk W) (a b : list W) : lk (list W) :=
    for_ (seq 0 PN) (fun i r => x <<- ld a i ;; y <<- ld b i ;; z <<- f x y ;; st r i z) (repeat (lit 0) PN).
  Definition each1 (f : W -> lk W) (a : list W) : lk (list W) :=
    for_ (seq 0 PN) (fun i r => x <<- ld a i ;; z <<- f x ;; st r i z) (repeat (lit 0) PN).
  (* in place: a[i] = f(a[i]) *)
  Definition each_here (f : W -> lk W) (a : list W) : lk (list W) :=
    for_ (seq 0 PN) (fun i r => x <<- ld r i ;; z <<- f x ;; st r i z) a.
  (* poly.hpp:132-147, 171-186, 208-223, 152-168, 191-205, 243-256, 226-240 *)
  Definition poly_add_l := each2 zq_add_l.
  Definition poly_sub_l := each2 zq_sub_l.
  Definition poly_mul_l := each2 zq_mul_l.
  Definition poly_add_mod_l (q : Z) := each2 (fun x y => s <<- op Add x y ;; reduce_once_mod_l q s).
  Definition poly_sub_mod_l (q : Z) :=
    each2 (fun x y => n <<- op Sub (lit q) y ;; s <<- op Add x n ;; reduce_once_mod_l q s).
  Definition poly_shl_l (off : Z) := each1 (zq_shl_l off).
  Definition poly_rounding_shr_l (off : Z) :=
    each_here (fun x => r <<- op Add x (lit (shl64 1 (off - 1))) ;; s <<- m_shr M r off ;;
                        reduce_once_mod_l (shr64 Q off) s).
  (* poly.hpp:259-267; the boolean is the word 0 or 1 *)
  Definition poly_eqb_l (a b : list W) : lk W :=
    for_ (seq 0 PN) (fun i r => x <<- ld a i ;; y <<- ld b i ;; e <<- op Equal x y ;; op And r e) (lit 1).

  (* poly.hpp:320-346 *)
  Definition ntt_butterfly_l (z : W) (len : nat) (i : nat) (p : list W) : lk (list W) :=
    x <<- ld p (i + len) ;;
    tmp <<- zq_mul_l z x ;;
    y <<- ld p i ;;
    d <<- zq_sub_l y tmp ;;
    p <<- st p (i + len) d ;;
    y <<- ld p i ;;
    s <<- zq_add_l y tmp ;;
    st p i s.
  Definition ntt_layer_l (l : nat) (p : list W) : lk (list W) :=
    let len := (2 ^ l)%nat in
    for_ (range_step PN (len * 2)) (fun start p =>
      z <<- ld (map lit powers_of_zeta) (PN / 2 ^ (l + 1) + start / 2 ^ (l + 1)) ;;
      for_ (seq start len) (ntt_butterfly_l z len) p) p.
  Definition ntt_l (p : list W) : lk (list W) := for_ (rev (seq 0 LOG2N)) ntt_layer_l p.
  (* poly.hpp:352-388 *)
  Definition intt_butterfly_l (nz : W) (len : nat) (i : nat) (p : list W) : lk (list W) :=
    tmp <<- ld p i ;;
    x <<- ld p i ;;
    y <<- ld p (i + len) ;;
    s <<- zq_add_l x y ;;
    p <<- st p i s ;;
    y <<- ld p (i + len) ;;
    d <<- zq_sub_l tmp y ;;
    p <<- st p (i + len) d ;;
    y <<- ld p (i + len) ;;
    m <<- zq_mul_l y nz ;;
    st p (i + len) m.
  Definition intt_layer_l (l : nat) (p : list W) : lk (list W) :=
    let len := (2 ^ l)%nat in
    for_ (range_step PN (len * 2)) (fun start p =>
      nz <<- ld (map lit neg_powers_of_zeta) (PN / 2 ^ l - 1 - start / 2 ^ (l + 1)) ;;
      for_ (seq start len) (intt_butterfly_l nz len) p) p.
  Definition intt_l (p : list W) : lk (list W) :=
    p <<- for_ (seq 0 LOG2N) intt_layer_l p ;;
    each_here (fun x => zq_mul_l x (lit INV_N)) p.

  (* one loop over the shares of a masked polynomial or over the rows of a vector; shares and rows are
     accessed at loop counters only *)
  Definition rows1 {A B} (dflt : A) (n : nat) (f : A -> lk B) (a : list A) : lk (list B) :=
    for_ (seq 0 n) (fun i r => s <<- f (nth i a dflt) ;; lret (r ++ [s])) [].
  Definition rows2 {A B C} (da : A) (db : B) (n : nat) (f : A -> B -> lk C) (a : list A) (b : list B) : lk (list C) :=
    for_ (seq 0 n) (fun i r => s <<- f (nth i a da) (nth i b db) ;; lret (r ++ [s])) [].
  Definition shares1 (d : nat) (f : list W -> lk (list W)) : list (list W) -> lk (list (list W)) := rows1 [] d f.
  Definition shares2 (d : nat) (f : list W -> list W -> lk (list W)) : list (list W) -> list (list W) -> lk (list (list W)) :=
    rows2 [] [] d f.
  (* masked_poly.hpp:79-88, 107-116, 147-153, 168-176, 179-192 *)
  Definition mp_add_l (d : nat) := shares2 d poly_add_l.
  Definition mp_sub_l (d : nat) := shares2 d poly_sub_l.
  Definition mp_shl_l (d : nat) (off : Z) := shares1 d (poly_shl_l off).
  Definition mp_rounding_shr_l (d : nat) (off : Z) := shares1 d (poly_rounding_shr_l off).
  Definition mp_ntt_l (d : nat) := shares1 d ntt_l.
  Definition mp_intt_l (d : nat) := shares1 d intt_l.
  (* poly_vec.hpp:80-91: every share times a public polynomial (one row) *)
  Definition mp_mul_poly_l (d : nat) (c : list W) := shares1 d (fun s => poly_mul_l s c).
  (* masked_poly.hpp:135-144 *)
  Definition mp_eqb_l (d : nat) (a b : list (list W)) : lk W :=
    for_ (seq 0 d) (fun i r => e <<- poly_eqb_l (nth i a []) (nth i b []) ;; op And r e) (lit 1).
  (* masked_poly.hpp:253-262 *)
  Definition mp_decode_l (d : nat) (a : list (list W)) : lk (list W) :=
    for_ (seq 0 d) (fun i acc => poly_add_l acc (nth i a [])) (repeat (lit 0) PN).

  (* poly.hpp:438-462: rejection sampling; the comparison with Q decides a branch *)
  Fixpoint sample_polynomial_loop_l (fuel : nat) (d idx : nat) (g : G) (acc : list W) : lk (list W * G) :=
    if (PN <=? length acc)%nat then lret (acc, g)
    else match fuel with
    | O => (OutOfFuel, [])
    | S f =>
        '(v, g) <<- m_get M d idx g ;;
        coeff <<- op And v (lit MASK49) ;;
        lt <<- op Less coeff (lit Q) ;;
        ok <<- m_branch M lt ;;
        if (ok : bool) then sample_polynomial_loop_l f d idx g (acc ++ [coeff])
        else sample_polynomial_loop_l f d idx g acc
    end.
  Definition sample_polynomial_l (fuel d idx : nat) (g : G) : lk (list W * G) :=
    if (d - 1 <=? idx)%nat then lret (repeat (lit 0) PN, g) else sample_polynomial_loop_l fuel d idx g [].
  (* masked_poly.hpp:211-237 *)
  Definition zenc_step_l (fuel d off : nat) (sidx : nat) (s : list (list W) * G) : lk (list (list W) * G) :=
    let '(mp, g) := s in
    '(r, g) <<- sample_polynomial_l fuel d sidx g ;;
    if (sidx + off <? length mp)%nat then
      x <<- poly_add_l (nth sidx mp []) r ;;
      let mp := upd sidx x mp in
      y <<- poly_sub_l (nth (sidx + off) mp []) r ;;
      lret (upd (sidx + off) y mp, g)
    else (UB, []).
  Fixpoint zenc_while_l (fuel n d d_idx : nat) (s : list (list W) * G) : lk (list (list W) * G) :=
    if (d <=? d_idx)%nat then lret s
    else match n with
    | O => (OutOfFuel, [])
    | S n' =>
        s <<- for_ (range_step d (2 * d_idx)) (fun i s => for_ (seq i d_idx) (zenc_step_l fuel d d_idx) s) s ;;
        zenc_while_l fuel n' d (2 * d_idx) s
    end.
  Definition mp_zero_encoding_l (fuel d : nat) (g : G) : lk (list (list W) * G) :=
    let mp := repeat (repeat (lit 0) PN) d in
    if (1 <? d)%nat then
      s <<- for_ (range_step d 2) (zenc_step_l fuel d 1) (mp, g) ;;
      zenc_while_l fuel d d 2 s
    else lret (mp, g).
  (* masked_poly.hpp:242-248 *)
  Definition mp_refresh_l (fuel d : nat) (a : list (list W)) (g : G) : lk (list (list W) * G) :=
    '(z, g) <<- mp_zero_encoding_l fuel d g ;;
    s <<- mp_add_l d a z ;;
    lret (s, g).

  (* masked_poly.hpp:17-57; signed values as words: lsb - msb *)
  Definition sampleU_l (u : Z) (hdr sigma : list W) : lk (list W) :=
    let per := Z.to_nat ((u + 7) / 8) in
    b <<- m_squeeze M (hdr ++ sigma) 0 (per * PN) ;;
    for_ (seq 0 PN) (fun i r =>
      w <<- from_le_bytes_l 8 (firstn per (skipn (i * per) b)) ;;
      msb <<- op And w (lit (shl64 1 (u - 1))) ;;
      lsb <<- op And w (lit (shl64 1 (u - 1) - 1)) ;;
      f <<- op Sub lsb msb ;;
      st r i f) (repeat (lit 0) PN).
  (* masked_poly.hpp:281-288 *)
  Definition noise_coeff_l (raw f : W) : lk W :=
    coeff <<- op Add raw f ;;
    s <<- m_shr M coeff 63 ;;
    is_lt_zero <<- m_neg M s ;;
    n <<- m_not M is_lt_zero ;;
    a <<- op And coeff n ;;
    is_ge_q <<- m_ct_ge M a (lit Q) ;;
    x <<- op And (lit Q) is_lt_zero ;;
    y <<- op Add x coeff ;;
    z <<- op And (lit Q) is_ge_q ;;
    op Sub y z.
  (* masked_poly.hpp:274-290 *)
  Definition noise_share_l (u kappa : Z) (idx i_rep : nat) (sidx : nat) (s : list (list W) * P)
    : lk (list (list W) * P) :=
    let '(mp, p) := s in
    '(sigma, p) <<- m_read M p (kbytes kappa) ;;
    f <<- sampleU_l u (map lit [117; Z.of_nat i_rep mod 256; Z.of_nat idx mod 256; Z.of_nat sidx mod 256; 0; 0; 0; 0]) sigma ;;
    x <<- for_ (seq 0 PN) (fun i r => x <<- ld r i ;; y <<- ld f i ;; z <<- noise_coeff_l x y ;; st r i z)
               (nth sidx mp []) ;;
    lret (upd sidx x mp, p).
  (* masked_poly.hpp:268-294 *)
  Definition mp_add_rep_noise_l (fuel : nat) (u : Z) (rep : nat) (kappa : Z) (d idx : nat)
             (a : list (list W)) (p : P) (g : G) : lk (list (list W) * P * G) :=
    for_ (seq 0 rep) (fun i_rep s =>
      let '(a, p, g) := s in
      '(a, p) <<- for_ (seq 0 d) (noise_share_l u kappa idx i_rep) (a, p) ;;
      '(a, g) <<- mp_refresh_l fuel d a g ;;
      lret (a, p, g)) (a, p, g).

  (* poly_vec.hpp:28-37, 54-63, 80-91, 94-102, 126-140, 168-177 *)
  Definition pv_add_l (rows d : nat) := rows2 [] [] rows (mp_add_l d).
  Definition pv_sub_l (rows d : nat) := rows2 [] [] rows (mp_sub_l d).
  Definition pv_mul_poly_l (rows d : nat) (v : list (list (list W))) (c : list W) := rows1 [] rows (mp_mul_poly_l d c) v.
  Definition pv_rounding_shr_l (rows d : nat) (off : Z) := rows1 [] rows (mp_rounding_shr_l d off).
  Definition pv_ntt_l (rows d : nat) := rows1 [] rows (mp_ntt_l d).
  Definition pv_intt_l (rows d : nat) := rows1 [] rows (mp_intt_l d).
  Definition pv_decode_l (rows d : nat) := rows1 [] rows (fun row => p <<- mp_decode_l d row ;; lret [p]).
  (* poly_vec.hpp:144-153 *)
  Definition pv_zero_encoding_l (fuel rows d : nat) (g : G) : lk (list (list (list W)) * G) :=
    for_ (seq 0 rows) (fun _ s => let '(v, g) := s in '(z, g) <<- mp_zero_encoding_l fuel d g ;; lret (v ++ [z], g)) ([], g).
  (* poly_vec.hpp:158-163 *)
  Definition pv_refresh_l (fuel rows d : nat) (v : list (list (list W))) (g : G) : lk (list (list (list W)) * G) :=
    for_ (seq 0 rows) (fun i s => let '(acc, g) := s in '(z, g) <<- mp_refresh_l fuel d (nth i v []) g ;; lret (acc ++ [z], g)) ([], g).
  (* poly_vec.hpp:181-187 *)
  Definition pv_add_rep_noise_l (fuel : nat) (u : Z) (rep : nat) (kappa : Z) (rows d : nat)
             (v : list (list (list W))) (p : P) (g : G) : lk (list (list (list W)) * P * G) :=
    for_ (seq 0 rows) (fun ridx s =>
      let '(acc, p, g) := s in
      '(z, p, g) <<- mp_add_rep_noise_l fuel u rep kappa d ridx (nth ridx v []) p g ;;
      lret (acc ++ [z], p, g)) ([], p, g).

  (* serialization.hpp:135-157: packing one row of the secret key; offsets are not data *)
  Definition to_le_bytes_l (v : W) (off n : nat) (out : list W) : lk (list W) :=
    for_ (seq 0 (Nat.min 8 n)) (fun i out => b <<- m_shr M v (8 * Z.of_nat i) ;; b <<- op And b (lit 255) ;; st out (off + i) b) out.
  Definition mc_put_l (c : list W) (i : nat) (s : list W * Z * W * Z) : lk (list W * Z * W * Z) :=
    let '(out, off, buffer, bbo) := s in
    x <<- ld c i ;;
    v <<- op And x (lit MASK49) ;;
    v <<- m_shl M v bbo ;;
    buffer <<- op Or buffer v ;;
    let bbo := bbo + Q_BIT_WIDTH in
    let wbits := align8 bbo in
    let wbytes := wbits / 8 in
    out <<- to_le_bytes_l buffer (Z.to_nat off) (Z.to_nat wbytes) out ;;
    buffer <<- m_shr M buffer wbits ;;
    lret (out, off + wbytes, buffer, bbo - wbits).
  Definition mc_row_l (c : list W) (s : list W * Z) : lk (list W * Z) :=
    let '(out, off) := s in
    '(out, off, _, _) <<- for_ (seq 0 PN) (mc_put_l c) (out, off, lit 0, 0) ;;
    lret (out, off).

  (* poly_mat.hpp:27-41: one row of the product; A is public *)
  Definition mat_row_l (cols d : nat) (A : list (list W)) (v : list (list (list W))) (r : nat) : lk (list (list W)) :=
    for_ (seq 0 cols) (fun c acc =>
      for_ (seq 0 d) (fun i acc =>
        m <<- poly_mul_l (nth (r * cols + c) A []) (nth i (nth c v []) []) ;;
        s <<- poly_add_l (nth i acc []) m ;;
        lret (upd i s acc)) acc) (repeat (repeat (lit 0) PN) d).
  Definition mat_mul_l (rows cols d : nat) (A : list (list W)) (v : list (list (list W))) : lk (list (list (list W))) :=
    for_ (seq 0 rows) (fun r acc => x <<- mat_row_l cols d A v r ;; lret (acc ++ [x])) [].

  (* secret_key.hpp:72-90: key generation after the expansion of A; result: t_prime and s *)
  Definition generate_l (fuel : nat) (Pm : params) (A : list (list W)) (p : P) (g : G)
    : lk (list (list (list W)) * list (list (list W))) :=
    '(s, g) <<- pv_zero_encoding_l fuel (p_l Pm) (p_d Pm) g ;;
    '(s, p, g) <<- pv_add_rep_noise_l fuel (p_ut Pm) (p_rep Pm) (p_kappa Pm) (p_l Pm) (p_d Pm) s p g ;;
    s <<- pv_ntt_l (p_l Pm) (p_d Pm) s ;;
    t <<- mat_mul_l (p_k Pm) (p_l Pm) (p_d Pm) A s ;;
    t <<- pv_intt_l (p_k Pm) (p_d Pm) t ;;
    '(t, p, g) <<- pv_add_rep_noise_l fuel (p_ut Pm) (p_rep Pm) (p_kappa Pm) (p_k Pm) (p_d Pm) t p g ;;
    t <<- pv_decode_l (p_k Pm) (p_d Pm) t ;;
    t <<- pv_rounding_shr_l (p_k Pm) 1 (p_nut Pm) t ;;
    lret (t, s).
  (* secret_key.hpp:137-154: one attempt of signing up to the rounded commitment; result: w_prime, r and the
     generators *)
  Definition commit_l (fuel : nat) (Pm : params) (A : list (list W)) (p : P) (g : G)
    : lk (list (list (list W)) * list (list (list W)) * P * G) :=
    '(r, g) <<- pv_zero_encoding_l fuel (p_l Pm) (p_d Pm) g ;;
    '(r, p, g) <<- pv_add_rep_noise_l fuel (p_uw Pm) (p_rep Pm) (p_kappa Pm) (p_l Pm) (p_d Pm) r p g ;;
    r <<- pv_ntt_l (p_l Pm) (p_d Pm) r ;;
    w <<- mat_mul_l (p_k Pm) (p_l Pm) (p_d Pm) A r ;;
    w <<- pv_intt_l (p_k Pm) (p_d Pm) w ;;
    '(w, p, g) <<- pv_add_rep_noise_l fuel (p_uw Pm) (p_rep Pm) (p_kappa Pm) (p_k Pm) (p_d Pm) w p g ;;
    w <<- pv_decode_l (p_k Pm) (p_d Pm) w ;;
    w <<- pv_rounding_shr_l (p_k Pm) 1 (p_nuw Pm) w ;;
    lret (w, r, p, g).
  (* secret_key.hpp:165-177: the response, given the transform of the challenge polynomial; result: z_prime, the
     refreshed s and the generator *)
  Definition respond_l (fuel : nat) (Pm : params) (c : list W) (s r : list (list (list W))) (g : G)
    : lk (list (list (list W)) * list (list (list W)) * G) :=
    '(s, g) <<- pv_refresh_l fuel (p_l Pm) (p_d Pm) s g ;;
    '(r, g) <<- pv_refresh_l fuel (p_l Pm) (p_d Pm) r g ;;
    z <<- pv_mul_poly_l (p_l Pm) (p_d Pm) s c ;;
    z <<- pv_add_l (p_l Pm) (p_d Pm) z r ;;
    '(z, g) <<- pv_refresh_l fuel (p_l Pm) (p_d Pm) z g ;;
    z <<- pv_decode_l (p_l Pm) (p_d Pm) z ;;
    lret (z, s, g).

  (* Not part of the code.  What a careless implementation would do: comparison with early exit, and
     conditional subtraction by a branch. *)
  Fixpoint early_exit_eq (a b : list W) (i : nat) : lk bool :=
    match a, b with
    | x :: a', y :: b' =>
        e <<- op Equal x y ;; c <<- m_branch M e ;; if (c : bool) then early_exit_eq a' b' (S i) else lret false
    | _, _ => lret true
    end.
  Definition branching_reduce (v : W) : lk W :=
    lt <<- op Less v (lit Q) ;; c <<- m_branch M lt ;; if (c : bool) then lret v else op Sub v (lit Q).
End Code.
