(** * Specification of packing as the caller sees it. *)

From Coq Require Import ZArith List Bool.
From Verif Require Import Lang Spec SpecTop ModelSizing ModelKernel ModelPack ModelSched ModelTop.
Open Scope Z_scope.

(** [B_rim] of SpecTop for a matrix in any object [b]. *)
Definition rim {V} (m : mem V) (b : buf) (N K nr t : Z) : Prop :=
  forall k j, 0 <= k < K - t -> N <= j < round_up N nr ->
    exists bi v, live m b = Some bi /\ k * N + j < blen bi /\ dat m b (k * N + j) = Some v.

(** The first [n] elements of [b] all have a value. *)
Definition initialised {V} (m : mem V) (b : buf) (n : Z) : Prop :=
  forall i, 0 <= i < n -> exists v, dat m b i = Some v.

(** Nothing changed but elements 0 .. n-1 of [b]; no object appeared or disappeared. *)
Definition only_changed {V} (m m' : mem V) (b : buf) (n : Z) : Prop :=
  (forall b', live m' b' = live m b') /\
  (forall b' i, ~ (b' = b /\ 0 <= i < n) -> dat m' b' i = dat m b' i).

(** An object of exactly [n] elements, of any content. *)
Definition exact_size {V} (m : mem V) (b : buf) (n : Z) : Prop :=
  exists bi, live m b = Some bi /\ blen bi = n.

(** Where a caller who packs beforehand keeps the plain matrices. *)
Definition srcA : buf := BufX 3.
Definition srcB : buf := BufX 4.

(** A caller who packs A (if [pa]) and B (if [pb]) themselves, with the library's sizing
    and packing functions, and then multiplies with packedA = pa and packedB = pb.
    [aa], [ab]: the objects they pack into are 64-byte aligned. *)
Definition prepacked_call (S : scalar) (F : fpenv) (ar : arch) (q : cntx) (nz : elt S -> bool)
           (M N K p : Z) (c : cntx) (pa pb aa ab : bool) (alpha beta : elt S) (s : sched) (mcu kcu ncu : Z) : prog (elt S) cntx :=
  (let* xc := lift S (init_block_dims F M N K p c s mcu kcu ncu) in
  let x := fst xc in
  let c1 := snd xc in
  (if pa then
     let* n := lift S (packed_A_size M K p x (mr c1) (sch x)) in
     palloc BufA n aa None ;;;
     pack_A S (srcA, 0) (BufA, 0) M K p x c1 (sch x)
   else PRet tt) ;;;
  (if pb then
     let* n := lift S (packed_B_size K N x (nr c1)) in
     palloc BufB n ab None ;;;
     pack_B S (srcB, 0) (BufB, 0) K N p x c1 (sch x)
   else PRet tt) ;;;
  (cake_sgemm S F ar q nz M N K p (Some c1) pa pb alpha beta s mcu kcu ncu))%prog.

(** The memory such a caller starts from. *)
Definition prepacking_caller {V} (m : mem V) (pa pb : bool) (M N K : Z) (A B : Z -> Z -> V) : Prop :=
  (if pa then live m BufA = None else True) /\
  (let a := if pa then srcA else BufA in at_least m a (M * K) /\ holds m a M K A) /\
  (if pb then live m BufB = None else True) /\
  (let b := if pb then srcB else BufB in at_least m b (K * N) /\ holds m b K N B) /\
  at_least m BufC (M * N) /\
  (forall b, own b -> b <> srcA -> b <> srcB -> live m b = None).

(** The caller's objects are as before but for elements 0 .. M*N-1 of C. *)
Definition caller_keeps {V} (m m' : mem V) (M N : Z) : Prop :=
  forall b, live m b <> None -> live m' b = live m b /\
    forall i, ~ (b = BufC /\ 0 <= i < M * N) -> dat m' b i = dat m b i.

(** When packing C for a schedule agrees with unpacking it; only N-first is restricted. *)
Definition C_aligned (s : sched) (M N p : Z) (c : cntx) (x : blk_dims) : Prop :=
  s = NKM -> n_first_C_fits M N p (mr c) (nr c) (m_c x) (n_c x).
