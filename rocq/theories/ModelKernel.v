(** * Microkernels: src/kernels/haswell/dense.cpp, src/kernels/armv8/dense.cpp and
      their generator python/kernel_gen.py; include/kernel_wrapper.h.

    Definitions only. *)

From Coq Require Import ZArith List Bool.
From Verif Require Import Lang ModelSizing.
Open Scope Z_scope.
Open Scope thr_scope.

(** A float pointer: object and element offset. *)
Definition ptr : Type := (buf * Z)%type.
Definition padd (p : ptr) (i : Z) : ptr := (fst p, snd p + i).

Section Kernel.

Variable S : scalar.
Notation T := (elt S).
Notation thr := (thr T).

(** [n] consecutive elements into registers.  Every [al]-th element starts a vector
    load that needs [al]-element alignment (al = 1: unaligned loads). *)
Definition load_vec (al : Z) (p : ptr) (n : Z) : thr (Z -> T) :=
  tfor 0 n 1 (fun _ => zero S) (fun j f =>
    let+ v := tload_al (if Z.rem j al =? 0 then al else 1) (fst p) (snd p + j) in
    TRet (fun e => if e =? j then v else f e)).

Definition store_vec (p : ptr) (n : Z) (c : Z -> T) : thr unit :=
  tfor_ 0 n 1 (fun j => tstore (fst p) (snd p + j) (c j)).

(** python/kernel_gen.py:55-73 (gen_inner_kernel); one unrolled step, e.g.
    src/kernels/haswell/dense.cpp:36-62.  State: (pointer A, pointer B, registers c).
    Register c[i*nlanes+l] lane e is entry i*knr + 8*l + e. *)
Definition inner (ar : arch) (kmr knr n : Z) (st : ptr * ptr * (Z -> T))
  : thr (ptr * ptr * (Z -> T)) :=
  let '(A, B, c) := st in
  let+ b := load_vec (lanes ar) B knr in
  let+ ac := tfor 0 kmr 1 (A, c) (fun i ac =>
      let+ a := tload (fst (fst ac)) (snd (fst ac)) in
      TRet (padd (fst ac) 1,
            fun e => if (i * knr <=? e) && (e <? (i + 1) * knr)
                     then fma S a (b (e - i * knr)) (snd ac e) else snd ac e)) in
  TRet (fst ac, padd B n, snd ac).

(** src/kernels/haswell/dense.cpp:8-203, src/kernels/armv8/dense.cpp:6-.. and every
    kernel generated by python/kernel_gen.py:402-421.  [kmr] x [knr] is the size
    compiled into the kernel; m, n, k are its run-time arguments (m is not used by
    the code; n is the stride of B). *)
Definition ukernel (ar : arch) (kmr knr : Z) (A B C : ptr) (m n k : Z) : thr unit :=
  let+ c := load_vec 1 C (kmr * knr) in
  let rem := Z.rem k 4 in
  let k' := k - rem in
  let+ st := tfor 0 k' 4 (A, B, c) (fun _ st =>
      let+ st := inner ar kmr knr n st in
      let+ st := inner ar kmr knr n st in
      let+ st := inner ar kmr knr n st in
      inner ar kmr knr n st) in
  let+ st := tfor 0 rem 1 st (fun _ st => inner ar kmr knr n st) in
  store_vec C (kmr * knr) (snd st).

(** include/kernels.h (generated; python/kernel_gen.py:424-468): kernel_map[i][j] is
    the kernel of size (MR_MIN + i*MR_FACT) x (NR_MIN + j*NR_FACT).  Indexing outside
    the table is undefined. *)
Definition kernel_map (ar : arch) (i j : Z) (A B C : ptr) (m n k : Z) : thr unit :=
  if (0 <=? i) && (i <? MR_CNT ar) && (0 <=? j) && (j <? NR_CNT ar)
  then ukernel ar (MR_MIN ar + i * MR_FACT ar) (NR_MIN ar + j * NR_FACT ar) A B C m n k
  else TFail.

(** include/kernel_wrapper.h:18-40: always the 6x16 (8x12 on ARM) kernel. *)
Definition cake_sgemm_ukernel (ar : arch) (A B C : ptr) (m n k : Z) : thr unit :=
  ukernel ar (MR_MIN ar) (NR_MIN ar) A B C m n k.

End Kernel.
