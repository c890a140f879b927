(** * The kernels for operands that are not all packed, and the sparse kernels:
      src/kernels/haswell/dense.cpp:206-950, src/kernels/haswell/sparse.cpp:7-126,
      src/kernels/armv8/sparse.cpp:8-163, include/kernel_wrapper.h:43-52.

    Definitions only.  cake_sp_sgemm_haswell_3x32 (sparse.cpp:142-) uses two variables it does not
    declare and is not modelled. *)

From Coq Require Import ZArith List Bool.
From Verif Require Import Lang ModelSizing ModelKernel ModelPack.
Open Scope Z_scope.
Open Scope thr_scope.

Section Small.

Variable S : scalar.
Notation T := (elt S).
Notation thr := (thr T).

(** ** 6x16 tiles with row stride *)

(** src/kernels/haswell/dense.cpp:213-224 (the same in the other kernels): the twelve loads,
    written as a loop; entry 16*i + j is lane j of row i *)
Definition load_tile (C : ptr) (ldc : Z) : thr (Z -> T) :=
  tfor 0 6 1 (fun _ => zero S) (fun i c =>
    let+ r := load_vec S 1 (padd C (i * ldc)) 16 in
    TRet (fun e => if (i * 16 <=? e) && (e <? (i + 1) * 16) then r (e - i * 16) else c e)).

(** src/kernels/haswell/dense.cpp:378-389 *)
Definition store_tile (C : ptr) (ldc : Z) (c : Z -> T) : thr unit :=
  tfor_ 0 6 1 (fun i => store_vec S (padd C (i * ldc)) 16 (fun j => c (i * 16 + j))).

(** src/kernels/haswell/dense.cpp:233-257: one k step, then B += ldb; A += da.  [al] is the
    alignment the loads of B need.  The code loads two elements of A at a time. *)
Definition s_step (al da ldb : Z) (st : ptr * ptr * (Z -> T)) : thr (ptr * ptr * (Z -> T)) :=
  let+ st := inner S (Arch 2 16 6 16 2 2 al) 6 16 ldb st in
  let '(A, B, c) := st in
  TRet (padd A da, B, c).

(** The common frame of the four kernels. *)
Definition s_kernel (al da ldb ldc : Z) (A B C : ptr) (k : Z) : thr unit :=
  let+ c := load_tile C ldc in
  let rem := Z.rem k 4 in
  let k' := k - rem in
  let+ st := tfor 0 k' 4 (A, B, c) (fun _ st =>
      let+ st := s_step al da ldb st in
      let+ st := s_step al da ldb st in
      let+ st := s_step al da ldb st in
      s_step al da ldb st) in
  let+ st := tfor 0 rem 1 st (fun _ st => s_step al da ldb st) in
  store_tile C ldc (snd st).

(** dense.cpp:207-389 *)
Definition kernel_unpacked (A B C : ptr) (m n k M K N : Z) : thr unit :=
  s_kernel 1 (M - 6) N N A B C k.
(** dense.cpp:397-574 *)
Definition kernel_A_packed (A B C : ptr) (m n k M K N : Z) : thr unit :=
  s_kernel 1 0 N N A B C k.
(** dense.cpp:579-761 *)
Definition kernel_B_packed (A B C : ptr) (m n k M K N : Z) : thr unit :=
  s_kernel 8 (M - 6) n N A B C k.
(** dense.cpp:766-950 *)
Definition kernel_C_packed (A B C : ptr) (m n k M K N : Z) : thr unit :=
  s_kernel 1 (M - 6) N 16 A B C k.

(** include/kernel_wrapper.h:43-52 *)
Definition cake_sgemm_small_ukernel (A B C : ptr) (m_r n_r k_c_t M K N : Z) : thr unit :=
  kernel_unpacked A B C m_r n_r k_c_t M K N.

(** ** Sparse kernels *)

(** an int array; an access outside it is undefined *)
Definition iarr : Type := Z -> option Z.
Definition iget (a : iarr) (i : Z) : thr Z := match a i with Some v => TRet v | None => TFail end.

(** src/kernels/haswell/sparse.cpp:56-61, one nonzero.  State: (nonzeros consumed, registers).
    Both A and loc_m are advanced once per nonzero, so one counter stands for both pointers.
    A row number outside the tile indexes outside the array of registers. *)
Definition sp_nonzero (kmr knr : Z) (A : ptr) (loc_m : iarr) (b : Z -> T) (st : Z * (Z -> T))
  : thr (Z * (Z -> T)) :=
  let '(q, c) := st in
  let+ a := tload (fst A) (snd A + q) in
  let+ i := iget loc_m q in
  if (0 <=? i) && (i <? kmr) then
    TRet (q + 1, fun e => if (i * knr <=? e) && (e <? (i + 1) * knr)
                          then fma S a (b (e - i * knr)) (c e) else c e)
  else TFail.

(** lines 51-62: one column of A, m_cnt nonzeros against row k_inds[kk] of B *)
Definition sp_column (al kmr knr : Z) (A B : ptr) (n : Z) (nnz k_inds loc_m : iarr) (kk : Z)
           (st : Z * (Z -> T)) : thr (Z * (Z -> T)) :=
  let+ m_cnt := iget nnz kk in
  let+ ki := iget k_inds kk in
  let+ b := load_vec S al (padd B (n * ki)) knr in
  tfor 0 m_cnt 1 st (fun _ st => sp_nonzero kmr knr A loc_m b st).

(** src/kernels/haswell/sparse.cpp:7-126 (kmr = 6, knr = 16, al = 8) and
    src/kernels/armv8/sparse.cpp:8-163 (kmr = 8, knr = 12, al = 1).  The first component of the
    loop state is set by the break of line 44. *)
Definition sp_kernel (al kmr knr : Z) (A B C : ptr) (m n k : Z) (nnz k_inds loc_m : iarr) : thr unit :=
  let+ c := load_vec S 1 C (kmr * knr) in
  let rem := Z.rem k 4 in
  let k' := k - rem in
  let col := sp_column al kmr knr A B n nnz k_inds loc_m in
  let+ r := tfor 0 k' 4 (false, (0, c)) (fun kk (r : bool * (Z * (Z -> T))) =>
      let '(stop, st) := r in
      if stop then TRet r
      else
        let+ m_cnt := iget nnz kk in
        if m_cnt =? 0 then TRet (true, st)
        else
          let+ st := col kk st in
          let+ st := col (kk + 1) st in
          let+ st := col (kk + 2) st in
          let+ st := col (kk + 3) st in
          TRet (false, st)) in
  let+ st := tfor 0 rem 1 (snd r) (fun kk st => col (k' + kk) st) in
  store_vec S C (kmr * knr) (snd st).

Definition cake_sp_sgemm_haswell_6x16 := sp_kernel 8 6 16.
Definition cake_sp_sgemm_armv8_8x12 := sp_kernel 1 8 12.

End Small.
