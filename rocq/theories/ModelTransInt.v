(** * transpose_mat with 32-bit ints: src/transpose.cpp and
      src/kernels/haswell/transpose_haswell.cpp.

    Definitions only.  The functions of ModelTrans.v with the int expressions as they stand in the
    code, an intermediate result outside the range of int being undefined (ModelInt.v). *)

From Coq Require Import ZArith List Bool.
From Verif Require Import Lang ModelSizing ModelKernel ModelPack ModelTrans ModelInt.
Open Scope Z_scope.

Section TransInt.

Variable S : scalar.
Notation T := (elt S).
Notation thr := (thr T).
Notation prog := (prog T).

Local Open Scope thr_scope.

(** src/kernels/haswell/transpose_haswell.cpp:15-64 *)
Definition transpose_8x8_32 (A B : ptr) (lda ldb : Z) : thr unit :=
  let+ r := tfor 0 8 1 (fun (_ _ : Z) => zero S) (fun j r =>
      let+ a := tint (j * lda) in
      let+ v := load_vec S 1 (padd A a) 8 in
      TRet (fun i => if i =? j then v else r i)) in
  tfor_ 0 8 1 (fun i => let+ b := tint (i * ldb) in store_vec S (padd B b) 8 (network8 S r i)).

(** src/kernels/haswell/transpose_haswell.cpp:5-12 *)
Definition transpose_mxn32 (A B : ptr) (lda ldb m n : Z) : thr unit :=
  tfor32_ 0 m 1 (fun i =>
    tfor32_ 0 n 1 (fun j =>
      let+ a := tint (j * lda + i) in
      let+ v := pload S A a in
      let+ b := tint (i * ldb + j) in
      pstore S B b v)).

(** src/transpose.cpp:15-25, one iteration of the parallel loop over n.  The code computes kk + kr
    only if nn + nr > N is false; here both are computed. *)
Definition transpose_cols32 (A At : ptr) (K N kt nt k n : Z) : thr unit :=
  let+ n' := tint (n + nt) in
  tfor32_ n n' 8 (fun nn =>
    let+ k' := tint (k + kt) in
    tfor32_ k k' 8 (fun kk =>
      let+ nn8 := tint (nn + 8) in
      let+ kk8 := tint (kk + 8) in
      let+ a := tint (kk * N + nn) in
      let+ b := tint (nn * K + kk) in
      if (N <? nn8) || (K <? kk8)
      then let+ m := tint (N - nn) in
           let+ n := tint (K - kk) in
           transpose_mxn32 (padd A a) (padd At b) N K m n
      else transpose_8x8_32 (padd A a) (padd At b) N K)).

(** src/transpose.cpp:5-29.  The rounding of the tile arguments ([tile8]) cannot overflow. *)
Definition transpose_mat32 (A At : ptr) (K N Kt Nt : Z) : prog unit :=
  let nt := tile8 Nt in
  let kt := tile8 Kt in
  pfor32_ 0 K kt (fun k => ppar_for32 0 N nt (transpose_cols32 A At K N kt nt k)).

End TransInt.
