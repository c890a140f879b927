(** * Utilities with 32-bit ints: parts of src/util.cpp.

    Definitions only.  The functions of ModelUtil.v, ModelTrans.v and ModelTests.v once more, with
    the int expressions as they stand in the code and an intermediate result outside the range of
    int undefined (ModelInt.v).  Simplification: the counter of wrong elements is left out, it is
    never larger than the index of the element. *)

From Coq Require Import ZArith List Bool.
From Verif Require Import Lang ModelSizing ModelKernel ModelPack ModelUtil ModelInt.
Open Scope Z_scope.

Section UtilInt.

Variable S : scalar.
Notation T := (elt S).
Notation thr := (thr T).
Notation prog := (prog T).

Local Open Scope thr_scope.

(** src/util.cpp:259-267, and 281-286 with [elem] of the index.  [rnd i] is the i-th result of
    rand(). *)
Definition rand_init32 (elem : Z -> T) (mat : ptr) (rnd : Z -> Z) (r c : Z) : thr unit :=
  let+ n := tint (r * c) in
  tfor32_ 0 n 1 (fun i => pstore S mat i (elem (rnd i))).

(** src/util.cpp:340-347 *)
Definition transpose32 (At A : ptr) (M K : Z) : prog unit :=
  pseq (tfor32_ 0 K 1 (fun k =>
    tfor32_ 0 M 1 (fun m =>
      let+ a := tint (m * K + k) in
      let+ v := pload S A a in
      let+ d := tint (m + k * M) in
      pstore S At d v))).

Variable far : T -> T -> bool.

(** src/util.cpp:139-169 *)
Definition mat_equals32 (C C_check : ptr) (M N : Z) : thr bool :=
  let+ r := tfor32 0 M 1 (0, true) (fun m r =>
    tfor32 0 N 1 r (fun n (r : Z * bool) =>
      let '(ind1, correct) := r in
      let+ a := pload S C_check ind1 in
      let+ b := pload S C ind1 in
      let+ ind1' := tint (ind1 + 1) in
      TRet (ind1', if far a b then false else correct))) in
  TRet (snd r).

(** src/util.cpp:180-184 *)
Definition ck_row32 (A B Ck : ptr) (N K k m : Z) : thr unit :=
  tfor32_ 0 N 1 (fun n =>
    let+ i := tint (m * N + n) in
    let+ c := pload S Ck i in
    let+ ia := tint (m * K + k) in
    let+ a := pload S A ia in
    let+ ib := tint (k * N + n) in
    let+ b := pload S B ib in
    pstore S Ck i (fma S a b c)).

Variables (add : T -> T -> T) (ok bad : T).

Local Open Scope prog_scope.

(** src/util.cpp:173-202 *)
Definition cake_sgemm_checker32 (A B C : ptr) (N M K : Z) : prog unit :=
  let* n := pint (M * N) in
  palloc ckbuf n false (Some (zero S)) ;;;
  pfor32_ 0 K 1 (fun k => ppar_for32 0 M 1 (ck_row32 A B (ckbuf, 0) N K k)) ;;;
  pseq (tbind (mat_equals32 C (ckbuf, 0) M N) (fun r => pstore S (retb, 0) 0 (if r then ok else bad))) ;;;
  pfree ckbuf.

(** src/util.cpp:223-232 *)
Definition add_compare32 (C C_check : ptr) (n : Z) : thr bool :=
  (let+ r := tfor32 0 n 1 (0, true) (fun i (r : Z * bool) =>
      let '(ind1, correct) := r in
      let+ a := pload S C_check ind1 in
      let+ b := pload S C ind1 in
      let+ ind1' := tint (ind1 + 1) in
      TRet (ind1', if far a b then false else correct)) in
   TRet (snd r))%thr.

(** src/util.cpp:207-248 *)
Definition add_checker32 (C_arr : Z -> ptr) (C : ptr) (M N p : Z) : prog unit :=
  let* n := pint (M * N) in
  palloc ckbuf n false (Some (zero S)) ;;;
  pseq (tfor32_ 0 p 1 (fun c => tfor32_ 0 n 1 (fun i =>
    tbind (pload S (ckbuf, 0) i) (fun a => tbind (pload S (C_arr c) i) (fun b =>
    pstore S (ckbuf, 0) i (add a b)))))) ;;;
  pseq (tbind (add_compare32 C (ckbuf, 0) n) (fun r => pstore S (retb, 0) 0 (if r then ok else bad))) ;;;
  pfree ckbuf.

End UtilInt.
