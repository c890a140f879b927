(** * Checkers, clamping, the context for PyTorch: parts of src/util.cpp, src/block_sizing.cpp
      and src/autotune_sa.cpp.

    Definitions only. *)

From Coq Require Import ZArith List Bool SpecFloat.
From Verif Require Import Lang ModelSizing ModelKernel ModelPack.
Import ListNotations.
Open Scope Z_scope.

Section Check.

Variable S : scalar.
Notation T := (elt S).
Notation thr := (thr T).
Notation prog := (prog T).

(** [far a b]: fabs(a - b) > eps, src/util.cpp:150 and 226.  The float subtraction and comparison
    are a parameter; [far32] below is the binary32 one. *)
Variable far : T -> T -> bool.
(** [add a b]: the float sum of src/util.cpp:213 *)
Variable add : T -> T -> T.
(** The function's bool result is delivered in element 0 of [retb], 0 coded as [ok] and 1 as
    [bad]: parallel regions of the model return no value.  The printing of src/util.cpp:155,
    163-168 is not modelled. *)
Variables ok bad : T.

Definition ckbuf : buf := BufX 2.   (* C_check *)
Definition retb : buf := BufX 3.    (* the result *)

Local Open Scope thr_scope.

(** src/util.cpp:139-169.  [ind1] is the running index; the result is CORRECT. *)
Definition mat_equals (C C_check : ptr) (M N : Z) : thr bool :=
  let+ r := tfor 0 M 1 (0, true) (fun m r =>
    tfor 0 N 1 r (fun n (r : Z * bool) =>
      let '(ind1, correct) := r in
      let+ a := pload S C_check ind1 in
      let+ b := pload S C ind1 in
      TRet (ind1 + 1, if far a b then false else correct))) in
  TRet (snd r).

(** src/util.cpp:180-184, one iteration of the parallel loop *)
Definition ck_row (A B Ck : ptr) (N K k m : Z) : thr unit :=
  tfor_ 0 N 1 (fun n =>
    let+ c := pload S Ck (m * N + n) in
    let+ a := pload S A (m * K + k) in
    let+ b := pload S B (k * N + n) in
    pstore S Ck (m * N + n) (fma S a b c)).

Local Open Scope prog_scope.

(** src/util.cpp:173-202.  Whether the compiler contracts the multiplication and the addition of
    line 182 is left to the scalar's fma. *)
Definition cake_sgemm_checker (A B C : ptr) (N M K : Z) : prog unit :=
  palloc ckbuf (M * N) false (Some (zero S)) ;;;
  pfor_ 0 K 1 (fun k => ppar_for 0 M 1 (ck_row A B (ckbuf, 0) N K k)) ;;;
  pseq (tbind (mat_equals C (ckbuf, 0) M N) (fun r => pstore S (retb, 0) 0 (if r then ok else bad))) ;;;
  pfree ckbuf.

Local Open Scope thr_scope.

(** src/util.cpp:223-232 *)
Definition add_compare (C C_check : ptr) (n : Z) : thr bool :=
  let+ r := tfor 0 n 1 (0, true) (fun i (r : Z * bool) =>
      let '(ind1, correct) := r in
      let+ a := pload S C_check ind1 in
      let+ b := pload S C ind1 in
      TRet (ind1 + 1, if far a b then false else correct)) in
  TRet (snd r).

Local Open Scope prog_scope.

(** src/util.cpp:207-248; [C_arr c] is the c-th array *)
Definition add_checker (C_arr : Z -> ptr) (C : ptr) (M N p : Z) : prog unit :=
  palloc ckbuf (M * N) false (Some (zero S)) ;;;
  pseq (tfor_ 0 p 1 (fun c => tfor_ 0 (M * N) 1 (fun i =>
    tbind (pload S (ckbuf, 0) i) (fun a => tbind (pload S (C_arr c) i) (fun b =>
    pstore S (ckbuf, 0) i (add a b)))))) ;;;
  pseq (tbind (add_compare C (ckbuf, 0) (M * N)) (fun r => pstore S (retb, 0) 0 (if r then ok else bad))) ;;;
  pfree ckbuf.

End Check.

(** ** binary32 *)

(** The float operations, as the standard library's executable specification of IEEE 754. *)
Definition f32 : Type := spec_float.
Definition sub32 : f32 -> f32 -> f32 := SFsub 24 128.
Definition add32 : f32 -> f32 -> f32 := SFadd 24 128.
Definition mul32 : f32 -> f32 -> f32 := SFmul 24 128.

(** float eps = 1e-3 (src/util.cpp:144): the binary32 number nearest to 0.001,
    8589935 * 2^-33 *)
Definition eps32 : f32 := S754_finite false 8589935 (-33).

(** src/util.cpp:150 *)
Definition far32 (a b : f32) : bool := SFltb eps32 (SFabs (sub32 a b)).

(** float multiplication followed by addition, without contraction *)
Definition F32 : scalar := Scalar f32 (S754_zero false) (fun a b c => add32 (mul32 a b) c).

(** ** Clamping *)

(** src/block_sizing.cpp:4-7, on doubles *)
Definition clamp_val (d mn mx : spec_float) : spec_float :=
  let t := if SFltb d mn then mn else d in
  if SFltb mx t then mx else t.

(** src/autotune_sa.cpp:21-24 *)
Definition clamp_val_int (d mn mx : Z) : Z :=
  let t := if d <? mn then mn else d in
  if mx <? t then mx else t.

(** src/autotune_sa.cpp:37-67, the sizes one iteration proposes: [dm dk dn] are the three random
    integers get_random_step multiplies by its argument (a normally distributed float rounded
    away from zero, line 30).  The set of sizes already tried, and the loop around, are in
    ModelTune.v. *)
Definition get_candidate (M K N pm pn : Z) (c : cntx) (m_c k_c n_c dm dk dn : Z) : Z * Z * Z :=
  let mc_max := Z.quot M pm + (mr c - Z.rem (Z.quot M pm) (mr c)) in
  let kc_max := K in
  let nc_max := Z.quot N pn + (nr c - Z.rem (Z.quot N pn) (nr c)) in
  (clamp_val_int (m_c + dm * 30) (mr c) mc_max,
   clamp_val_int (k_c + dk * 20) 20 kc_max,
   clamp_val_int (n_c + dn * 128) (nr c) nc_max).

(** src/block_sizing.cpp:10-37, USE_CAKE_HASWELL: [junk] is what malloc returned; L1, ncores,
    m_map and n_map keep its values *)
Definition cake_query_cntx_torch (junk : cntx) (l2 l3 : Z) : cntx :=
  Cntx (1, 1) 6 16 (m_map junk) (n_map junk) (L1 junk) l2 l3 (ncores junk).

(** the same, USE_CAKE_ARMV8 *)
Definition cake_query_cntx_torch_armv8 (junk : cntx) (l2 l3 : Z) : cntx :=
  Cntx (1, 1) 8 12 (m_map junk) (n_map junk) (L1 junk) l2 l3 (ncores junk).
