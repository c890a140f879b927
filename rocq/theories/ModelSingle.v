(** * The scalars of the library: binary32.

    Definitions only. *)

From Coq Require Import ZArith Bool.
From Flocq Require Import BinarySingleNaN.
From Verif Require Import Lang ModelIEEE.
Open Scope Z_scope.

(** float, with the fused multiply-add of the kernels (_mm256_fmadd_ps in
    src/kernels/haswell/dense.cpp:37 and further, vfmaq_f32 in
    src/kernels/armv8/dense.cpp:53 and further) in the default rounding mode, and the zero of
    calloc (src/cake_sgemm.cpp:92, 135).  Simplifications: one NaN, no subnormal flush. *)
Definition Single : scalar :=
  Scalar single (B754_zero false) (@Bfma 24 128 prec24 emax128 mode_NE).

(** float, where the compiler does not fuse C += A*B: src/util.cpp:182 *)
Definition Single_mul_add : scalar :=
  Scalar single (B754_zero false)
    (fun a b c => @Bplus 24 128 prec24 emax128 mode_NE c (@Bmult 24 128 prec24 emax128 mode_NE a b)).

(** src/util.cpp:144: float eps = 1e-3 *)
Definition eps_single : single := @B754_finite 24 128 false 8589935 (-33) eq_refl.

(** src/util.cpp:150: fabs(a - b) > eps *)
Definition far_single (a b : single) : bool := Bltb eps_single (Babs (ssub a b)).
