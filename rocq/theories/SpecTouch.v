(** * Memory the library reads although the caller does not provide it.  Specification only. *)

From Coq Require Import ZArith.
From Verif Require Import Lang Spec SpecTop SpecOnline ModelSizing.
Open Scope Z_scope.

(** Element i of object b is not there to be read: there is no such object, or it ends before
    i, or the element has no value. *)
Definition missing {V} (m : mem V) (b : buf) (i : Z) : Prop :=
  forall bi v, live m b = Some bi -> i < blen bi -> dat m b i <> Some v.

(** The program never ends well: it has an execution, and every one is undefined. *)
Definition always_undefined {V R} (P : prog V R) (m : mem V) : Prop :=
  pexec P m Undef /\ forall o, pexec P m o -> o = Undef.

(** ** The grid for small matrices *)

(** The arguments of a call of cake_sgemm_2d_small with work to do, wherever the pieces end:
    [pn] is the number of core columns the library picks. *)
Definition small_args (F : fpenv) (ar : arch) (rows : Z) (c : cntx) (M N K p pn : Z) : Prop :=
  arch_ok ar /\ ctx_min ar c /\ 0 < M /\ 0 < N /\ 0 < K /\ 0 < p /\
  0 <= fp_pn F p N M /\ grid_dims_2d F M N p (ncores c) rows = CRet pn /\
  0 < fp_kcmax F (L1 c) (mr c) (nr c).
