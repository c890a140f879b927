(** * The functions of include/cake.h for small matrices, and the choice of a schedule with its two
      flags: src/cake_sgemm_small.cpp, src/cake_sgemm.cpp:614-721 and 726-765.

    Definitions only.  The calls of the kernel in src/cake_sgemm_small.cpp are in comments, and so
    is the body of cake_gemm_small up to its return statement. *)

From Coq Require Import ZArith List Bool.
From Verif Require Import Lang ModelSizing ModelKernel ModelPack ModelSched.
Open Scope Z_scope.

Section Noop.

Variable S : scalar.
Notation T := (elt S).
Notation thr := (thr T).
Notation prog := (prog T).

(** The two register loops around the call in comments, lines 65-73, 145-153 and 223-231.  A
    division by zero is undefined.  The indices a_ind, b_ind and c_ind are computed for nothing;
    ints are unbounded. *)
Definition reg_loops (mt nt : Z) (c : cntx) : thr unit :=
  if nr c =? 0 then TFail
  else tfor_ 0 (Z.quot nt (nr c)) 1 (fun _ =>
         if mr c =? 0 then TFail else tfor_ 0 (Z.quot mt (mr c)) 1 (fun _ => TRet tt)).

(** src/cake_sgemm_small.cpp:7-78 *)
Definition schedule_KMN_small (p : Z) (c : cntx) (x : blk_dims) : prog unit :=
  pfor_ 0 (Nb x) 1 (fun n =>
    pfor_ 0 (Mb x) 1 (fun m =>
      ppar_for 0 (blk_pu x p m) 1 (fun core =>
        tfor_ 0 (Kb x) 1 (fun _ => reg_loops (core_mt x m core) (blk_nt x n) c)))).

(** src/cake_sgemm_small.cpp:85-158 *)
Definition schedule_MKN_small (p : Z) (c : cntx) (x : blk_dims) : prog unit :=
  pfor_ 0 (Nb x) 1 (fun n =>
    pfor_ 0 (Kb x) 1 (fun k =>
      ppar_for 0 (Mb x) 1 (fun m =>
        tfor_ 0 (blk_pk x p k) 1 (fun _ => reg_loops (mf_mt x m) (blk_nt x n) c)))).

(** src/cake_sgemm_small.cpp:161-236 *)
Definition schedule_NKM_small (p : Z) (c : cntx) (x : blk_dims) : prog unit :=
  pfor_ 0 (Mb x) 1 (fun m =>
    pfor_ 0 (Kb x) 1 (fun k =>
      ppar_for 0 (Nb x) 1 (fun n =>
        tfor_ 0 (blk_pk x p k) 1 (fun _ => reg_loops (nf_mt x p m) (blk_nt x n) c)))).

(** src/cake_sgemm.cpp:614-721: what is not in comments *)
Definition cake_gemm_small : prog bool := PRet true.

(** src/cake_sgemm.cpp:726-765.  ModelSched.schedule is this function without the flags. *)
Definition schedule_flags (ar : arch) (A_p B_p C_p : ptr) (M N K p : Z) (c : cntx) (x : blk_dims)
           (s : sched) (sparse small : bool) : prog unit :=
  match s with
  | KMN => PRet tt
  | MKN => if sparse then PRet tt else if small then PRet tt else schedule_MKN S ar A_p B_p C_p M N K p c x
  | NKM => if sparse then PRet tt else if small then PRet tt else schedule_NKM S ar A_p B_p C_p M N K p c x
  | NA => PExit
  end.

End Noop.
