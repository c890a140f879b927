(** * Random matrices and the library's own tests: parts of src/util.cpp.

    Definitions only. *)

From Coq Require Import ZArith List Bool.
From Flocq Require Import BinarySingleNaN.
From Verif Require Import Lang ModelSizing ModelKernel ModelPack ModelTop ModelUtil ModelDouble ModelIEEE ModelSingle.
Open Scope Z_scope.

(** RAND_MAX of glibc *)
Definition RAND_MAX : Z := 2147483647.

(** src/util.cpp:265, the value made of one result [r] of rand():
    (float) rand() / ((float) RAND_MAX)*2.0 - 1.0; the quotient is a float, the rest is computed
    in double and converted to float by the assignment. *)
Definition rand_elem (r : Z) : single :=
  single_of_double (dsub (dmul (double_of_single (sdiv (single_of_int r) (single_of_int RAND_MAX))) (of_int 2)) (of_int 1)).

(** src/util.cpp:253-255: ( (float)(rand()) + 1. ) / ( (float)(((float) RAND_MAX)) + 1. ), in double
    and converted to float by the return *)
Definition rand_gen (r : Z) : single :=
  single_of_double (ddiv (dadd (double_of_single (single_of_int r)) (of_int 1))
                         (dadd (double_of_single (single_of_int RAND_MAX)) (of_int 1))).

Section Tests.

Variable S : scalar.
Notation T := (elt S).
Notation thr := (thr T).
Notation prog := (prog T).

(** [elem r] is the element made of the result r of rand(); [rand_elem] for floats. *)
Variable elem : Z -> T.

(** src/util.cpp:259-267.  [rnd i] is what rand() returns for the i-th element. *)
Definition rand_init (mat : ptr) (rnd : Z -> Z) (r c : Z) : thr unit :=
  tfor_ 0 (r * c) 1 (fun i => pstore S mat i (elem (rnd i))).

Local Open Scope prog_scope.

(** src/util.cpp:26-42, also 47-63, 67-83, 88-104, 107-123: one test.  [call] is the call of the
    multiplication, [check] the one of cake_sgemm_checker; what the checker returns is left in
    element 0 of [retb], and counting and printing it is not modelled.  malloc leaves the elements
    indeterminate.  [rndA], [rndB] are the results of rand() after srand(time(NULL)). *)
Definition one_test {R} (call : prog R) (check : Z -> Z -> Z -> prog unit) (rndA rndB : Z -> Z) (M N K : Z) : prog R :=
  palloc BufA (M * K) false None ;;;
  palloc BufB (K * N) false None ;;;
  palloc BufC (M * N) false (Some (zero S)) ;;;
  pseq (rand_init (BufA, 0) rndA M K) ;;;
  pseq (rand_init (BufB, 0) rndB K N) ;;;
  let* r := call in
  check N M K ;;;
  pfree BufA ;;;
  pfree BufB ;;;
  pfree BufC ;;;
  PRet r.

(** src/util.cpp:11-13 *)
Definition test_size (i : Z) : Z := nth (Z.to_nat i) (1 :: 10 :: 96 :: 111 :: 960 :: 2111 :: nil)%list 0.

(** src/util.cpp:3-136.  [c] is the context cake_query_cntx returns (line 8), which all calls share
    and may update; [one] is 1.0f and [zero S] 0.0f, the alpha and beta of the calls.
    [rnd p m k n v x i]: results of rand() in the v-th test of round (p,m,k,n), for A (x = 0) and
    for B (x = 1).  [rows]: rows of the divisor table (src/block_sizing.cpp, see ModelSizing). *)
Definition run_tests (F : fpenv) (ar : arch) (nz : T -> bool) (one : T) (rows : Z)
           (check : Z -> Z -> Z -> prog unit)
           (rnd : Z -> Z -> Z -> Z -> Z -> Z -> Z -> Z) (c : cntx) : prog cntx :=
  pfor 2 (ncores c + 1) 1 c (fun p c =>
  pfor 0 6 1 c (fun m c =>
  pfor 0 6 1 c (fun k c =>
  pfor 0 6 1 c (fun n c =>
    let M := test_size m in
    let K := test_size k in
    let N := test_size n in
    let gemm s c := cake_sgemm S F ar c nz M N K p (Some c) false false one (zero S) s 0 0 0 in
    let test {R} v (call : prog R) := one_test call check (rnd p m k n v 0) (rnd p m k n v 1) M N K in
    test 0 (cake_sgemm_2d S F ar c rows M N K p (Some c) 0 0 0) ;;;
    let* c := test 1 (gemm MKN c) in
    let* c := test 2 (cake_sgemm_online S true F ar c M N K p (Some c) 0 0 0) in
    let* c := test 3 (gemm KMN c) in
    test 4 (gemm NKM c))))).

End Tests.
