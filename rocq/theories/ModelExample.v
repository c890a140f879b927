(** * The example program: examples/cake_sgemm_test.cpp.

    Definitions only. *)

From Coq Require Import ZArith List Bool.
From Verif Require Import Lang ModelSizing ModelKernel ModelPack ModelTop ModelTests.
Open Scope Z_scope.

(** the arrays of lines 52, 44 and 43 *)
Definition dirty : buf := BufX 4.
Definition tttmp : buf := BufX 5.
Definition ressss : buf := BufX 6.

(** lines 37-40, with ms[0] = 8 and ns[0] = 12 of lines 34-35 *)
Definition set_tile (c : cntx) : cntx :=
  Cntx (alpha c) 8 12 0 0 (L1 c) (L2 c) (L3 c) (ncores c).

Section Example.

Variable S : scalar.
Notation T := (elt S).
Notation thr := (thr T).
Notation prog := (prog T).

(** [elem r]: the element rand_init makes of the result r of rand(); [add]: the sum of two floats;
    [num]: an int converted to float. *)
Variables (elem : Z -> T) (add : T -> T -> T) (num : Z -> T).

Local Open Scope thr_scope.

(** lines 55-56, one iteration *)
Definition flush_body (dirt : Z) : thr unit :=
  let+ d := pload S (dirty, 0) dirt in
  pstore S (dirty, 0) dirt (add d (num (Z.rem dirt 100))) ;;+
  let+ t := pload S (tttmp, 0) (Z.rem dirt 18) in
  let+ d := pload S (dirty, 0) dirt in
  pstore S (tttmp, 0) (Z.rem dirt 18) (add t d).

(** lines 53-57: the iterations share dirty and tttmp *)
Definition flush_loop (flushsz : Z) : prog unit := ppar_for 0 flushsz 1 flush_body.

(** lines 59-61 *)
Definition flush_sum : thr unit :=
  tfor_ 0 18 1 (fun ii =>
    let+ r := pload S (ressss, 0) 0 in
    let+ t := pload S (tttmp, 0) ii in
    pstore S (ressss, 0) 0 (add r t)).

Local Open Scope prog_scope.

(** lines 52-61.  malloc leaves the elements indeterminate. *)
Definition flush (flushsz : Z) : prog unit :=
  palloc dirty flushsz false None ;;;
  flush_loop flushsz ;;;
  pseq flush_sum.

(** lines 42-77, and the end of the life of tttmp and ressss, which have no initial value (lines
    43-44).  [fl] is Some flushsz; None stands for the program without lines 52-61 and 76.  [call] is
    the call of line 72, given the context and returning it as the call leaves it. *)
Definition trials (fl : option Z) (ntrials : Z) (call : cntx -> prog cntx) (c : cntx) : prog cntx :=
  palloc ressss 1 false None ;;;
  palloc tttmp 18 false None ;;;
  let* c := pfor 0 ntrials 1 c (fun _ c =>
    match fl with Some n => flush n | None => PRet tt end ;;;
    let* c := call c in
    match fl with Some n => pfree dirty | None => PRet tt end ;;;
    PRet c) in
  pfree tttmp ;;;
  pfree ressss ;;;
  PRet c.

(** lines 5-90.  [argc]: number of arguments, the program's name included; with less than three the
    program ends in exit(1) (lines 8-11), and with less than six one of the atoi of lines 19, 20 and 42
    is applied to the null pointer after the last argument, or to what follows it.  M, K, N, p, ntrials:
    what atoi finds.  [c] is the context cake_query_cntx returns (line 33).  [one] is 1.0f.
    Allocation, random matrices, check and release are those of the library's own tests
    ([one_test]); printing and timing are not modelled. *)
Definition example_main (F : fpenv) (ar : arch) (q : cntx) (nz : T -> bool) (one : T)
           (check : Z -> Z -> Z -> prog unit) (fl : option Z)
           (rndA rndB : Z -> Z) (argc M K N p ntrials : Z) (c : cntx) : prog cntx :=
  if argc <? 3 then PExit
  else if argc <? 6 then PUB
  else
    one_test S elem
      (trials fl ntrials (fun c => cake_sgemm S F ar q nz M N K p (Some c) false false one (zero S) KMN 0 0 0)
              (set_tile c))
      check rndA rndB M N K.

End Example.
