(** * main of the matrix-vector example: examples/cake_gemv.cpp.

    Definitions only. *)

From Coq Require Import ZArith List Bool.
From Verif Require Import Lang ModelSizing ModelKernel ModelPack ModelUtil ModelTests ModelGemv.
Open Scope Z_scope.

Section GemvMain.

Variable S : scalar.
Notation T := (elt S).
Notation thr := (thr T).
Notation prog := (prog T).

(** [elem r]: the element rand_init makes of the result r of rand(); [far a b]: fabs(a - b) > eps,
    line 55.  What is printed at line 67 is [all_correct], at lines 70-71 [some_wrong cnt]; it is
    delivered in element 0 of [retb]. *)
Variable elem : Z -> T.
Variable far : T -> T -> bool.
Variable all_correct : T.
Variable some_wrong : Z -> T.

Local Open Scope thr_scope.

(** cake_sgemv_checker, lines 48-73.  The loop state is (CORRECT, cnt, ind1).  [BufX 0] is C_check. *)
Definition gemv_compare (M : Z) : thr unit :=
  let+ r := tfor 0 M 1 (true, 0, 0) (fun _ (r : bool * Z * Z) =>
      let '(correct, cnt, ind1) := r in
      let+ a := tload (BufX 0) ind1 in
      let+ c := tload BufC ind1 in
      TRet (if far a c then (false, cnt + 1, ind1 + 1) else (correct, cnt, ind1 + 1))) in
  let '(correct, cnt, _) := r in
  tstore retb 0 (if correct then all_correct else some_wrong cnt).

Local Open Scope prog_scope.

(** cake_sgemv_checker, lines 24-75.  Both branches return before line 75, so C_check is not
    released. *)
Definition gemv_checker (M K : Z) : prog unit :=
  gemv_check_loop S M K ;;;
  pseq (gemv_compare M).

(** main, lines 771-821.  [argc]: number of arguments, the program's name included; with less than
    three the program ends in exit(1), and with three the atoi of line 785 is applied to the null
    pointer after the last argument.  M, K, p: what atoi finds.  Allocation, random operands and
    release are those of the library's own tests ([one_test], with one column; C_check is released
    by nobody).  The register tile has 8 rows (line 800), no tile sizes are given.  [raw] and
    [field]: see [cake_sgemv].  Printing and timing are not modelled. *)
Definition gemv_main (raw : Z) (field : option sched) (rndA rndB : Z -> Z) (argc M K p : Z) : prog unit :=
  if argc <? 3 then PExit
  else if argc <? 4 then PUB
  else one_test S elem (cake_sgemv S raw field M K p 8 None) (fun _ M K => gemv_checker M K) rndA rndB M 1 K.

End GemvMain.
