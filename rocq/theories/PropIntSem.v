(** * C34: the checks on which the other C34 theorems rest are those of the language. *)

From Coq Require Import ZArith.
From Verif Require Import Lang ModelSizing ModelInt SpecIntSem IntSem_facts.
Open Scope Z_scope.

(** An int expression in the sizing code, in a thread or in the main program goes on with a value
    exactly when the rules of C give it that value, and is undefined behaviour exactly when they
    give it none: an intermediate result overflows, or something is divided by zero. *)
Theorem C34_expressions_exact :
  forall V e,
  ((forall v, cint e = CRet v <-> evaluates e v) /\ (cint e = CUB <-> forall v, ~ evaluates e v)) /\
  ((forall v, @tint V e = TRet v <-> evaluates e v) /\ (@tint V e = TFail <-> forall v, ~ evaluates e v)) /\
  ((forall v, @pint V e = PRet v <-> evaluates e v) /\ (@pint V e = PUB <-> forall v, ~ evaluates e v)).
Proof. exact (fun V e => conj (cint_exact e) (conj (tint_exact V e) (pint_exact V e))). Qed.
Print Assumptions C34_expressions_exact.

(** A loop runs as it would with unbounded integers exactly when no value of its counter, the one
    that ends the loop included, is beyond the largest int; otherwise it is undefined. *)
Theorem C34_loops_exact :
  forall V R lo hi step s (tb : Z -> thr V unit) (pb : Z -> prog V unit)
         (tc : Z -> R -> thr V R) (pc : Z -> R -> prog V R),
  0 < step ->
  ((forall i, counts lo hi step i -> i <= 2147483647) ->
     (tfor32_ lo hi step tb = tfor_ lo hi step tb /\ pfor32_ lo hi step pb = pfor_ lo hi step pb /\
      ppar_for32 lo hi step tb = ppar_for lo hi step tb) /\
     (tfor32 lo hi step s tc = tfor lo hi step s tc /\ pfor32 lo hi step s pc = pfor lo hi step s pc)) /\
  ((exists i, counts lo hi step i /\ 2147483647 < i) ->
     (tfor32_ lo hi step tb = TFail /\ pfor32_ lo hi step pb = PUB /\ ppar_for32 lo hi step tb = PUB) /\
     (tfor32 lo hi step s tc = TFail /\ pfor32 lo hi step s pc = PUB)).
Proof.
  intros V R lo hi step s tb pb tc pc H.
  destruct (loops_exact V lo hi step tb pb H) as [A B], (carried_exact V R lo hi step s tc pc H) as [C D].
  split; intros X; split; auto.
Qed.
Print Assumptions C34_loops_exact.

(** Beside it: a product in the middle overflows although the value of the whole does not, and the
    last increment overflows although every turn of the loop has an int counter. *)
Example C34_exact_cases :
  evaluates (IxDiv (IxMul 65536 1000) 1000) 65536 /\
  (forall v, ~ evaluates (IxDiv (IxMul 65536 65536) 65536) v) /\
  (forall v, ~ evaluates (IxRem 5 0) v) /\
  (counts 0 2147483640 16 2147483648 /\ 2147483647 < 2147483648).
Proof. exact exact_cases. Qed.
