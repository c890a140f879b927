(** * Properties of any sequence of calls of the multiplication functions (SpecAny.v). *)

From Coq Require Import ZArith Reals List Bool Lia.
From Flocq Require Import Core BinarySingleNaN.
From Verif Require Import Lang Spec SpecTop SpecOnline SpecSingle SpecAny ModelSizing ModelIEEE ModelSingle ModelTop ModelUtil
     Exec Witness Witness_facts Online_facts Grid_call_facts WitnessSingle WitnessAny AnyCall_facts.
Import ListNotations.
Open Scope Z_scope.

(** C40.  What C holds after a call does not depend on the calls made before with the same context,
    whichever functions were called: the last call decides.  In particular a repeated call, and a
    call on a C with other contents, leave the same C.  The context keeps its sizes, and
    nothing but C changes. *)
Theorem C40_last_call_decides :
  forall S F ar q (nz : elt S -> bool) M N K c x, allowed S F ar nz M N K c x ->
  exists ord, orders K ord /\ forall before A B m0,
    Forall (allowed S F ar nz M N K c) before ->
    caller m0 M N K A B -> room S M N K m0 c x -> Forall (room S M N K m0 c) before ->
    always (runs S F ar q nz M N K c (before ++ [x])) m0
      (fun c' m' => same_ctx c c' /\ holds m' BufC M N (product S A B ord) /\ only_C_changed m0 m' M N).
Proof. exact last_decides. Qed.
Print Assumptions C40_last_call_decides.

(** C04.  When sums can be reordered every nonempty sequence of calls leaves the mathematical product, ... *)
Theorem C04_any_functions_product :
  forall S F ar q (nz : elt S -> bool) M N K c l add mul A B m0,
  sums S add mul -> l <> [] -> Forall (allowed S F ar nz M N K c) l ->
  caller m0 M N K A B -> Forall (room S M N K m0 c) l ->
  always (runs S F ar q nz M N K c l) m0
    (fun _ m' => holds m' BufC M N (matmul S add mul A B K) /\ only_C_changed m0 m' M N).
Proof. exact runs_matmul. Qed.
Print Assumptions C04_any_functions_product.

(** ... so all functions, on all machines, give the same C. *)
Theorem C04_functions_agree :
  forall S F1 F2 ar1 ar2 q1 q2 (nz : elt S -> bool) M N K c1 c2 l1 l2 add mul A B m1 m2 o1 o2,
  sums S add mul -> 0 <= M -> 0 <= N -> l1 <> [] -> l2 <> [] ->
  Forall (allowed S F1 ar1 nz M N K c1) l1 -> caller m1 M N K A B -> Forall (room S M N K m1 c1) l1 ->
  Forall (allowed S F2 ar2 nz M N K c2) l2 -> caller m2 M N K A B -> Forall (room S M N K m2 c2) l2 ->
  pexec (runs S F1 ar1 q1 nz M N K c1 l1) m1 o1 -> pexec (runs S F2 ar2 q2 nz M N K c2 l2) m2 o2 ->
  exists r1 r2 m1' m2', o1 = Done r1 m1' /\ o2 = Done r2 m2' /\
    forall i, 0 <= i < M * N -> dat m1' BufC i = dat m2' BufC i.
Proof. exact runs_agree. Qed.
Print Assumptions C04_functions_agree.

(** C55.  The checker accepts the result of any of them. *)
Theorem C55_checker_accepts_any_function :
  forall F ar q (nz : single -> bool) M N K c l ok bad A B m0,
  l <> [] -> 0 <= M -> 0 <= N -> 0 <= K ->
  Forall (allowed Single F ar nz M N K c) l -> caller m0 M N K A B -> Forall (room Single M N K m0 c) l ->
  all_finite M K A -> all_finite K N B -> at_least m0 retb 1 ->
  (forall i j, 0 <= i < M -> 0 <= j < N ->
    ((2 * grow (K + 1) - 2) * mass A B K i j + 3 * IZR K * grow (K + 1) * / 2 ^ 150 <= 1 / 1000)%R /\
    (grow (K + 1) * mass A B K i j + 2 * IZR K * grow (K + 1) * / 2 ^ 150 < 2 ^ 128)%R) ->
  always (pbind (runs Single F ar q nz M N K c l)
                (fun _ => cake_sgemm_checker Single_mul_add far_single ok bad (BufA, 0) (BufB, 0) (BufC, 0) N M K)) m0
    (fun _ m' => (forall b, live m' b = live m0 b) /\ dat m' retb 0 = Some ok).
Proof. exact runs_then_check. Qed.
Print Assumptions C55_checker_accepts_any_function.

(** Every function and schedule once, 18 x 48 x 5 on up to four cores (WitnessAny.v) *)
Example C04_C40_any_apply :
  let A := fun i k => wA (i * 5 + k) in let B := fun k j => wB (k * 48 + j) in
  sums Zs Z.add Z.mul /\ Forall (allowed Zs wFr haswell Znz 18 48 5 wctx) (every_call (S := Zs) 1 0) /\
  caller (wmem 18 48 5) 18 48 5 A B /\ Forall (room Zs 18 48 5 (wmem 18 48 5) wctx) (every_call (S := Zs) 1 0) /\
  outC (pseqexec (runs Zs wFr haswell wctx Znz 18 48 5 wctx (every_call (S := Zs) 1 0)) (wmem 18 48 5)) (17 * 48 + 47) =
    Some (matmul Zs Z.add Z.mul A B 5 17 47).
Proof.
  split; [split; [reflexivity|split; [exact Z.add_comm|exact Z.add_assoc]]|].
  split; [apply every_allowed; reflexivity|]. split; [apply w_caller|]. split; [apply every_room|]. vm_compute. reflexivity.
Qed.

Example C55_any_applies :
  let A := fun i k : Z => single_of_int 3 in let B := fun k j : Z => single_of_int 5 in
  let m0 := smem 18 48 5 (fun _ => 3) (fun _ => 5) in let l := skipn 5 (every_call (S := Single) (single_of_int 1) sok) in
  Forall (allowed Single wFr haswell is1 18 48 5 wctx) l /\ caller m0 18 48 5 A B /\ Forall (room Single 18 48 5 m0 wctx) l /\
  all_finite 18 5 A /\ all_finite 5 48 B /\ at_least m0 retb 1 /\
  sout (pseqexec (pbind (runs Single wFr haswell wctx is1 18 48 5 wctx l)
                   (fun _ => cake_sgemm_checker Single_mul_add far_single sok sbad (BufA, 0) (BufB, 0) (BufC, 0) 48 18 5)) m0) retb 0
    = Some (B2SF sok).
Proof.
  intros A B m0 l. split; [exact (Forall_tail 5 (every_allowed Single is1 (single_of_int 1) sok eq_refl))|]. split; [apply s_caller|].
  split; [exact (Forall_tail 5 (every_room Single m0 (single_of_int 1) sok))|].
  split; [intros i k Hi Hk; now apply s_finite|]. split; [intros k j Hk Hj; now apply s_finite|].
  split; [exists (BInfo 1 false); split; [reflexivity|cbn; lia]|]. vm_compute. reflexivity.
Qed.
