(** * pack_test1 of the public header: A in panels of six rows. *)

From Coq Require Import ZArith List Bool Lia.
From Verif Require Import Lang Spec SpecTop SpecBlock SpecTouch SpecPack ModelSizing ModelKernel ModelPack ModelBlis
     ModelPackTest Exec Witness Exec_facts Mult_facts Witness_facts SizeCall_facts PackTest_facts.
Import ListNotations.
Open Scope Z_scope.

(** C77.  With CAKE's own packing kernel or BLIS's for Haswell, whatever the number of threads and
    however they interleave: element (i, j) goes to its place in panels of six rows and depth K,
    for all rows of the panels begun ((M + 5) / 6 * 6 of them, A must have that many), and nothing
    else changes. *)
Theorem C77_packs :
  forall S pk M K (A : Z -> Z -> elt S) m,
  pk <> BlisArmv8Pack -> 0 <= M -> 0 <= K ->
  at_least m BufA ((M + 5) / 6 * 6 * K) -> holds m BufA ((M + 5) / 6 * 6) K A ->
  at_least m (BufAp 0) ((M + 5) / 6 * 6 * K) ->
  fills (pack_test1 S pk (BufA, 0) (BufAp 0, 0) M K) m (BufAp 0) 0 ((M + 5) / 6 * 6) K (panel_slot 6 K) A.
Proof. exact test1_packs. Qed.
Print Assumptions C77_packs.

(** For a context with m_r = 6 and a number of rows that is a multiple of six, this is what pack_A
    leaves for the K-first schedule, if the whole depth is one block. *)
Theorem C77_same_as_pack_A :
  forall S F ar c M N K p mcu kcu ncu x c1,
  legal F ar KMN c M N K p mcu kcu ncu -> init_block_dims F M N K p c KMN mcu kcu ncu = CRet (x, c1) ->
  forall pk (A : Z -> Z -> elt S) m,
  pk <> BlisArmv8Pack -> mr c = 6 -> (6 | M) -> K <= k_c x ->
  at_least m BufA (M * K) -> holds m BufA M K A -> at_least m (BufAp 0) (M * K) ->
  always (pack_A S (BufA, 0) (BufAp 0, 0) M K p x c1 (sch x)) m (fun _ m1 =>
    always (pack_test1 S pk (BufA, 0) (BufAp 0, 0) M K) m (fun _ m2 => same_mem m1 m2)).
Proof. exact test1_same. Qed.
Print Assumptions C77_same_as_pack_A.

(** Any other number of rows, A of exactly M*K elements: every execution is undefined. *)
Theorem C77_rows_refuted :
  forall S pk M K A_p m bi,
  pk <> BlisArmv8Pack -> 0 < M -> 0 < K -> ~ (6 | M) ->
  live m BufA = Some bi -> blen bi = M * K ->
  always_undefined (pack_test1 S pk (BufA, 0) A_p M K) m.
Proof. exact test1_out. Qed.
Print Assumptions C77_rows_refuted.

(** With BLIS's kernel for ARMv8, made for eight rows: nothing is packed, whatever the sizes. *)
Theorem C77_armv8_refuted :
  forall S M K A A_p m,
  always (pack_test1 S BlisArmv8Pack A A_p M K) m (fun _ m' => live m' = live m /\ forall b x, dat m' b x = dat m b x).
Proof. exact test1_armv8. Qed.
Print Assumptions C77_armv8_refuted.

(** M rows of K elements *)
Definition tmem (M K : Z) : mem Z :=
  Mem (fun b => match b with BufA => Some (BInfo (M * K) false) | BufAp _ => Some (BInfo (M * K) true) | _ => None end)
      (fun b i => match b with BufA => Some (wA i) | _ => None end).

Definition at_Ap {R} (o : outcome Z R) (i : Z) : option Z :=
  match o with Done _ m => dat m (BufAp 0) i | _ => None end.

(** 12 x 9 in both packings (row 7, column 3 at place 6*9 + 3*6 + 1), the plan of a multiplication
    whose depth is one block, and 10 rows. *)
Example C77_applies :
  at_least (tmem 12 9) BufA ((12 + 5) / 6 * 6 * 9) /\ at_least (tmem 12 9) (BufAp 0) ((12 + 5) / 6 * 6 * 9) /\
  holds (tmem 12 9) BufA ((12 + 5) / 6 * 6) 9 (fun i j => wA (i * 9 + j)) /\
  at_Ap (pseqexec (pack_test1 Zs CakePack (BufA, 0) (BufAp 0, 0) 12 9) (tmem 12 9)) 73 = Some (wA (7 * 9 + 3)) /\
  at_Ap (pseqexec (pack_test1 Zs BlisHaswellPack (BufA, 0) (BufAp 0, 0) 12 9) (tmem 12 9)) 73 = Some (wA (7 * 9 + 3)) /\
  at_Ap (pseqexec (pack_test1 Zs BlisArmv8Pack (BufA, 0) (BufAp 0, 0) 12 9) (tmem 12 9)) 73 = None /\
  legal wF haswell KMN wctx 12 33 9 2 6 10 16 /\
  (exists x c1, init_block_dims wF 12 33 9 2 wctx KMN 6 10 16 = CRet (x, c1) /\ mr wctx = 6 /\ 9 <= k_c x) /\
  always_undefined (pack_test1 Zs CakePack (BufA, 0) (BufAp 0, 0) 10 9) (tmem 10 9).
Proof.
  split; [exists (BInfo 108 false); split; [reflexivity|cbn; lia]|].
  split; [exists (BInfo 108 true); split; [reflexivity|cbn; lia]|].
  split; [intros i j Hi Hj; reflexivity|].
  split; [vm_compute; reflexivity|]. split; [vm_compute; reflexivity|]. split; [vm_compute; reflexivity|].
  split; [|split; [do 2 eexists; split; [vm_compute; reflexivity|cbn; lia]|]].
  - apply w_legal; reflexivity || discriminate.
  - apply (C77_rows_refuted Zs CakePack 10 9 (BufAp 0, 0) (tmem 10 9) (BInfo (10 * 9) false)); try lia; auto; [discriminate|].
    intros [q Hq]. lia.
Qed.
