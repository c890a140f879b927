(** * Properties of the packing kernels taken from BLIS. *)

From Coq Require Import ZArith List Bool.
From Verif Require Import Lang Spec SpecTop ModelSizing ModelKernel ModelPack ModelBlis SpecBlis Exec Witness Exec_facts Mult_facts Blis_facts.
Open Scope Z_scope.

(** C56.  Whichever packing kernels the library is compiled with ([pk]: CAKE's own, BLIS's for
    Haswell, BLIS's for ARMv8), packing a full panel of A gives the same result for every depth k and
    every leading dimension K: element (i, j) of the panel goes to place j*n + i.  Nothing outside
    the n x k panel is read ([BufA] may end right after its last element), and nothing outside
    the n*k elements is written.  [A_panel pk n]: n is the number of rows the kernel is made for
    (any for CAKE's, 6 and 8 for the others). *)
Theorem C56_A_panel :
  forall S pk n k K oa op (f : Z -> Z -> elt S) m,
  A_panel pk n -> 0 <= k -> 0 <= K -> 0 <= oa -> 0 <= op ->
  (k = 0 \/ at_least m BufA (oa + (n - 1) * K + k)) -> at_least m (BufAp 0) (op + k * n) ->
  (forall i j, 0 <= i < n -> 0 <= j < k -> dat m BufA (oa + i * K + j) = Some (f i j)) ->
  always (pseq (A_packing_kernel S pk n k true (BufA, oa) K 1 (BufAp 0, op) n)) m (fun _ m' =>
    (forall i j, 0 <= i < n -> 0 <= j < k -> dat m' (BufAp 0) (op + j * n + i) = Some (f i j)) /\
    (forall b, live m' b = live m b) /\
    (forall b x, ~ (b = BufAp 0 /\ op <= x < op + k * n) -> dat m' b x = dat m b x)).
Proof. exact A_kernel_alone. Qed.
Print Assumptions C56_A_panel.

(** The same for B: row i of the k x n panel goes to places i*n .. i*n + n - 1. *)
Theorem C56_B_panel :
  forall S pk n k N ob op (f : Z -> Z -> elt S) m,
  B_panel pk n -> 0 <= k -> 0 <= N -> 0 <= ob -> 0 <= op ->
  (k = 0 \/ at_least m BufB (ob + (k - 1) * N + n)) -> at_least m BufBp (op + k * n) ->
  (forall i j, 0 <= i < k -> 0 <= j < n -> dat m BufB (ob + i * N + j) = Some (f i j)) ->
  always (pseq (B_packing_kernel S pk n k true (BufB, ob) 1 N (BufBp, op) n)) m (fun _ m' =>
    (forall i j, 0 <= i < k -> 0 <= j < n -> dat m' BufBp (op + i * n + j) = Some (f i j)) /\
    (forall b, live m' b = live m b) /\
    (forall b x, ~ (b = BufBp /\ op <= x < op + k * n) -> dat m' b x = dat m b x)).
Proof. exact B_kernel_alone. Qed.
Print Assumptions C56_B_panel.

(** For any other number of rows or columns (the autotuner and a user's own context may choose
    one) the BLIS kernels write nothing at all, whatever the operands: such a panel is never
    packed. *)
Theorem C56_other_sizes :
  forall S pk n k unit a inca lda p ldp m, pk <> CakePack ->
  (~ A_panel pk n -> always (pseq (A_packing_kernel S pk n k unit a inca lda p ldp)) m (fun _ m' =>
     (forall b, live m' b = live m b) /\ forall b x, dat m' b x = dat m b x)) /\
  (~ B_panel pk n -> always (pseq (B_packing_kernel S pk n k unit a inca lda p ldp)) m (fun _ m' =>
     (forall b, live m' b = live m b) /\ forall b x, dat m' b x = dat m b x)).
Proof. exact blis_other_sizes. Qed.
Print Assumptions C56_other_sizes.

(** The kernels of BLIS take any two strides of which one is 1, so a matrix may be stored by rows or
    by columns: the panel is the same, and nothing else is read or written. *)
Theorem C56_A_any_layout :
  forall S pk n k inca lda oa op (f : Z -> Z -> elt S) m,
  pk <> CakePack -> A_panel pk n -> 0 <= k -> 0 <= inca -> 0 <= lda -> inca = 1 \/ lda = 1 -> 0 <= oa -> 0 <= op ->
  (k = 0 \/ at_least m BufA (oa + (n - 1) * inca + (k - 1) * lda + 1)) -> at_least m (BufAp 0) (op + k * n) ->
  (forall i j, 0 <= i < n -> 0 <= j < k -> dat m BufA (oa + i * inca + j * lda) = Some (f i j)) ->
  always (pseq (A_packing_kernel S pk n k true (BufA, oa) inca lda (BufAp 0, op) n)) m (fun _ m' =>
    (forall i j, 0 <= i < n -> 0 <= j < k -> dat m' (BufAp 0) (op + j * n + i) = Some (f i j)) /\
    (forall b, live m' b = live m b) /\
    (forall b x, ~ (b = BufAp 0 /\ op <= x < op + k * n) -> dat m' b x = dat m b x)).
Proof. exact blis_A_layout. Qed.
Print Assumptions C56_A_any_layout.

Theorem C56_B_any_layout :
  forall S pk n k inca lda ob op (f : Z -> Z -> elt S) m,
  pk <> CakePack -> B_panel pk n -> 0 <= k -> 0 <= inca -> 0 <= lda -> inca = 1 \/ lda = 1 -> 0 <= ob -> 0 <= op ->
  (k = 0 \/ at_least m BufB (ob + (k - 1) * lda + (n - 1) * inca + 1)) -> at_least m BufBp (op + k * n) ->
  (forall i j, 0 <= i < k -> 0 <= j < n -> dat m BufB (ob + i * lda + j * inca) = Some (f i j)) ->
  always (pseq (B_packing_kernel S pk n k true (BufB, ob) inca lda (BufBp, op) n)) m (fun _ m' =>
    (forall i j, 0 <= i < k -> 0 <= j < n -> dat m' BufBp (op + i * n + j) = Some (f i j)) /\
    (forall b, live m' b = live m b) /\
    (forall b x, ~ (b = BufBp /\ op <= x < op + k * n) -> dat m' b x = dat m b x)).
Proof. exact blis_B_layout. Qed.
Print Assumptions C56_B_any_layout.

(** With two strides other than 1 they write nothing at all; those for Haswell also write nothing
    when the scaling factor is a number other than 1 ([unit] is the outcome of the comparison). *)
Theorem C56_not_packed :
  forall S pk n k unit a inca lda p ldp m, pk <> CakePack ->
  inca <> 1 /\ lda <> 1 \/ pk = BlisHaswellPack /\ unit = false ->
  always (pseq (A_packing_kernel S pk n k unit a inca lda p ldp)) m (fun _ m' =>
     (forall b, live m' b = live m b) /\ forall b x, dat m' b x = dat m b x) /\
  always (pseq (B_packing_kernel S pk n k unit a inca lda p ldp)) m (fun _ m' =>
     (forall b, live m' b = live m b) /\ forall b x, dat m' b x = dat m b x).
Proof. exact blis_left_alone. Qed.
Print Assumptions C56_not_packed.

(** a 14 x 19 matrix; the panel is rows 2 .. 7 (2 .. 9), columns 3 .. 18, the last of the matrix *)
Definition bmem (n : Z) : mem Z :=
  Mem (fun b => match b with
    | BufA => Some (BInfo ((2 + n) * 19) false) | BufAp 0 => Some (BInfo (16 * n) true)
    | BufB => Some (BInfo ((2 + n) * 19) false) | BufBp => Some (BInfo (16 * n) true) | _ => None end)
   (fun b i => match b with BufA | BufB => Some (wA i) | _ => None end).

Example C56_applies :
  A_panel BlisHaswellPack 6 /\ A_panel BlisArmv8Pack 8 /\
  at_least (bmem 6) BufA (2 * 19 + 3 + (6 - 1) * 19 + 16) /\ at_least (bmem 6) (BufAp 0) (0 + 16 * 6) /\
  (forall pk, In pk (CakePack :: BlisHaswellPack :: nil) ->
   match pseqexec (pseq (A_packing_kernel Zs pk 6 16 true (BufA, 41) 19 1 (BufAp 0, 0) 6)) (bmem 6) with
   | Done _ m' => dat m' (BufAp 0) (13 * 6 + 5) = Some (wA (41 + 5 * 19 + 13)) | _ => False end) /\
  (forall pk, In pk (CakePack :: BlisArmv8Pack :: nil) ->
   match pseqexec (pseq (A_packing_kernel Zs pk 8 16 true (BufA, 41) 19 1 (BufAp 0, 0) 8)) (bmem 8) with
   | Done _ m' => dat m' (BufAp 0) (14 * 8 + 7) = Some (wA (41 + 7 * 19 + 14)) | _ => False end).
Proof.
  split; [reflexivity|]. split; [reflexivity|].
  split; [exists (BInfo 152 false); split; [reflexivity|discriminate]|].
  split; [exists (BInfo 96 true); split; [reflexivity|discriminate]|].
  split; intros pk [<-|[<-|[]]]; vm_compute; reflexivity.
Qed.

Example C56_B_applies :
  B_panel BlisHaswellPack 16 /\ B_panel BlisArmv8Pack 12 /\
  (forall pk, In pk (CakePack :: BlisHaswellPack :: nil) ->
   match pseqexec (pseq (B_packing_kernel Zs pk 16 11 true (BufB, 3) 1 19 (BufBp, 0) 16)) (bmem 16) with
   | Done _ m' => dat m' BufBp (10 * 16 + 15) = Some (wA (3 + 10 * 19 + 15)) | _ => False end) /\
  (forall pk, In pk (CakePack :: BlisArmv8Pack :: nil) ->
   match pseqexec (pseq (B_packing_kernel Zs pk 12 13 true (BufB, 7) 1 19 (BufBp, 0) 12)) (bmem 12) with
   | Done _ m' => dat m' BufBp (12 * 12 + 11) = Some (wA (7 + 12 * 19 + 11)) | _ => False end).
Proof.
  split; [reflexivity|]. split; [reflexivity|].
  split; intros pk [<-|[<-|[]]]; vm_compute; reflexivity.
Qed.

(** A context with m_r = 12 on Haswell: the packed panel keeps no value. *)
Example C56_other_sizes_applies :
  ~ A_panel BlisHaswellPack 12 /\
  match pseqexec (pseq (A_packing_kernel Zs BlisHaswellPack 12 16 true (BufA, 41) 19 1 (BufAp 0, 0) 12)) (bmem 12) with
  | Done _ m' => dat m' (BufAp 0) 0 = None | _ => False end.
Proof. split; [discriminate|vm_compute; reflexivity]. Qed.

(** A stored by columns, B transposed; then both strides 19. *)
Example C56_any_layout_applies :
  match pseqexec (pseq (A_packing_kernel Zs BlisHaswellPack 6 5 true (BufA, 41) 1 19 (BufAp 0, 0) 6)) (bmem 6) with
  | Done _ m' => dat m' (BufAp 0) (4 * 6 + 5) = Some (wA (41 + 5 + 4 * 19)) | _ => False end /\
  match pseqexec (pseq (B_packing_kernel Zs BlisHaswellPack 16 11 true (BufB, 3) 19 1 (BufBp, 0) 16)) (bmem 16) with
  | Done _ m' => dat m' BufBp (10 * 16 + 15) = Some (wA (3 + 10 + 15 * 19)) | _ => False end /\
  match pseqexec (pseq (B_packing_kernel Zs BlisArmv8Pack 12 11 true (BufB, 3) 19 1 (BufBp, 0) 12)) (bmem 12) with
  | Done _ m' => dat m' BufBp (10 * 12 + 11) = Some (wA (3 + 10 + 11 * 19)) | _ => False end /\
  match pseqexec (pseq (A_packing_kernel Zs BlisHaswellPack 6 2 true (BufA, 41) 19 19 (BufAp 0, 0) 6)) (bmem 6) with
  | Done _ m' => dat m' (BufAp 0) 0 = None | _ => False end.
Proof. vm_compute. repeat split; reflexivity. Qed.
