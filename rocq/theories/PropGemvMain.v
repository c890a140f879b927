(** * The matrix-vector example as a whole (main of examples/cake_gemv.cpp). *)

From Coq Require Import ZArith List Bool Lia.
From Verif Require Import Lang Lang_facts Spec SpecTop SpecPack SpecTouch SpecTests SpecGemv SpecGemvMain ModelSizing ModelKernel ModelUtil ModelGemv
     ModelGemvMain Witness GemvMain_facts.
Import ListNotations.
Open Scope Z_scope.

(** C75.  The example multiplies a random matrix by a random vector and checks the product.  The
    field it selects the blocking by is never assigned: as it stands every execution is undefined. *)
Theorem C75_as_written_refuted :
  forall S elem far all_correct some_wrong raw rndA rndB argc M K p (m : mem (elt S)),
  4 <= argc -> 0 <= M -> 0 <= K -> 0 < p -> 0 <= raw -> nothing_yet m ->
  always_undefined (gemv_main S elem far all_correct some_wrong raw None rndA rndB argc M K p) m.
Proof. exact main_field. Qed.
Print Assumptions C75_as_written_refuted.

(** Were the field KMN, the example would find its result correct for a matrix of at most one
    column whose rows are a multiple of eight, on any number of cores and with any random numbers;
    it releases the operands, but not the array it checks with. *)
Theorem C75_one_column :
  forall S elem far all_correct some_wrong raw rndA rndB argc M K p (m : mem (elt S)),
  4 <= argc -> 0 <= M -> 0 <= K -> 0 < p -> 0 <= raw -> nothing_yet m ->
  (8 | M) -> K <= 1 -> (forall a, far a a = false) -> at_least m retb 1 ->
  always (gemv_main S elem far all_correct some_wrong raw (Some KMN) rndA rndB argc M K p) m (fun _ m' =>
    dat m' retb 0 = Some all_correct /\
    live m' BufA = None /\ live m' BufB = None /\ live m' BufC = None /\ live m' (BufX 0) = Some (BInfo M false)).
Proof. exact main_one_column. Qed.
Print Assumptions C75_one_column.

(** With two columns or more the threads of the check race ... *)
Theorem C75_columns_refuted :
  forall S elem far all_correct some_wrong raw rndA rndB argc M K p (m : mem (elt S)),
  4 <= argc -> 0 <= M -> 0 <= K -> 0 < p -> 0 <= raw -> nothing_yet m ->
  (8 | M) -> 0 < M -> 2 <= K ->
  pexec (gemv_main S elem far all_correct some_wrong raw (Some KMN) rndA rndB argc M K p) m Undef.
Proof. exact main_race. Qed.
Print Assumptions C75_columns_refuted.

(** ... and with any other number of rows every execution is undefined. *)
Theorem C75_rows_refuted :
  forall S elem far all_correct some_wrong raw rndA rndB argc M K p (m : mem (elt S)),
  4 <= argc -> 0 <= M -> 0 <= K -> 0 < p -> 0 <= raw -> nothing_yet m ->
  0 < M -> 0 < K -> ~ (8 | M) ->
  always_undefined (gemv_main S elem far all_correct some_wrong raw (Some KMN) rndA rndB argc M K p) m.
Proof. exact main_rows. Qed.
Print Assumptions C75_rows_refuted.

(** The example demands two arguments and reads three. *)
Theorem C75_arguments_refuted :
  forall S elem far all_correct some_wrong raw field rndA rndB argc M K p (m : mem (elt S)),
  (argc < 3 -> forall o, pexec (gemv_main S elem far all_correct some_wrong raw field rndA rndB argc M K p) m o <-> o = Exited) /\
  (argc = 3 -> always_undefined (gemv_main S elem far all_correct some_wrong raw field rndA rndB argc M K p) m).
Proof.
  intros S elem far ac sw raw field rndA rndB argc M K p m. unfold gemv_main. split.
  - intros H o. destruct (Z.ltb_spec argc 3); [|lia]. split; intros X; [now inversion X|subst; constructor].
  - intros ->. split; [constructor|]. intros o X. now inversion X.
Qed.
Print Assumptions C75_arguments_refuted.

(** The comparison by itself, of any two arrays: it says whether they agree, and if not in how
    many elements they do not. *)
Theorem C75_comparison :
  forall S (far : elt S -> elt S -> bool) all_correct some_wrong M m,
  0 <= M -> at_least m (BufX 0) M -> at_least m BufC M -> at_least m retb 1 ->
  initialised m (BufX 0) M -> initialised m BufC M ->
  always (pseq (gemv_compare S far all_correct some_wrong M)) m (fun _ m' =>
    live m' = live m /\ (forall b i, ~ (b = retb /\ i = 0) -> dat m' b i = dat m b i) /\
    dat m' retb 0 = Some (let wrong := far_pairs far m (BufX 0) BufC M in if wrong =? 0 then all_correct else some_wrong wrong)).
Proof. exact (fun S => comparison_ok S (fun _ => zero S)). Qed.
Print Assumptions C75_comparison.

(** Sixteen rows and one column on three cores; the same with three columns, with 15 rows. *)
Definition nmem : mem Z := Mem (fun b => if buf_eqb b retb then Some (BInfo 1 false) else None) (fun _ _ => None).

Example C75_applies :
  nothing_yet nmem /\ at_least nmem retb 1 /\
  always (gemv_main Zs (fun r => r) (fun a b => negb (a =? b)) 1 (fun w => - w) 254 (Some KMN) wA wB 4 16 1 3) nmem (fun _ m' =>
    dat m' retb 0 = Some 1 /\
    live m' BufA = None /\ live m' BufB = None /\ live m' BufC = None /\ live m' (BufX 0) = Some (BInfo 16 false)) /\
  pexec (gemv_main Zs (fun r => r) (fun a b => negb (a =? b)) 1 (fun w => - w) 254 (Some KMN) wA wB 4 16 3 3) nmem Undef /\
  always_undefined (gemv_main Zs (fun r => r) (fun a b => negb (a =? b)) 1 (fun w => - w) 254 (Some KMN) wA wB 4 15 1 3) nmem /\
  far_pairs (fun a b => negb (a =? b)) (mem3 0 0 3 (fun _ => None) (fun i => Some i) (fun i => Some (i * i))) BufB BufC 3 = 1.
Proof.
  assert (H0 : nothing_yet nmem).
  { repeat split. intros b Hb. unfold nmem. cbn [live]. destruct (buf_eqb_spec b retb) as [->|]; [cbn in Hb; lia|reflexivity]. }
  assert (H1 : at_least nmem retb 1) by (exists (BInfo 1 false); split; [reflexivity|cbn; lia]).
  split; [exact H0|]. split; [exact H1|]. split; [|split; [|split]].
  - apply C75_one_column; auto; try lia; try (now exists 2).
  - apply C75_columns_refuted; auto; try lia. now exists 2.
  - apply C75_rows_refuted; auto; try lia. intros [q Hq]. lia.
  - reflexivity.
Qed.
