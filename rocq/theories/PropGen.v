(** * C67: the kernels the generator writes. *)

From Coq Require Import ZArith List Bool Lia.
From Verif Require Import Lang Exec Spec ModelSizing ModelKernel ModelSingle SpecTop SpecSmall SpecTouch Witness
  ModelGen SpecGen Gen_facts GenTab_facts GenSingle_facts.
Import ListNotations.
Open Scope Z_scope.

(** C67.  python/kernel_gen.py writes, for every height m and every width n that is a multiple of
    the vector width (8 floats for Haswell, 4 for ARM), a kernel that adds to the m x n tile of C
    the product of the packed panels of A and B, summing over k in increasing order, and changes
    nothing else; C may lie anywhere, B must be aligned to 32 bytes on Haswell. *)
Theorem C67_kernel_multiplies :
  forall S t m n (a b c : buf) ao bo co mm k (A B C : Z -> Z -> elt S) (m0 : mem (elt S)),
  (t = Armv8 -> commutes S) -> 0 < m -> 0 < n -> (width t | n) -> 0 <= k ->
  col_stored m0 a ao m m k A -> row_stored m0 b bo n k n B -> row_stored m0 c co n m n C ->
  (k = 0 \/ b_aligned t m0 b bo) ->
  turns_tile_into (ppar_for 0 1 1 (fun _ => run_kernel S t (gen_kernel t m n) (a, ao) (b, bo) (c, co) mm n k))
    m0 c co n m n (fun r s => dot S (A r) (fun kk => B kk s) (zrange 0 k) (C r s)).
Proof. exact multiplies. Qed.
Print Assumptions C67_kernel_multiplies.

(** kernel_map[i][j](..) in a library built from the generated header and source, whatever the
    limits given to the generator, is the kernel the theorems about the library are about:
    the same accesses in the same order with the same values, and undefined outside the table.
    On ARM the factors of the multiply-add are exchanged, which makes no difference to floats. *)
Theorem C67_library_kernels :
  forall S t m_lim n_lim i j A B C m n k,
  (t = Armv8 -> commutes S) ->
  call_entry S t m_lim n_lim i j A B C m n k =
  kernel_map S (built_for t (gen_header t m_lim n_lim)) i j A B C m n k.
Proof. exact call_ok. Qed.
Print Assumptions C67_library_kernels.

Theorem C67_float_factors_commute : commutes Single.
Proof. exact single_commutes. Qed.
Print Assumptions C67_float_factors_commute.

(** The table has one row for every height and one column for every width up to the limits, entry
    (i, j) is the kernel of height start + 2i and width start + fact*j, that kernel is defined in
    the generated file, and the constants are fit for the library ([arch_ok]). *)
Theorem C67_table :
  forall t m_lim n_lim,
  let h := gen_header t m_lim n_lim in
  arch_ok (built_for t h) /\
  h_rows h = Z.max 0 ((m_lim - start_m t) / 2 + 1) /\
  h_cols h = Z.max 0 ((n_lim - start_n t) / fact_n t + 1) /\
  forall i j, 0 <= i < h_rows h -> 0 <= j < h_cols h ->
    let name := (start_m t + i * 2, start_n t + j * fact_n t) in
    map_entry h i j = Some name /\
    lookup (gen_file t m_lim n_lim) name = Some (gen_kernel t (fst name) (snd name)).
Proof.
  intros t ml nl h. destruct (counts t ml nl) as [R C]. split; [apply built_ok|]. split; [exact R|]. split; [exact C|].
  intros i j Hi Hj name. split; [|exact (defined_at t ml nl i j Hi Hj)].
  unfold h. rewrite entry_at. fold h.
  replace ((0 <=? i) && (i <? h_rows h) && (0 <=? j) && (j <? h_cols h)) with true; [reflexivity|].
  symmetry. rewrite !andb_true_iff, !Z.leb_le, !Z.ltb_lt. lia.
Qed.
Print Assumptions C67_table.

(** install.sh: "kernel_gen.py haswell 8 32 dense" and "kernel_gen.py armv8 10 24 dense" give the
    constants used everywhere else. *)
Theorem C67_installed :
  built_for Haswell (gen_header Haswell 8 32) = haswell /\ built_for Armv8 (gen_header Armv8 10 24) = armv8.
Proof. split; reflexivity. Qed.
Print Assumptions C67_installed.

(** The condition on the width is needed: when the columns beyond the last full vector of all rows
    together make a vector, the code uses registers that do not exist, whatever it is called with. *)
Theorem C67_width_refuted :
  forall S t m n A B C mm nn k (m0 : mem (elt S)),
  0 < m -> 0 < n -> width t <= m * (n mod width t) ->
  always_undefined (ppar_for 0 1 1 (fun _ => run_kernel S t (gen_kernel t m n) A B C mm nn k)) m0.
Proof. exact not_multiple. Qed.
Print Assumptions C67_width_refuted.

(** A 3 x 16 Haswell kernel and a 2 x 8 ARM kernel on integers, six steps (four unrolled, two left). *)
Definition gmem : mem Z :=
  Mem (fun b => match b with BufA => Some (BInfo 40 false) | BufB => Some (BInfo 120 true)
                           | BufC => Some (BInfo 60 false) | _ => None end)
      (fun b i => match b with BufA => Some (i + 1) | BufB => Some (2 * i - 3) | BufC => Some (5 * i) | _ => None end).

Ltac cells := intros ? ? ? ?; eexists; split; [reflexivity|split; [cbn [blen]; lia|reflexivity]].

Example C67_applies :
  commutes Zs /\
  col_stored gmem BufA 1 3 3 6 (fun r k => 1 + k * 3 + r + 1) /\
  row_stored gmem BufB 8 16 6 16 (fun k s => 2 * (8 + k * 16 + s) - 3) /\
  row_stored gmem BufC 5 16 3 16 (fun r s => 5 * (5 + r * 16 + s)) /\
  b_aligned Haswell gmem BufB 8 /\ b_aligned Armv8 gmem BufB 3 /\
  match pseqexec (ppar_for 0 1 1 (fun _ =>
      run_kernel Zs Haswell (gen_kernel Haswell 3 16) (BufA, 1) (BufB, 8) (BufC, 5) 0 16 6)) gmem with
  | Done _ m' => dat m' BufC (5 + 2 * 16 + 9) =
      Some (230 + (4 * 31 + 7 * 63 + 10 * 95 + 13 * 127 + 16 * 159 + 19 * 191)) | _ => False end /\
  match pseqexec (ppar_for 0 1 1 (fun _ =>
      run_kernel Zs Armv8 (gen_kernel Armv8 2 8) (BufA, 1) (BufB, 3) (BufC, 5) 0 8 6)) gmem with
  | Done _ m' => dat m' BufC (5 + 1 * 8 + 6) =
      Some (95 + (3 * 15 + 5 * 31 + 7 * 47 + 9 * 63 + 11 * 79 + 13 * 95)) | _ => False end /\
  (exists f, call_entry Zs Haswell 8 32 1 1 (BufA, 0) (BufB, 0) (BufC, 0) 8 32 4 = f /\ f <> TFail) /\
  8 <= 8 * (12 mod width Haswell).
Proof.
  split; [intros a b c; cbn; lia|]. do 3 (split; [cells|]).
  split; [right; eexists; split; [reflexivity|split; [reflexivity|now exists 1]]|]. split; [now left|].
  split; [vm_compute; reflexivity|]. split; [vm_compute; reflexivity|].
  split; [eexists; split; [reflexivity|discriminate]|]. vm_compute. discriminate.
Qed.
