(** * Properties of the kernels for operands that are not all packed, and of the sparse kernels. *)

From Coq Require Import ZArith List Bool Permutation Lia.
From Verif Require Import Lang Spec SpecTop SpecSmall ModelSizing ModelKernel ModelPack ModelSmall
     Exec Witness Small_facts Sparse_facts SparseAny_facts.
Import ListNotations.
Open Scope Z_scope.

(** C49.  Each of the four 6x16 kernels for operands that are not all packed adds A*B to the
    6x16 tile of C and changes nothing else, for every depth k, every leading dimension and any
    number system.  A is read by columns.  The operands may overlap in any way. *)

(** Nothing packed: columns of A are M apart, rows of B and of C are N apart. *)
Theorem C49_kernel_unpacked :
  forall S (a b c : buf) ao bo co mm nn k M K N (A B C : Z -> Z -> elt S) m,
  0 <= k -> 16 <= N ->
  col_stored m a ao M 6 k A -> row_stored m b bo N k 16 B -> row_stored m c co N 6 16 C ->
  turns_tile_into (ppar_for 0 1 1 (fun _ => kernel_unpacked S (a, ao) (b, bo) (c, co) mm nn k M K N)) m c co N 6 16
    (fun r s => dot S (A r) (fun kk => B kk s) (zrange 0 k) (C r s)).
Proof. exact unpacked_ok. Qed.
Print Assumptions C49_kernel_unpacked.

(** A packed: its columns are 6 apart. *)
Theorem C49_kernel_A_packed :
  forall S (a b c : buf) ao bo co mm nn k M K N (A B C : Z -> Z -> elt S) m,
  0 <= k -> 16 <= N ->
  col_stored m a ao 6 6 k A -> row_stored m b bo N k 16 B -> row_stored m c co N 6 16 C ->
  turns_tile_into (ppar_for 0 1 1 (fun _ => kernel_A_packed S (a, ao) (b, bo) (c, co) mm nn k M K N)) m c co N 6 16
    (fun r s => dot S (A r) (fun kk => B kk s) (zrange 0 k) (C r s)).
Proof. exact A_packed_ok. Qed.
Print Assumptions C49_kernel_A_packed.

(** B packed: its rows are n apart.  Its loads need B to be aligned to 32 bytes. *)
Theorem C49_kernel_B_packed :
  forall S (a b c : buf) ao bo co mm nn k M K N (A B C : Z -> Z -> elt S) m,
  0 <= k -> 16 <= N ->
  col_stored m a ao M 6 k A -> row_stored m b bo nn k 16 B -> row_stored m c co N 6 16 C ->
  bo mod 8 = 0 -> nn mod 8 = 0 -> (exists bi, live m b = Some bi /\ b64 bi = true) ->
  turns_tile_into (ppar_for 0 1 1 (fun _ => kernel_B_packed S (a, ao) (b, bo) (c, co) mm nn k M K N)) m c co N 6 16
    (fun r s => dot S (A r) (fun kk => B kk s) (zrange 0 k) (C r s)).
Proof. exact B_packed_ok. Qed.
Print Assumptions C49_kernel_B_packed.

(** C packed: its rows are 16 apart. *)
Theorem C49_kernel_C_packed :
  forall S (a b c : buf) ao bo co mm nn k M K N (A B C : Z -> Z -> elt S) m,
  0 <= k ->
  col_stored m a ao M 6 k A -> row_stored m b bo N k 16 B -> row_stored m c co 16 6 16 C ->
  turns_tile_into (ppar_for 0 1 1 (fun _ => kernel_C_packed S (a, ao) (b, bo) (c, co) mm nn k M K N)) m c co 16 6 16
    (fun r s => dot S (A r) (fun kk => B kk s) (zrange 0 k) (C r s)).
Proof. exact C_packed_ok. Qed.
Print Assumptions C49_kernel_C_packed.

(** the wrapper calls the first of them *)
Theorem C49_small_ukernel :
  forall S A B C m_r n_r k M K N,
  cake_sgemm_small_ukernel S A B C m_r n_r k M K N = kernel_unpacked S A B C m_r n_r k M K N.
Proof. reflexivity. Qed.
Print Assumptions C49_small_ukernel.

(** Integer operands: A, B and C of 70, 96 and 120 elements, all aligned, rows of B and C 18 apart
    (B also read with rows 16 apart). *)
Definition smem : mem Z :=
  Mem (fun b => match b with BufA => Some (BInfo 70 true) | BufB => Some (BInfo 96 true)
                           | BufC => Some (BInfo 120 true) | _ => None end)
      (fun b i => match b with BufA => Some (i + 1) | BufB => Some (2 * i - 3) | BufC => Some (5 * i) | _ => None end).

Ltac cells := intros ? ? ? ?; eexists; split; [reflexivity|split; [cbn [blen]; lia|reflexivity]].

Example C49_applies :
  col_stored smem BufA 1 9 6 5 (fun r k => 1 + k * 9 + r + 1) /\
  col_stored smem BufA 1 6 6 5 (fun r k => 1 + k * 6 + r + 1) /\
  row_stored smem BufB 2 18 5 16 (fun k s => 2 * (2 + k * 18 + s) - 3) /\
  row_stored smem BufB 8 16 5 16 (fun k s => 2 * (8 + k * 16 + s) - 3) /\
  row_stored smem BufC 3 18 6 16 (fun r s => 5 * (3 + r * 18 + s)) /\
  row_stored smem BufC 3 16 6 16 (fun r s => 5 * (3 + r * 16 + s)) /\
  match pseqexec (ppar_for 0 1 1 (fun _ => kernel_unpacked Zs (BufA, 1) (BufB, 2) (BufC, 3) 6 16 5 9 5 18)) smem with
  | Done _ m' => dat m' BufC (3 + 4 * 18 + 7) =
      Some (5 * 82 + (6 * 15 + 15 * 51 + 24 * 87 + 33 * 123 + 42 * 159)) | _ => False end.
Proof. do 6 (split; [cells|]). vm_compute. reflexivity. Qed.

(** C50.  The sparse kernels (6x16 for x86, 8x12 for ARM) add A*B to the tile of C when A is given
    by its nonzeros: every nonzero listed is multiplied by the row of B of its column and added to
    its row of C, in the order listed.  The columns are taken in groups of four; once a group begins
    with a column without nonzeros, no later group may have nonzeros ([none_skipped]; it is enough
    to list empty columns last).  For x86 the rows of B must be aligned to 32 bytes. *)
Theorem C50_sparse_haswell_6x16 :
  forall S (a b c : buf) ao bo co mm n k nnz_outer k_inds loc_m
    (cols : Z -> list (Z * elt S)) kind B C m,
  0 <= k ->
  compressed m a ao nnz_outer k_inds loc_m 6 k cols kind -> none_skipped cols k ->
  (forall t s, 0 <= t < k -> 0 <= s < 16 -> cell m b (bo + n * kind t + s) (B (kind t) s)) ->
  bo mod 8 = 0 -> n mod 8 = 0 -> (exists bi, live m b = Some bi /\ b64 bi = true) ->
  row_stored m c co 16 6 16 C ->
  turns_tile_into (ppar_for 0 1 1 (fun _ =>
      cake_sp_sgemm_haswell_6x16 S (a, ao) (b, bo) (c, co) mm n k nnz_outer k_inds loc_m))
    m c co 16 6 16 (fun r s => sparse_dot S cols kind B r s (zrange 0 k) (C r s)).
Proof.
  intros. eapply turns_tile_eq; [|apply (sparse_any S 8 6 16) with (cols := cols) (kind := kind) (fb := B) (fc := C); auto; lia].
  intros. now apply sparse_used_all.
Qed.
Print Assumptions C50_sparse_haswell_6x16.

Theorem C50_sparse_armv8_8x12 :
  forall S (a b c : buf) ao bo co mm n k nnz_outer k_inds loc_m
    (cols : Z -> list (Z * elt S)) kind B C m,
  0 <= k ->
  compressed m a ao nnz_outer k_inds loc_m 8 k cols kind -> none_skipped cols k ->
  (forall t s, 0 <= t < k -> 0 <= s < 12 -> cell m b (bo + n * kind t + s) (B (kind t) s)) ->
  row_stored m c co 12 8 12 C ->
  turns_tile_into (ppar_for 0 1 1 (fun _ =>
      cake_sp_sgemm_armv8_8x12 S (a, ao) (b, bo) (c, co) mm n k nnz_outer k_inds loc_m))
    m c co 12 8 12 (fun r s => sparse_dot S cols kind B r s (zrange 0 k) (C r s)).
Proof.
  intros. eapply turns_tile_eq; [|apply (sparse_any S 1 8 12) with (cols := cols) (kind := kind) (fb := B) (fc := C); auto; lia].
  intros. now apply sparse_used_all.
Qed.
Print Assumptions C50_sparse_armv8_8x12.

(** In exact arithmetic this is the product with the matrix the lists describe. *)
Theorem C50_sparse_is_dense :
  forall (S : scalar) add mul cols kind rows k (A B : Z -> Z -> S) r s acc,
  sums S add mul -> (forall a b, add (mul (zero S) b) a = a) -> 0 <= r < rows ->
  describes S cols kind rows k A ->
  sparse_dot S cols kind B r s (zrange 0 k) acc = dot S (A r) (fun kk => B kk s) (zrange 0 k) acc.
Proof. intros. eapply sparse_dot_dense; eauto. Qed.
Print Assumptions C50_sparse_is_dense.

Theorem C50_empty_last_enough :
  forall V (cols : Z -> list (Z * V)) k, empty_last cols k -> none_skipped cols k.
Proof.
  intros V cols k H g u Hg E Hu. pose proof (Z.mul_div_le k 4 ltac:(lia)).
  apply (H (4 * g) u); [lia|lia|exact E].
Qed.
Print Assumptions C50_empty_last_enough.

(** What the kernels do for columns listed in any order: the groups of four up to the first that
    begins with an empty column, then the last k mod 4 columns, take their nonzeros from the list
    one after the other ([sparse_used]). *)
Theorem C50_any_order :
  forall S al kmr knr (a b c : buf) ao bo co mm n k nnz_outer k_inds loc_m
    (cols : Z -> list (Z * elt S)) kind B C m,
  0 < al -> 0 < kmr -> 0 < knr -> 0 <= k ->
  compressed m a ao nnz_outer k_inds loc_m kmr k cols kind ->
  (forall t s, 0 <= t < k -> 0 <= s < knr -> cell m b (bo + n * kind t + s) (B (kind t) s)) ->
  al = 1 \/ bo mod al = 0 /\ n mod al = 0 /\ (exists bi, live m b = Some bi /\ b64 bi = true) ->
  row_stored m c co knr kmr knr C ->
  turns_tile_into (ppar_for 0 1 1 (fun _ =>
      sp_kernel S al kmr knr (a, ao) (b, bo) (c, co) mm n k nnz_outer k_inds loc_m))
    m c co knr kmr knr (fun r s => sparse_used S cols kind B r s k (C r s)).
Proof. exact sparse_any. Qed.
Print Assumptions C50_any_order.

(** The condition on the order is exact: for every pattern of nonzeros that breaks it, there are
    values in the three matrices (the pattern, the indices and everything else unchanged) for which
    every execution leaves a wrong row of C. *)
Theorem C50_skipped_refuted :
  forall al kmr knr (a b c : buf) ao bo co mm n k nnz_outer k_inds loc_m
    (cols : Z -> list (Z * Z)) kind B C m g u,
  a <> b -> a <> c -> b <> c -> 0 < al -> 0 < kmr -> 0 < knr -> 0 <= k ->
  compressed m a ao nnz_outer k_inds loc_m kmr k cols kind ->
  (forall t s, 0 <= t < k -> 0 <= s < knr -> cell m b (bo + n * kind t + s) (B (kind t) s)) ->
  al = 1 \/ bo mod al = 0 /\ n mod al = 0 /\ (exists bi, live m b = Some bi /\ b64 bi = true) ->
  row_stored m c co knr kmr knr C ->
  0 <= g < k / 4 -> cols (4 * g) = [] -> 4 * g <= u < 4 * (k / 4) -> cols u <> [] ->
  exists m' cols' B' C' r,
    live m' = live m /\ (forall x i, x <> a -> x <> b -> x <> c -> dat m' x i = dat m x i) /\
    (forall t, map fst (cols' t) = map fst (cols t)) /\
    compressed m' a ao nnz_outer k_inds loc_m kmr k cols' kind /\
    (forall t s, 0 <= t < k -> 0 <= s < knr -> cell m' b (bo + n * kind t + s) (B' (kind t) s)) /\
    row_stored m' c co knr kmr knr C' /\ 0 <= r < kmr /\
    always (ppar_for 0 1 1 (fun _ =>
        sp_kernel Zs al kmr knr (a, ao) (b, bo) (c, co) mm n k nnz_outer k_inds loc_m)) m'
      (fun _ m'' => forall s, 0 <= s < knr ->
         dat m'' c (co + r * knr + s) <> Some (sparse_dot Zs cols' kind B' r s (zrange 0 k) (C' r s))).
Proof. exact sparse_skipped. Qed.
Print Assumptions C50_skipped_refuted.

(** In particular, if the first column listed has no nonzero, a tile
    of 4, 8, 12, ... columns is not multiplied at all, whatever the other columns hold. *)
Theorem C50_empty_column_first_refuted :
  forall S al kmr knr (a b c : buf) ao bo co mm n k nnz_outer k_inds loc_m (C : Z -> Z -> elt S) m,
  0 < kmr -> 0 < knr -> 0 < k -> (4 | k) -> nnz_outer 0 = Some 0 -> row_stored m c co knr kmr knr C ->
  turns_tile_into (ppar_for 0 1 1 (fun _ =>
      sp_kernel S al kmr knr (a, ao) (b, bo) (c, co) mm n k nnz_outer k_inds loc_m))
    m c co knr kmr knr C.
Proof. exact sparse_skip. Qed.
Print Assumptions C50_empty_column_first_refuted.

(** A tile of five columns, listed as 4, 0, 2, 1, 3, the last two empty. *)
Definition scols (t : Z) : list (Z * Z) :=
  match t with 0 => [(0, 2); (5, 7)] | 1 => [(3, -1)] | 2 => [(1, 4)] | _ => [] end.
Definition skind (t : Z) : Z := match t with 0 => 4 | 1 => 0 | 2 => 2 | 3 => 1 | _ => 3 end.
Definition snnz (t : Z) : option Z := match t with 0 => Some 2 | 1 => Some 1 | 2 => Some 1 | 3 => Some 0 | 4 => Some 0 | _ => None end.
Definition sinds (t : Z) : option Z := match t with 0 => Some 4 | 1 => Some 0 | 2 => Some 2 | 3 => Some 1 | 4 => Some 3 | _ => None end.
Definition slocs (q : Z) : option Z := match q with 0 => Some 0 | 1 => Some 5 | 2 => Some 3 | 3 => Some 1 | _ => None end.
Definition spmem (vals : Z -> Z) : mem Z :=
  Mem (fun b => match b with BufA => Some (BInfo 4 false) | BufB => Some (BInfo 80 true)
                           | BufC => Some (BInfo 96 false) | _ => None end)
      (fun b i => match b with BufA => Some (vals i) | BufB => Some (2 * i - 3) | BufC => Some (5 * i) | _ => None end).
Definition svals (q : Z) : Z := match q with 0 => 2 | 1 => 7 | 2 => -1 | _ => 4 end.
Definition sA (r k : Z) : Z :=
  if (r =? 0) && (k =? 4) then 2 else if (r =? 5) && (k =? 4) then 7
  else if (r =? 3) && (k =? 0) then -1 else if (r =? 1) && (k =? 2) then 4 else 0.

Example C50_applies :
  compressed (spmem svals) BufA 0 snnz sinds slocs 6 5 scols skind /\ empty_last scols 5 /\
  describes Zs scols skind 6 5 sA /\
  (forall t s, 0 <= t < 5 -> 0 <= s < 16 ->
     cell (spmem svals) BufB (0 + 16 * skind t + s) (2 * (16 * skind t + s) - 3)) /\
  row_stored (spmem svals) BufC 0 16 6 16 (fun r s => 5 * (0 + r * 16 + s)) /\
  match pseqexec (ppar_for 0 1 1 (fun _ => cake_sp_sgemm_haswell_6x16 Zs (BufA, 0) (BufB, 0) (BufC, 0) 6 16 5 snnz sinds slocs)) (spmem svals) with
  | Done _ m' => dat m' BufC (5 * 16 + 9) = Some (5 * 89 + 7 * (2 * (4 * 16 + 9) - 3)) | _ => False end.
Proof.
  assert (G : forall t, 0 <= t < 5 -> t = 0 \/ t = 1 \/ t = 2 \/ t = 3 \/ t = 4) by (intros; lia).
  split; [constructor|split; [|split; [|split; [|split]]]].
  - intros t Ht. destruct (G t Ht) as [->|[->|[->|[->| ->]]]]; reflexivity.
  - intros t Ht. destruct (G t Ht) as [->|[->|[->|[->| ->]]]]; reflexivity.
  - intros q i v E. change (nonzeros scols 5) with [(0, 2); (5, 7); (3, -1); (1, 4)] in E.
    destruct q as [|[|[|[|q]]]]; cbn [nth_error] in E; try (injection E as <- <-);
      try (split; [reflexivity|eexists; split; [reflexivity|split; [cbn; lia|reflexivity]]]).
    destruct q; discriminate.
  - intros t i v Ht Hi. destruct (G t Ht) as [->|[->|[->|[->| ->]]]]; cbn in Hi;
      repeat (destruct Hi as [Hi|Hi]); try contradiction; injection Hi as <- <-; lia.
  - intros t t' Ht Ht' E. assert (H1 : 0 <= t < 5) by lia. assert (H2 : 0 <= t' < 5) by lia.
    destruct (G t H1) as [->|[->|[->|[->| ->]]]]; try discriminate;
      destruct (G t' H2) as [->|[->|[->|[->| ->]]]]; try reflexivity; lia.
  - split.
    + change (map skind (zrange 0 5)) with [4; 0; 2; 1; 3]. change (zrange 0 5) with [0; 1; 2; 3; 4].
      apply Permutation_sym. eapply Permutation_trans; [|apply Permutation_sym; apply (Permutation_cons_append [0; 2; 1; 3] 4)].
      cbn. apply perm_skip. apply (Permutation_trans (l' := [2; 1; 3; 4])); [apply perm_swap|]. apply Permutation_refl.
    + intros t Ht. split; [|split].
      * destruct (G t Ht) as [->|[->|[->|[->| ->]]]]; cbn; repeat constructor; cbn; intuition lia.
      * intros i v Hi. destruct (G t Ht) as [->|[->|[->|[->| ->]]]]; cbn in Hi;
          repeat (destruct Hi as [Hi|Hi]); try contradiction; injection Hi as <- <-; reflexivity.
      * intros i Hi Hn. assert (Hi' : i = 0 \/ i = 1 \/ i = 2 \/ i = 3 \/ i = 4 \/ i = 5) by lia.
        destruct (G t Ht) as [->|[->|[->|[->| ->]]]];
          destruct Hi' as [->|[->|[->|[->|[->| ->]]]]]; try reflexivity; exfalso; apply Hn; cbn; tauto.
  - intros t s Ht Hs. eexists. split; [reflexivity|]. split; [|reflexivity].
    destruct (G t Ht) as [->|[->|[->|[->| ->]]]]; cbn [skind blen]; lia.
  - cells.
  - vm_compute. reflexivity.
Qed.

(** Eight columns, the first group full, the second beginning with an empty column followed by one
    with a nonzero: the pattern meets the hypotheses of C50_any_order and of C50_skipped_refuted. *)
Definition qcols (t : Z) : list (Z * Z) := match t with 4 | 6 | 7 => [] | _ => [(t mod 6, t + 1)] end.
Definition qnnz (t : Z) : option Z := match t with 4 | 6 | 7 => Some 0 | _ => Some 1 end.
Definition qlocs (q : Z) : option Z := match q with 4 => Some 5 | _ => Some q end.
Definition qvals (q : Z) : Z := match q with 4 => 6 | _ => q + 1 end.
Definition qmem : mem Z :=
  Mem (fun b => match b with BufA => Some (BInfo 5 false) | BufB => Some (BInfo 128 true)
                           | BufC => Some (BInfo 96 false) | _ => None end)
      (fun b i => match b with BufA => Some (qvals i) | BufB => Some (2 * i - 3) | BufC => Some (5 * i) | _ => None end).
Example C50_any_applies :
  compressed qmem BufA 0 qnnz (fun t => Some t) qlocs 6 8 qcols (fun t => t) /\
  (forall t s, 0 <= t < 8 -> 0 <= s < 16 -> cell qmem BufB (0 + 16 * t + s) (2 * (16 * t + s) - 3)) /\
  row_stored qmem BufC 0 16 6 16 (fun r s => 5 * (0 + r * 16 + s)) /\
  qcols (4 * 1) = [] /\ qcols 5 <> [] /\ none_skipped scols 5 /\
  columns_used qcols 8 = [0; 1; 2; 3] /\
  match pseqexec (ppar_for 0 1 1 (fun _ => cake_sp_sgemm_haswell_6x16 Zs (BufA, 0) (BufB, 0) (BufC, 0) 6 16 8 qnnz (fun t => Some t) qlocs)) qmem with
  | Done _ m' => dat m' BufC (5 * 16 + 9) = Some (5 * 89) /\ dat m' BufC (3 * 16 + 9) = Some (5 * 57 + 4 * (2 * 57 - 3)) | _ => False end.
Proof.
  assert (G : forall t, 0 <= t < 8 -> t = 0 \/ t = 1 \/ t = 2 \/ t = 3 \/ t = 4 \/ t = 5 \/ t = 6 \/ t = 7) by (intros; lia).
  split; [constructor|split; [|split; [|split; [|split; [|split; [|split]]]]]].
  - intros t Ht. destruct (G t Ht) as [->|[->|[->|[->|[->|[->|[->| ->]]]]]]]; reflexivity.
  - reflexivity.
  - intros q i v E. change (nonzeros qcols 8) with [(0, 1); (1, 2); (2, 3); (3, 4); (5, 6)] in E.
    destruct q as [|[|[|[|[|q]]]]]; cbn [nth_error] in E; try (injection E as <- <-);
      try (split; [reflexivity|eexists; split; [reflexivity|split; [cbn; lia|reflexivity]]]).
    destruct q; discriminate.
  - intros t i v Ht Hi. destruct (G t Ht) as [->|[->|[->|[->|[->|[->|[->| ->]]]]]]]; cbn in Hi;
      repeat (destruct Hi as [Hi|Hi]); try contradiction; injection Hi as <- <-; lia.
  - cells.
  - cells.
  - reflexivity.
  - discriminate.
  - intros g u Hg E Hu. assert (g = 0) as -> by (change (5 / 4) with 1 in Hg; lia). discriminate.
  - reflexivity.
  - vm_compute. split; reflexivity.
Qed.

(** Four columns, the first without nonzeros: C is left as it was although A*B is not zero. *)
Example C50_refuted_applies :
  let nnz t := match t with 0 => Some 0 | 1 => Some 2 | 2 => Some 1 | 3 => Some 1 | _ => None end in
  let P := ppar_for 0 1 1 (fun _ => cake_sp_sgemm_haswell_6x16 Zs (BufA, 0) (BufB, 0) (BufC, 0) 6 16 4 nnz sinds slocs) in
  match pseqexec P (spmem svals) with
  | Done _ m' => dat m' BufC (5 * 16 + 9) = Some (5 * 89) | _ => False end.
Proof. vm_compute. reflexivity. Qed.
