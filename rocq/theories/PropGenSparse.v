(** * C71: the sparse kernels the generator writes. *)

From Coq Require Import ZArith List Bool Lia.
From Verif Require Import Lang Exec Spec ModelSizing ModelKernel ModelSmall SpecTop SpecSmall SpecTouch Witness
  ModelGen SpecGen ModelGenSparse Sparse_facts SparseAny_facts GenTab_facts GenSparse_facts.
Import ListNotations.
Open Scope Z_scope.

(** C71.  python/kernel_gen.py in sparse mode writes two kernels for every height m and every width
    n that is a multiple of the vector width.  Both are given a tile of A by its nonzeros and change
    only the m x n tile of C.  The kernels called new add to it the products of all nonzeros with
    the rows of B of their columns, in the order listed, whatever that order is. *)
Theorem C71_new_multiplies :
  forall S t m n (a b c : buf) ao bo co mm nn k nnz_outer k_inds loc_m
    (cols : Z -> list (Z * elt S)) kind B C (m0 : mem (elt S)),
  (t = Armv8 -> commutes S) -> 0 < m -> 0 < n -> (width t | n) -> 0 <= k ->
  compressed m0 a ao nnz_outer k_inds loc_m m k cols kind ->
  (forall u s, 0 <= u < k -> 0 <= s < n -> cell m0 b (bo + nn * kind u + s) (B (kind u) s)) ->
  b_align t = 1 \/ bo mod b_align t = 0 /\ nn mod b_align t = 0 /\ (exists bi, live m0 b = Some bi /\ b64 bi = true) ->
  row_stored m0 c co n m n C ->
  turns_tile_into (ppar_for 0 1 1 (fun _ =>
      run_sparse S t (gen_sparse t m n true) (a, ao) (b, bo) (c, co) mm nn k nnz_outer k_inds loc_m))
    m0 c co n m n (fun r s => sparse_dot S cols kind B r s (zrange 0 k) (C r s)).
Proof. exact new_ok. Qed.
Print Assumptions C71_new_multiplies.

(** The other kernels do the same if no group of four columns with a nonzero comes after (or is) a
    group whose first column has none. *)
Theorem C71_plain_multiplies :
  forall S t m n (a b c : buf) ao bo co mm nn k nnz_outer k_inds loc_m
    (cols : Z -> list (Z * elt S)) kind B C (m0 : mem (elt S)),
  (t = Armv8 -> commutes S) -> 0 < m -> 0 < n -> (width t | n) -> 0 <= k ->
  compressed m0 a ao nnz_outer k_inds loc_m m k cols kind -> none_skipped cols k ->
  (forall u s, 0 <= u < k -> 0 <= s < n -> cell m0 b (bo + nn * kind u + s) (B (kind u) s)) ->
  b_align t = 1 \/ bo mod b_align t = 0 /\ nn mod b_align t = 0 /\ (exists bi, live m0 b = Some bi /\ b64 bi = true) ->
  row_stored m0 c co n m n C ->
  turns_tile_into (ppar_for 0 1 1 (fun _ =>
      run_sparse S t (gen_sparse t m n false) (a, ao) (b, bo) (c, co) mm nn k nnz_outer k_inds loc_m))
    m0 c co n m n (fun r s => sparse_dot S cols kind B r s (zrange 0 k) (C r s)).
Proof. exact plain_ok. Qed.
Print Assumptions C71_plain_multiplies.

(** What they do in any order, and that the condition is exact: for every pattern of nonzeros that
    breaks it there are values for which every execution leaves a wrong row of C. *)
Theorem C71_plain_any_order :
  forall S t m n (a b c : buf) ao bo co mm nn k nnz_outer k_inds loc_m
    (cols : Z -> list (Z * elt S)) kind B C (m0 : mem (elt S)),
  (t = Armv8 -> commutes S) -> 0 < m -> 0 < n -> (width t | n) -> 0 <= k ->
  compressed m0 a ao nnz_outer k_inds loc_m m k cols kind ->
  (forall u s, 0 <= u < k -> 0 <= s < n -> cell m0 b (bo + nn * kind u + s) (B (kind u) s)) ->
  b_align t = 1 \/ bo mod b_align t = 0 /\ nn mod b_align t = 0 /\ (exists bi, live m0 b = Some bi /\ b64 bi = true) ->
  row_stored m0 c co n m n C ->
  turns_tile_into (ppar_for 0 1 1 (fun _ =>
      run_sparse S t (gen_sparse t m n false) (a, ao) (b, bo) (c, co) mm nn k nnz_outer k_inds loc_m))
    m0 c co n m n (fun r s => sparse_used S cols kind B r s k (C r s)).
Proof. exact plain_any. Qed.
Print Assumptions C71_plain_any_order.

Theorem C71_plain_skips_refuted :
  forall t m n (a b c : buf) ao bo co mm nn k nnz_outer k_inds loc_m
    (cols : Z -> list (Z * Z)) kind B C m0 g u,
  a <> b -> a <> c -> b <> c -> 0 < m -> 0 < n -> (width t | n) -> 0 <= k ->
  compressed m0 a ao nnz_outer k_inds loc_m m k cols kind ->
  (forall u s, 0 <= u < k -> 0 <= s < n -> cell m0 b (bo + nn * kind u + s) (B (kind u) s)) ->
  b_align t = 1 \/ bo mod b_align t = 0 /\ nn mod b_align t = 0 /\ (exists bi, live m0 b = Some bi /\ b64 bi = true) ->
  row_stored m0 c co n m n C ->
  0 <= g < k / 4 -> cols (4 * g) = [] -> 4 * g <= u < 4 * (k / 4) -> cols u <> [] ->
  exists m' cols' B' C' r,
    live m' = live m0 /\ (forall x i, x <> a -> x <> b -> x <> c -> dat m' x i = dat m0 x i) /\
    (forall u, map fst (cols' u) = map fst (cols u)) /\
    compressed m' a ao nnz_outer k_inds loc_m m k cols' kind /\
    (forall u s, 0 <= u < k -> 0 <= s < n -> cell m' b (bo + nn * kind u + s) (B' (kind u) s)) /\
    row_stored m' c co n m n C' /\ 0 <= r < m /\
    always (ppar_for 0 1 1 (fun _ =>
        run_sparse Zs t (gen_sparse t m n false) (a, ao) (b, bo) (c, co) mm nn k nnz_outer k_inds loc_m)) m'
      (fun _ m'' => forall s, 0 <= s < n ->
         dat m'' c (co + r * n + s) <> Some (sparse_dot Zs cols' kind B' r s (zrange 0 k) (C' r s))).
Proof.
  intros t m n a b c ao bo co mm nn k nnz k_inds loc_m cols kind B C m0 g u D1 D2 D3 Hm Hn Hd Hk HA HB Ha HC Hg Ge Hu Ue.
  rewrite run_plain by (auto; intros _ x y z; cbn; lia). eapply sparse_skipped; eauto. apply al0.
Qed.
Print Assumptions C71_plain_skips_refuted.

(** kernel_map_sp[i][j](..) and kernel_map_sp_new[i][j](..), compiled from the generated header and
    source: whatever the limits given to the generator, entry (i, j) of either table is the kernel
    of height start + 2i and width start + fact*j, and that kernel is defined; outside the table the
    call is undefined. *)
Theorem C71_table :
  forall S t m_lim n_lim new i j A B C m n k nnz_outer k_inds loc_m,
  let h := gen_header t m_lim n_lim in
  (0 <= i < h_rows h -> 0 <= j < h_cols h ->
   call_sp S t m_lim n_lim new i j A B C m n k nnz_outer k_inds loc_m =
   run_sparse S t (gen_sparse t (start_m t + i * 2) (start_n t + j * fact_n t) new) A B C m n k nnz_outer k_inds loc_m) /\
  (~ (0 <= i < h_rows h /\ 0 <= j < h_cols h) ->
   call_sp S t m_lim n_lim new i j A B C m n k nnz_outer k_inds loc_m = TFail).
Proof. exact sp_table. Qed.
Print Assumptions C71_table.

(** The kernels written by hand in the library are the generated ones for 6x16 and 8x12. *)
Theorem C71_library_kernels :
  (forall S A B C m n k nnz_outer k_inds loc_m,
   run_sparse S Haswell (gen_sparse Haswell 6 16 false) A B C m n k nnz_outer k_inds loc_m =
   cake_sp_sgemm_haswell_6x16 S A B C m n k nnz_outer k_inds loc_m) /\
  (forall S A B C m n k nnz_outer k_inds loc_m, commutes S ->
   run_sparse S Armv8 (gen_sparse Armv8 8 12 false) A B C m n k nnz_outer k_inds loc_m =
   cake_sp_sgemm_armv8_8x12 S A B C m n k nnz_outer k_inds loc_m).
Proof.
  split; intros; apply run_plain; try lia; try discriminate; auto; [now exists 2|now exists 3].
Qed.
Print Assumptions C71_library_kernels.

(** A tile of six columns, 3 x 16, whose first column is empty: the new kernel multiplies the others,
    the other kernel leaves out the group and then takes the wrong nonzeros.  Its first three columns
    alone are no full group, and either kernel multiplies them. *)
Definition gcols (t : Z) : list (Z * Z) :=
  match t with 1 => [(0, 2); (2, 12)] | 2 => [(1, -4)] | 5 => [(2, 7)] | _ => [] end.
Definition gkind (t : Z) : Z := if t =? 1 then 0 else if t =? 0 then 1 else t.
Definition gnnz (t : Z) : option Z :=
  if (0 <=? t) && (t <? 6) then Some (Z.of_nat (length (gcols t))) else None.
Definition ginds (t : Z) : option Z := if (0 <=? t) && (t <? 6) then Some (gkind t) else None.
Definition glocs (q : Z) : option Z := match q with 0 => Some 0 | 1 => Some 2 | 2 => Some 1 | 3 => Some 2 | _ => None end.
Definition gspmem : mem Z :=
  Mem (fun b => match b with BufA => Some (BInfo 6 false) | BufB => Some (BInfo 120 true)
                           | BufC => Some (BInfo 60 false) | _ => None end)
      (fun b i => match b with
                  | BufA => match i with 1 => Some 2 | 2 => Some 12 | 3 => Some (-4) | 4 => Some 7 | _ => None end
                  | BufB => Some (2 * i - 3) | BufC => Some (5 * i) | _ => None end).

Example C71_applies :
  compressed gspmem BufA 1 gnnz ginds glocs 3 6 gcols gkind /\
  (forall u s, 0 <= u < 6 -> 0 <= s < 16 -> cell gspmem BufB (8 + 16 * gkind u + s) (2 * (8 + 16 * gkind u + s) - 3)) /\
  row_stored gspmem BufC 5 16 3 16 (fun r s => 5 * (5 + r * 16 + s)) /\
  ~ none_skipped gcols 6 /\ none_skipped gcols 3 /\
  match pseqexec (ppar_for 0 1 1 (fun _ =>
      run_sparse Zs Haswell (gen_sparse Haswell 3 16 true) (BufA, 1) (BufB, 8) (BufC, 5) 0 16 6 gnnz ginds glocs)) gspmem with
  | Done _ m' => dat m' BufC (5 + 2 * 16 + 9) = Some (230 + (12 * 31 + 7 * 191)) | _ => False end /\
  match pseqexec (ppar_for 0 1 1 (fun _ =>
      run_sparse Zs Haswell (gen_sparse Haswell 3 16 false) (BufA, 1) (BufB, 8) (BufC, 5) 0 16 6 gnnz ginds glocs)) gspmem with
  | Done _ m' => dat m' BufC (5 + 2 * 16 + 9) = Some 230 /\ dat m' BufC (5 + 9) = Some (70 + 2 * 191) | _ => False end /\
  (exists f, call_sp Zs Haswell 8 32 true 1 1 (BufA, 0) (BufB, 0) (BufC, 0) 8 32 4 gnnz ginds glocs = f /\ f <> TFail).
Proof.
  split; [|split; [|split; [|split; [|split; [|split; [|split]]]]]].
  - split.
    + intros t Ht. unfold gnnz. now replace ((0 <=? t) && (t <? 6)) with true by lia.
    + intros t Ht. unfold ginds. now replace ((0 <=? t) && (t <? 6)) with true by lia.
    + intros q i v. change (nonzeros gcols 6) with [(0, 2); (2, 12); (1, -4); (2, 7)]. intros E.
      destruct q as [|[|[|[|q]]]]; cbn in E; try (injection E as <- <-; split; [reflexivity|]; eexists; split; [reflexivity|split; [cbn; lia|reflexivity]]).
      destruct q; discriminate.
    + intros t i v Ht Hi. assert (E : t = 0 \/ t = 1 \/ t = 2 \/ t = 3 \/ t = 4 \/ t = 5) by lia.
      destruct E as [->|[->|[->|[->|[->| ->]]]]]; cbn in Hi;
        repeat (destruct Hi as [Hi|Hi]); try contradiction; injection Hi as <- <-; lia.
  - intros u s Hu Hs. assert (0 <= gkind u < 6) by (unfold gkind; destruct (Z.eqb_spec u 1), (Z.eqb_spec u 0); lia).
    eexists. split; [reflexivity|split; [cbn [blen]; lia|reflexivity]].
  - intros r s Hr Hs. eexists. split; [reflexivity|split; [cbn [blen]; lia|reflexivity]].
  - intros H. specialize (H 0 1 ltac:(cbn; lia) eq_refl ltac:(cbn; lia)). discriminate.
  - intros g u Hg. cbn in Hg. lia.
  - vm_compute. reflexivity.
  - vm_compute. split; reflexivity.
  - eexists. split; [reflexivity|]. rewrite (proj1 (C71_table Zs Haswell 8 32 true 1 1 _ _ _ _ _ _ _ _ _)); [|vm_compute; split; [discriminate|reflexivity]..].
    unfold run_sparse. discriminate.
Qed.
