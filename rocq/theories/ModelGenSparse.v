(** * The kernel generator: python/kernel_gen.py, sparse kernels.

    As in ModelGen the generator makes the list of the statements it prints, and their meaning is
    given separately.  The names of the functions, prototypes, comments and #include lines are
    left out.  Definitions only. *)

From Coq Require Import ZArith List Bool.
From Verif Require Import Lang ModelSizing ModelKernel ModelSmall ModelGen Spec.
Import ListNotations.
Open Scope Z_scope.
Open Scope thr_scope.

(** Statements of the loop over the nonzeros of a column, lines 134-144 / 330-340. *)
Inductive minstr : Set :=
| MBcastA                   (* a = _mm256_broadcast_ss(A++);       a = vld1q_dup_f32(A++); *)
| MFma (mul off j : Z)      (* c[*loc_m * mul + off] = fma of a, bj and c[*loc_m * mul + off]; *)
| MNextLoc.                 (* loc_m++; *)

(** Statements of the loops over the columns. *)
Inductive sinstr : Set :=
| SCnt (o : Z)              (* m_cnt = nnz_outer[base + o]; *)
| SBreak                    (* if(!m_cnt) { break; } *)
| SInd (o : Z)              (* k_ind = n*k_inds[base + o]; *)
| SLoadB (j off : Z)        (* bj = _mm256_load_ps(B + k_ind + off); *)
| SNonzeros (body : list minstr).  (* for(int j = 0; j < m_cnt; j++) { body } *)

(** python/kernel_gen.py:127-146 / 323-342 (Sparse.gen_inner_kernel) *)
Definition gen_sp_inner (t : target) (n : Z) : list sinstr :=
  let nlanes := n / width t in
  SLoadB 1 0 :: map (fun i => SLoadB (i + 1) (i * width t)) (py_range 1 nlanes 1)
  ++ [SNonzeros (MBcastA :: MFma nlanes 0 1 :: map (fun i => MFma nlanes i (i + 1)) (py_range 1 nlanes 1)
                 ++ [MNextLoc])].

(** python/kernel_gen.py:161-198 / 358-395 (Sparse.gen_outer_prod_loop), the body of the loop;
    base is kk *)
Definition gen_sp_unrolled (t : target) (n : Z) (compressed : bool) : list sinstr :=
  SCnt 0 :: (if compressed then [SInd 0] else [SBreak; SInd 0]) ++ gen_sp_inner t n
  ++ flat_map (fun i => SCnt i :: SInd i :: gen_sp_inner t n) (py_range 1 4 1).

(** python/kernel_gen.py:148-159 / 344-356 (Sparse.gen_leftover_k), the body; base is k + kk *)
Definition gen_sp_left (t : target) (n : Z) : list sinstr := SCnt 0 :: SInd 0 :: gen_sp_inner t n.

(** One generated function: declarations and straight code as in the dense kernels (the two
    loops in [sp_frame] are empty), the bodies of the two loops. *)
Record sparse_src : Set := SparseSrc {
  sp_frame : kernel_src; sp_unrolled : list sinstr; sp_left : list sinstr }.

(** python/kernel_gen.py:401-419 (gen_kernel, op = 'sparse') *)
Definition gen_sparse (t : target) (m n : Z) (compressed : bool) : sparse_src :=
  SparseSrc (KernelSrc (n / width t) (m * (n / width t)) (gen_C_load t m n) [] [] (gen_C_store t m n))
    (gen_sp_unrolled t n compressed) (gen_sp_left t n).

(** ** What the printed statements do. *)
Section Run.

Variable S : scalar.
Notation T := (elt S).
Notation thr := (thr T).

(** The local variables: those of the dense kernels, the number of elements loc_m has advanced,
    m_cnt and k_ind ([None]: not assigned). *)
Record sstate : Type := SState { s_v : vstate S; s_loc : Z; s_cnt : option Z; s_ind : option Z }.

Definition mstep (t : target) (s : kernel_src) (C : ptr) (n : Z) (loc_m : iarr) (i : minstr) (x : vstate S * Z)
  : thr (vstate S * Z) :=
  match i with
  | MBcastA => let+ v := vstep S t s C n VBcastA (fst x) in TRet (v, snd x)
  | MFma mul off j =>
      let+ l := iget S loc_m (snd x) in
      let+ v := vstep S t s C n (VFma (l * mul + off) j) (fst x) in TRet (v, snd x)
  | MNextLoc => TRet (fst x, snd x + 1)
  end.

Fixpoint mrun (t : target) (s : kernel_src) (C : ptr) (n : Z) (loc_m : iarr) (l : list minstr) (x : vstate S * Z)
  : thr (vstate S * Z) :=
  match l with
  | [] => TRet x
  | i :: l' => let+ x' := mstep t s C n loc_m i x in mrun t s C n loc_m l' x'
  end.

(** The result tells whether the loop is left by a break. *)
Fixpoint srun (t : target) (s : kernel_src) (C : ptr) (n : Z) (nnz k_inds loc_m : iarr) (base : Z)
         (l : list sinstr) (x : sstate) : thr (bool * sstate) :=
  match l with
  | [] => TRet (false, x)
  | i :: l' =>
      let go := srun t s C n nnz k_inds loc_m base l' in
      match i with
      | SCnt o => let+ c := iget S nnz (base + o) in go (SState (s_v x) (s_loc x) (Some c) (s_ind x))
      | SBreak =>
          match s_cnt x with
          | Some c => if c =? 0 then TRet (true, x) else go x
          | None => TFail
          end
      | SInd o => let+ ki := iget S k_inds (base + o) in go (SState (s_v x) (s_loc x) (s_cnt x) (Some (n * ki)))
      | SLoadB j off =>
          match s_ind x with
          | Some k_ind =>
              let+ v := vstep S t s C n (VLoadB j (k_ind + off)) (s_v x) in
              go (SState v (s_loc x) (s_cnt x) (s_ind x))
          | None => TFail
          end
      | SNonzeros body =>
          match s_cnt x with
          | Some c =>
              let+ y := tfor 0 c 1 (s_v x, s_loc x) (fun _ y => mrun t s C n loc_m body y) in
              go (SState (fst y) (snd y) (s_cnt x) (s_ind x))
          | None => TFail
          end
      end
  end.

(** The generated function called with run-time arguments. *)
Definition run_sparse (t : target) (s : sparse_src) (A B C : ptr) (m n k : Z) (nnz k_inds loc_m : iarr) : thr unit :=
  let f := sp_frame s in
  let+ v := vrun S t f C n (src_load f) (VState S A B None (fun _ => None) (fun _ => None)) in
  let rem := Z.rem k 4 in
  let k' := k - rem in
  let+ r := tfor 0 k' 4 (false, SState v 0 None None) (fun kk (r : bool * sstate) =>
      if fst r then TRet r else srun t f C n nnz k_inds loc_m kk (sp_unrolled s) (snd r)) in
  let+ r := tfor 0 rem 1 (false, snd r) (fun kk (r : bool * sstate) =>
      if fst r then TRet r else srun t f C n nnz k_inds loc_m (k' + kk) (sp_left s) (snd r)) in
  let+ _ := vrun S t f C n (src_store f) (s_v (snd r)) in
  TRet tt.

End Run.

(** ** The generated files. *)

(** include/rosko_kernels.h (gen_sparse_kernel_headers, lines 471-522): the constants MR_MAX and
    NR_MAX beside those of the dense header, and two tables, kernel_map_sp and
    kernel_map_sp_new, both with the entries of the dense table. *)
Record sp_header : Set := SpHeader { sh_max : Z * Z; sh_map : header; sh_map_new : header }.

Definition gen_sp_header (t : target) (m_lim n_lim : Z) : sp_header :=
  SpHeader (m_lim, n_lim) (gen_header t m_lim n_lim) (gen_header t m_lim n_lim).

(** sparse.cpp (gen_all_kernels, lines 558-571): the functions rosko_sgemm_<arch>_<i>x<j> and
    then the functions rosko_sgemm_new_<arch>_<i>x<j> *)
Definition gen_sp_file (t : target) (m_lim n_lim : Z) : list ((bool * Z * Z) * sparse_src) :=
  let all new :=
    flat_map (fun i => map (fun j => ((new, i, j), gen_sparse t i j new))
                           (py_range (start_n t) (n_lim + 1) (fact_n t)))
             (py_range (start_m t) (m_lim + 1) (fact_m t)) in
  all false ++ all true.

Fixpoint sp_lookup (f : list ((bool * Z * Z) * sparse_src)) (new : bool) (i j : Z) : option sparse_src :=
  match f with
  | [] => None
  | ((b, i', j'), s) :: f' => if Bool.eqb b new && (i' =? i) && (j' =? j) then Some s else sp_lookup f' new i j
  end.

(** kernel_map_sp[i][j](..) or kernel_map_sp_new[i][j](..) in a library compiled from the
    generated files *)
Definition call_sp (S : scalar) (t : target) (m_lim n_lim : Z) (new : bool) (i j : Z) (A B C : ptr) (m n k : Z)
    (nnz k_inds loc_m : iarr) : thr (elt S) unit :=
  let h := gen_sp_header t m_lim n_lim in
  match map_entry (if new then sh_map_new h else sh_map h) i j with
  | Some (a, b) =>
      match sp_lookup (gen_sp_file t m_lim n_lim) new a b with
      | Some s => run_sparse S t s A B C m n k nnz k_inds loc_m
      | None => TFail
      end
  | None => TFail
  end.
