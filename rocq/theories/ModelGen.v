(** * The kernel generator: python/kernel_gen.py, dense kernels.

    The generator prints C++; here it makes the list of the vector statements it prints,
    and the meaning of those statements is given separately.  Only the names of the
    functions, prototypes and comments are left out.  Definitions only. *)

From Coq Require Import ZArith List Bool.
From Verif Require Import Lang ModelSizing ModelKernel Spec.
Import ListNotations.
Open Scope Z_scope.
Open Scope thr_scope.

(** The two classes of the generator, python/kernel_gen.py:6-107 and 203-308. *)
Inductive target : Set := Haswell | Armv8.

(** floats in one vector register: the 8 of "n//8" (lines 17-20, 28, 56), the 4 of "n//4"
    (lines 214-217, 225, 253) *)
Definition width (t : target) : Z := match t with Haswell => 8 | Armv8 => 4 end.

(** alignment the loads of B need, in floats: _mm256_load_ps (line 58) faults on addresses
    that are not multiples of 32 bytes, vld1q_f32 (line 255) takes every address *)
Definition b_align (t : target) : Z := match t with Haswell => 8 | Armv8 => 1 end.

(** The statements the generator prints. *)
Inductive vinstr : Set :=
| VLoadC (r off : Z)       (* c[r] = _mm256_loadu_ps(C + off);    c[r] = vld1q_f32(C + off); *)
| VLoadB (j off : Z)       (* bj = _mm256_load_ps(B + off);       bj = vld1q_f32(B + off); *)
| VBcastA                  (* a = _mm256_broadcast_ss(A++);       a = vld1q_dup_f32(A++); *)
| VFma (r j : Z)           (* c[r] = _mm256_fmadd_ps(a, bj, c[r]); c[r] = vfmaq_f32(c[r], bj, a); *)
| VAdvB                    (* B += n; *)
| VStoreC (off r : Z).     (* _mm256_storeu_ps((C + off), c[r]);  vst1q_f32(C + off, c[r]); *)

(** Python's range(lo, hi, step), step > 0 *)
Definition py_range (lo hi step : Z) : list Z := zseq (loop_count lo hi step) lo step.

(** python/kernel_gen.py:24-31 / 221-228 (gen_C_load) *)
Definition gen_C_load (t : target) (m n : Z) : list vinstr :=
  VLoadC 0 0 :: map (fun i => VLoadC i (i * width t)) (py_range 1 (m * n / width t) 1).

(** python/kernel_gen.py:33-41 / 230-238 (gen_C_store) *)
Definition gen_C_store (t : target) (m n : Z) : list vinstr :=
  VStoreC 0 0 :: map (fun i => VStoreC (i * width t) i) (py_range 1 (m * n / width t) 1).

(** python/kernel_gen.py:55-73 / 252-270 (Dense.gen_inner_kernel) *)
Definition gen_inner_kernel (t : target) (m n : Z) : list vinstr :=
  let nlanes := n / width t in
  VLoadB 1 0 :: map (fun i => VLoadB (i + 1) (i * width t)) (py_range 1 nlanes 1)
  ++ flat_map (fun i => VBcastA :: map (fun j => VFma (i * nlanes + j) (j + 1)) (py_range 0 nlanes 1))
              (py_range 0 m 1)
  ++ [VAdvB].

(** One generated function: declarations (gen_var_decls, lines 13-22 / 210-219: registers
    a, b1 .. b(decl_b), c[decl_c]), straight code, the body of the loop over k unrolled four
    times, the body of the loop over what is left, straight code. *)
Record kernel_src : Set := KernelSrc {
  decl_b : Z; decl_c : Z;
  src_load : list vinstr; src_unrolled : list vinstr; src_left : list vinstr; src_store : list vinstr }.

(** python/kernel_gen.py:402-421 (gen_kernel, op = 'dense') with 87-103 / 284-300
    (gen_outer_prod_loop) and 78-85 / 275-282 (gen_leftover_k) *)
Definition gen_kernel (t : target) (m n : Z) : kernel_src :=
  KernelSrc (n / width t) (m * (n / width t))
    (gen_C_load t m n)
    (gen_inner_kernel t m n ++ concat (map (fun _ => gen_inner_kernel t m n) (py_range 1 4 1)))
    (gen_inner_kernel t m n)
    (gen_C_store t m n).

(** ** What the printed statements do. *)
Section Run.

Variable S : scalar.
Notation T := (elt S).
Notation thr := (thr T).

(** The local variables: pointers A and B, vector registers.  [None] is a register never
    assigned; a is a vector of equal lanes, kept as one value. *)
Record vstate : Type := VState {
  v_A : ptr; v_B : ptr;
  v_a : option T; v_b : Z -> option (Z -> T); v_c : Z -> option (Z -> T) }.

Definition upd {X} (f : Z -> X) (i : Z) (x : X) : Z -> X := fun j => if j =? i then x else f j.

(** One lane of the fused multiply-add: _mm256_fmadd_ps(a, b, c) is a*b + c (line 68),
    vfmaq_f32(c, b, a) is c + b*a (line 265). *)
Definition lane_fma (t : target) (a b c : T) : T :=
  match t with Haswell => fma S a b c | Armv8 => fma S b a c end.

(** One statement in a function whose arrays have the declared sizes, with run-time stride
    [n].  Using a register that was not assigned, or an index outside the array c, is
    undefined; a name bj that is not declared makes the program ill-formed and is counted as
    undefined too. *)
Definition vstep (t : target) (s : kernel_src) (C : ptr) (n : Z) (i : vinstr) (st : vstate) : thr vstate :=
  let c_ok r := (0 <=? r) && (r <? decl_c s) in
  let b_ok j := (1 <=? j) && (j <=? decl_b s) in
  match i with
  | VLoadC r off =>
      if c_ok r then
        let+ v := load_vec S 1 (padd C off) (width t) in
        TRet (VState (v_A st) (v_B st) (v_a st) (v_b st) (upd (v_c st) r (Some v)))
      else TFail
  | VLoadB j off =>
      if b_ok j then
        let+ v := load_vec S (b_align t) (padd (v_B st) off) (width t) in
        TRet (VState (v_A st) (v_B st) (v_a st) (upd (v_b st) j (Some v)) (v_c st))
      else TFail
  | VBcastA =>
      let+ v := tload (fst (v_A st)) (snd (v_A st)) in
      TRet (VState (padd (v_A st) 1) (v_B st) (Some v) (v_b st) (v_c st))
  | VFma r j =>
      if c_ok r && b_ok j then
        match v_a st, v_b st j, v_c st r with
        | Some a, Some b, Some c =>
            TRet (VState (v_A st) (v_B st) (v_a st) (v_b st)
                         (upd (v_c st) r (Some (fun e => lane_fma t a (b e) (c e)))))
        | _, _, _ => TFail
        end
      else TFail
  | VAdvB => TRet (VState (v_A st) (padd (v_B st) n) (v_a st) (v_b st) (v_c st))
  | VStoreC off r =>
      if c_ok r then
        match v_c st r with
        | Some c => let+ _ := store_vec S (padd C off) (width t) c in TRet st
        | None => TFail
        end
      else TFail
  end.

Fixpoint vrun (t : target) (s : kernel_src) (C : ptr) (n : Z) (l : list vinstr) (st : vstate) : thr vstate :=
  match l with
  | [] => TRet st
  | i :: l' => let+ st' := vstep t s C n i st in vrun t s C n l' st'
  end.

(** The generated function called with run-time arguments (A, B, C, m, n, k):
    "int rem = k % 4; k -= rem; for(kk = 0; kk < k; kk += 4) {..}
    for(kk = 0; kk < rem; kk++) {..}" (lines 78-103 / 275-300). *)
Definition run_kernel (t : target) (s : kernel_src) (A B C : ptr) (m n k : Z) : thr unit :=
  let+ st := vrun t s C n (src_load s) (VState A B None (fun _ => None) (fun _ => None)) in
  let rem := Z.rem k 4 in
  let k' := k - rem in
  let+ st := tfor 0 k' 4 st (fun _ st => vrun t s C n (src_unrolled s) st) in
  let+ st := tfor 0 rem 1 st (fun _ st => vrun t s C n (src_left s) st) in
  let+ _ := vrun t s C n (src_store s) st in
  TRet tt.

End Run.

(** ** The generated files. *)

(** python/kernel_gen.py:527-538 and 546-559: fact_m, fact_n, sm, sn *)
Definition fact_m (t : target) : Z := 2.
Definition fact_n (t : target) : Z := match t with Haswell => 16 | Armv8 => 12 end.
Definition start_m (t : target) : Z := match t with Haswell => 6 | Armv8 => 8 end.
Definition start_n (t : target) : Z := match t with Haswell => 16 | Armv8 => 12 end.

(** include/kernels.h (gen_dense_kernel_headers, lines 424-468): the four constants and the
    table, whose entries are function names, here the two numbers in the name. *)
Record header : Set := Header {
  h_mr_fact : Z; h_nr_fact : Z; h_mr_min : Z; h_nr_min : Z;
  h_rows : Z; h_cols : Z;           (* kernel_map[h_rows][h_cols] *)
  h_map : list (list (Z * Z)) }.

Definition gen_header (t : target) (m_lim n_lim : Z) : header :=
  let mrs := py_range (start_m t) (m_lim + 1) (fact_m t) in
  let nrs := py_range (start_n t) (n_lim + 1) (fact_n t) in
  Header (fact_m t) (fact_n t) (start_m t) (start_n t)
         (Z.of_nat (length mrs)) (Z.of_nat (length nrs))
         (map (fun i => map (fun j => (i, j)) nrs) mrs).

(** dense.cpp (gen_all_kernels, lines 573-580): the functions defined, with their names *)
Definition gen_file (t : target) (m_lim n_lim : Z) : list ((Z * Z) * kernel_src) :=
  flat_map (fun i => map (fun j => ((i, j), gen_kernel t i j))
                         (py_range (start_n t) (n_lim + 1) (fact_n t)))
           (py_range (start_m t) (m_lim + 1) (fact_m t)).

(** A name refers to the function so called. *)
Fixpoint lookup (f : list ((Z * Z) * kernel_src)) (name : Z * Z) : option kernel_src :=
  match f with
  | [] => None
  | ((i, j), s) :: f' => if (i =? fst name) && (j =? snd name) then Some s else lookup f' name
  end.

(** kernel_map[i][j]; [None] outside the declared array *)
Definition map_entry (h : header) (i j : Z) : option (Z * Z) :=
  if (0 <=? i) && (i <? h_rows h) && (0 <=? j) && (j <? h_cols h) then
    match nth_error (h_map h) (Z.to_nat i) with
    | Some row => nth_error row (Z.to_nat j)
    | None => None
    end
  else None.

(** kernel_map[i][j](A, B, C, m, n, k) in a library compiled from the generated files *)
Definition call_entry (S : scalar) (t : target) (m_lim n_lim i j : Z) (A B C : ptr) (m n k : Z)
  : thr (elt S) unit :=
  match map_entry (gen_header t m_lim n_lim) i j with
  | Some name =>
      match lookup (gen_file t m_lim n_lim) name with
      | Some s => run_kernel S t s A B C m n k
      | None => TFail
      end
  | None => TFail
  end.
