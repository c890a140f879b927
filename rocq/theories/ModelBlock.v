(** * The packing routines for one block that take the whole matrix: src/pack_ob.cpp.

    Definitions only.  include/packing.h:44-60 exports them; nothing in the library calls them
    (it calls the routines of ModelPack.v that take a pointer to the block). *)

From Coq Require Import ZArith List Bool.
From Verif Require Import Lang ModelSizing ModelKernel ModelPack.
Open Scope Z_scope.

Section Block.

Variable S : scalar.
Notation T := (elt S).
Notation thr := (thr T).

Open Scope thr_scope.

(** src/pack_ob.cpp:295-327; the two loop nests of the code differ in the guard only *)
Definition pack_ob_A_multiple_buf (A A_p : ptr) (M K m1 k1 m2 m_c k_c m_r : Z) (pad : bool) : thr unit :=
  let+ _ := tfor 0 m_c m_r 0 (fun m3 ind2 =>
    tfor 0 k_c 1 ind2 (fun i ind2 =>
      tfor 0 m_r 1 ind2 (fun j ind2 =>
        copy0 S (pad && (M <=? m1 + m2 + m3 + j)) A_p ind2 A (m1 * K + k1 + m2 * K + m3 * K + i + j * K) ;;+
        TRet (ind2 + 1)))) in
  TRet tt.

(** src/pack_ob.cpp:331-366 *)
Definition pack_ob_C_multiple_buf (C C_p : ptr) (M N m1 n1 m2 m_c n_c m_r n_r : Z) (pad : bool) : thr unit :=
  let+ _ := tfor 0 n_c n_r 0 (fun n2 ind2 =>
    tfor 0 m_c m_r ind2 (fun m3 ind2 =>
      tfor 0 m_r 1 ind2 (fun i ind2 =>
        tfor 0 n_r 1 ind2 (fun j ind2 =>
          copy0 S (pad && ((N <=? n1 + n2 + j) || (M <=? m1 + m2 + m3 + i)))
                C_p ind2 C (n1 + m1 * N + m2 * N + n2 + m3 * N + i * N + j) ;;+
          TRet (ind2 + 1))))) in
  TRet tt.

(** src/pack_ob.cpp:370-388 *)
Definition unpack_ob_C_multiple_buf (C C_p : ptr) (M N m1 n1 m2 m_c n_c m_r n_r : Z) : thr unit :=
  let+ _ := tfor 0 n_c n_r 0 (fun n2 ind2 =>
    tfor 0 m_c m_r ind2 (fun m3 ind2 =>
      tfor 0 m_r 1 ind2 (fun i ind2 =>
        tfor 0 n_r 1 ind2 (fun j ind2 =>
          (if (n1 + n2 + j <? N) && (m1 + m2 + m3 + i <? M)
           then let+ v := pload S C_p ind2 in pstore S C (n1 + m1 * N + m2 * N + n2 + m3 * N + i * N + j) v
           else TRet tt) ;;+
          TRet (ind2 + 1))))) in
  TRet tt.

End Block.
