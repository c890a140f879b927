(** * Matrix transposition: src/transpose.cpp, src/kernels/haswell/transpose_haswell.cpp and
      transpose of src/util.cpp.

    Definitions only. *)

From Coq Require Import ZArith List Bool.
From Verif Require Import Lang ModelSizing ModelKernel ModelPack.
Open Scope Z_scope.
Open Scope thr_scope.

Section Trans.

Variable S : scalar.
Notation T := (elt S).
Notation thr := (thr T).
Notation prog := (prog T).

(** An __m256 register: lanes 0 .. 7. *)
Definition m256 : Type := Z -> T.

(** ** The AVX intrinsics used, as Intel's reference describes them.  [e / 4] is the 128-bit
    half, [e mod 4] the position in it. *)

(** _mm256_unpacklo_ps *)
Definition unpacklo (a b : m256) : m256 := fun e =>
  let l := 4 * (e / 4) in
  match e mod 4 with 0 => a l | 1 => b l | 2 => a (l + 1) | _ => b (l + 1) end.

(** _mm256_unpackhi_ps *)
Definition unpackhi (a b : m256) : m256 := fun e =>
  let l := 4 * (e / 4) in
  match e mod 4 with 0 => a (l + 2) | 1 => b (l + 2) | 2 => a (l + 3) | _ => b (l + 3) end.

(** _mm256_shuffle_ps: two bits of imm per position, the same for both halves *)
Definition shuffle (a b : m256) (imm : Z) : m256 := fun e =>
  let l := 4 * (e / 4) in
  let r := e mod 4 in
  let s := (imm / 4 ^ r) mod 4 in
  if r <? 2 then a (l + s) else b (l + s).

(** _mm256_permute2f128_ps: one hexadecimal digit of imm per half; 0, 1 select the halves of a,
    2, 3 those of b, and bit 3 zeroes the half *)
Definition permute2f128 (a b : m256) (imm : Z) : m256 := fun e =>
  let c := (imm / 16 ^ (e / 4)) mod 16 in
  if 8 <=? c then zero S
  else let s := c mod 4 in
       (if s <? 2 then a else b) (4 * (s mod 2) + e mod 4).

(** src/kernels/haswell/transpose_haswell.cpp:27-54: the eight registers after the network.
    [r j] is row j as loaded. *)
Definition network8 (r : Z -> m256) : Z -> m256 :=
  let t0 := unpacklo (r 0) (r 1) in
  let t2 := unpacklo (r 2) (r 3) in
  let t4 := unpacklo (r 4) (r 5) in
  let t6 := unpacklo (r 6) (r 7) in
  let t1 := unpackhi (r 0) (r 1) in
  let t3 := unpackhi (r 2) (r 3) in
  let t5 := unpackhi (r 4) (r 5) in
  let t7 := unpackhi (r 6) (r 7) in
  let tt0 := shuffle t0 t2 68 in (* 0x44 *)
  let tt1 := shuffle t0 t2 238 in (* 0xee *)
  let tt2 := shuffle t1 t3 68 in
  let tt3 := shuffle t1 t3 238 in
  let tt4 := shuffle t4 t6 68 in
  let tt5 := shuffle t4 t6 238 in
  let tt6 := shuffle t5 t7 68 in
  let tt7 := shuffle t5 t7 238 in
  fun i => match i with
  | 0 => permute2f128 tt0 tt4 32 (* 0x20 *)
  | 1 => permute2f128 tt1 tt5 32
  | 2 => permute2f128 tt2 tt6 32
  | 3 => permute2f128 tt3 tt7 32
  | 4 => permute2f128 tt0 tt4 49 (* 0x31 *)
  | 5 => permute2f128 tt1 tt5 49
  | 6 => permute2f128 tt2 tt6 49
  | _ => permute2f128 tt3 tt7 49
  end.

(** src/kernels/haswell/transpose_haswell.cpp:15-64.  The loads of the eight rows and the stores
    of the eight rows are written as loops. *)
Definition transpose_8x8 (A B : ptr) (lda ldb : Z) : thr unit :=
  let+ r := tfor 0 8 1 (fun (_ _ : Z) => zero S) (fun j r =>
      let+ v := load_vec S 1 (padd A (j * lda)) 8 in
      TRet (fun i => if i =? j then v else r i)) in
  tfor_ 0 8 1 (fun i => store_vec S (padd B (i * ldb)) 8 (network8 r i)).

(** src/kernels/haswell/transpose_haswell.cpp:5-12 *)
Definition transpose_mxn (A B : ptr) (lda ldb m n : Z) : thr unit :=
  tfor_ 0 m 1 (fun i =>
    tfor_ 0 n 1 (fun j =>
      let+ v := pload S A (j * lda + i) in pstore S B (i * ldb + j) v)).

(** src/transpose.cpp:15-25, one iteration of the parallel loop over n *)
Definition transpose_cols (A At : ptr) (K N kt nt k n : Z) : thr unit :=
  tfor_ n (n + nt) 8 (fun nn =>
    tfor_ k (k + kt) 8 (fun kk =>
      if (N <? nn + 8) || (K <? kk + 8)
      then transpose_mxn (padd A (kk * N + nn)) (padd At (nn * K + kk)) N K (N - nn) (K - kk)
      else transpose_8x8 (padd A (kk * N + nn)) (padd At (nn * K + kk)) N K)).

(** src/transpose.cpp:9-11: a tile argument rounded down to a multiple of 8, at least 8 *)
Definition tile8 (t : Z) : Z :=
  let r := Z.quot t 8 * 8 in if r =? 0 then 8 else r.

(** src/transpose.cpp:5-29 *)
Definition transpose_mat (A At : ptr) (K N Kt Nt : Z) : prog unit :=
  let nt := tile8 Nt in
  let kt := tile8 Kt in
  pfor_ 0 K kt (fun k => ppar_for 0 N nt (transpose_cols A At K N kt nt k)).

(** src/transpose.cpp:5-29 when OpenMP runs the parallel loop with one thread: the iterations
    follow one another in order *)
Definition transpose_mat_1thread (A At : ptr) (K N Kt Nt : Z) : prog unit :=
  let nt := tile8 Nt in
  let kt := tile8 Kt in
  pfor_ 0 K kt (fun k => pseq (tfor_ 0 N nt (transpose_cols A At K N kt nt k))).

(** src/util.cpp:340-347 *)
Definition transpose (At A : ptr) (M K : Z) : prog unit :=
  pseq (tfor_ 0 K 1 (fun k =>
    tfor_ 0 M 1 (fun m =>
      let+ v := pload S A (m * K + k) in pstore S At (m + k * M) v))).

End Trans.
