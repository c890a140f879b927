(** * Properties of the matrix-vector example (examples/cake_gemv.cpp). *)

From Coq Require Import ZArith List Bool Lia.
From Verif Require Import Lang Spec SpecTop SpecSmall SpecTouch SpecGemv ModelSizing ModelKernel ModelGemv
     Witness Gemv_facts GemvTop_facts.
Import ListNotations.
Open Scope Z_scope.

(** C69.  The matrix-vector product: with m_r = 8 (as main sets it), a number of rows that is a
    multiple of eight, and tile sizes given by the user with m_c a multiple of eight, or none
    given, every execution on p cores adds A*B to C, each element in ascending order of k, and
    changes nothing else.  C need not be zero, beta is ignored.  This is when the field that
    selects the blocking happens to hold KMN. *)
Theorem C69_product :
  forall S raw M K p user A B C m,
  0 <= M -> (8 | M) -> 0 <= K -> 0 < p -> usable_tiles raw M p 8 user ->
  gemv_operands m M K A B C ->
  adds_product S (cake_sgemv S raw (Some KMN) M K p 8 user) m M K A B C.
Proof. exact sgemv_ok. Qed.
Print Assumptions C69_product.

(** Its kernel, for any depth and any distance between the columns of A. *)
Theorem C69_kernel :
  forall S mm k ld A B C m,
  0 < k -> 0 <= ld ->
  col_stored m BufA 0 ld 8 k A -> (forall kk, 0 <= kk < k -> cell m BufB kk (B kk)) ->
  (forall i, 0 <= i < 8 -> cell m BufC i (C i)) ->
  adds_product S (ppar_for 0 1 1 (fun _ => cake_sgemv_haswell_8x8_col S (BufA, 0) (BufB, 0) (BufC, 0) mm k ld)) m 8 k A B C.
Proof. exact mv_kernel_one. Qed.
Print Assumptions C69_kernel.

(** The one for packed columns. *)
Theorem C69_kernel_packed :
  forall S mm k A B C m,
  0 < k ->
  gemv_operands m 8 k A B C ->
  adds_product S (ppar_for 0 1 1 (fun _ => cake_sgemv_haswell_8x8 S (BufA, 0) (BufB, 0) (BufC, 0) mm k)) m 8 k A B C.
Proof. intros S mm k A B C m Hk (HA & HB & HC). apply mv_kernel_one; auto. lia. Qed.
Print Assumptions C69_kernel_packed.

(** A number of rows that is no multiple of eight, or any context with m_r below eight (the
    library's own has six): if C has exactly M elements, every execution is undefined. *)
Theorem C69_rows_refuted :
  forall S raw M K p m_r user m bi,
  0 < M -> 0 < K -> 0 < p -> 0 < m_r <= 8 -> m_r < 8 \/ ~ (8 | M) -> usable_tiles raw M p m_r user ->
  live m BufC = Some bi -> blen bi = M ->
  always_undefined (cake_sgemv S raw (Some KMN) M K p m_r user) m.
Proof. exact sgemv_out. Qed.
Print Assumptions C69_rows_refuted.

(** A user tile of fewer than eight rows that divides the rows evenly: nothing is computed. *)
Theorem C69_small_tile_refuted :
  forall S raw M K p mc kc m,
  0 <= M -> 0 <= K -> 0 < p -> 0 < mc < 8 -> 0 < kc -> (p * mc | M) ->
  always (cake_sgemv S raw (Some KMN) M K p 8 (Some (mc, kc))) m
    (fun _ m' => live m' = live m /\ forall b i, dat m' b i = dat m b i).
Proof. exact small_tile. Qed.
Print Assumptions C69_small_tile_refuted.

(** The field is never assigned.  Read while indeterminate, or found to be MKN, the call is
    undefined; with any other value but KMN the process exits. *)
Theorem C69_field_refuted :
  forall S raw M K p user m,
  0 <= M -> 0 < p -> usable_tiles raw M p 8 user ->
  always_undefined (cake_sgemv S raw None M K p 8 user) m /\
  always_undefined (cake_sgemv S raw (Some MKN) M K p 8 user) m /\
  forall o, (pexec (cake_sgemv S raw (Some NKM) M K p 8 user) m o <-> o = Exited) /\
            (pexec (cake_sgemv S raw (Some NA) M K p 8 user) m o <-> o = Exited).
Proof. exact sgemv_field. Qed.
Print Assumptions C69_field_refuted.

(** The program that checks the result has a data race as soon as there are two columns. *)
Theorem C69_checker_refuted :
  forall S M K m, 0 < M -> 2 <= K -> pexec (gemv_check_loop S M K) m Undef.
Proof. exact check_race. Qed.
Print Assumptions C69_checker_refuted.

(** A call that meets the hypotheses: 24 rows, 11 columns, 2 cores. *)
Definition gmem (M K : Z) : mem Z :=
  mem3 (M * K) K M (fun i => Some (wA i)) (fun i => Some (wB i)) (fun i => Some i).

Example C69_applies :
  usable_tiles 254 24 2 8 None /\ usable_tiles 254 24 2 8 (Some (8, 4)) /\
  gemv_operands (gmem 24 11) 24 11 (fun i k => wA (k * 24 + i)) wB (fun i => i) /\
  adds_product Zs (cake_sgemv Zs 254 (Some KMN) 24 11 2 8 None) (gmem 24 11) 24 11
    (fun i k => wA (k * 24 + i)) wB (fun i => i) /\
  always_undefined (cake_sgemv Zs 254 (Some KMN) 20 11 2 8 None) (gmem 20 11) /\
  always_undefined (cake_sgemv Zs 254 (Some KMN) 24 11 2 6 None) (gmem 24 11).
Proof.
  assert (U : usable_tiles 254 24 2 8 None) by (split; [lia|left; now exists 8]).
  assert (G : gemv_operands (gmem 24 11) 24 11 (fun i k => wA (k * 24 + i)) wB (fun i => i)).
  { split; [|split].
    - intros i k Hi Hk. exists (BInfo (24 * 11) false). cbn -[Z.add Z.mul]. repeat split; try lia; f_equal; lia.
    - intros k Hk. exists (BInfo 11 false). cbn. repeat split; lia.
    - intros i Hi. exists (BInfo 24 false). cbn. repeat split; lia. }
  split; [exact U|split; [split; [lia|split; [now exists 1|lia]]|split; [exact G|split; [|split]]]].
  - apply C69_product; auto; try lia. now exists 3.
  - apply (C69_rows_refuted Zs 254 20 11 2 8 None _ (BInfo 20 false)); try lia; auto; cbn.
    right. intros [q Hq]. lia.
  - apply (C69_rows_refuted Zs 254 24 11 2 6 None _ (BInfo 24 false)); try lia; auto; cbn; lia.
Qed.
