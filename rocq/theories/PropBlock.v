(** * C64: packing and unpacking one block.

    The words [panel_slot], [tile_slot], [fills] and [copies_back] are defined in SpecBlock.v. *)

From Coq Require Import ZArith List Bool.
From Verif Require Import Lang Spec SpecTop SpecPack ModelSizing ModelKernel ModelPack ModelBlock SpecBlock Exec Witness
     Block_facts BlockOut_facts.
Open Scope Z_scope.

(** C64.  A block of A: mc rows from row m1+m2 on, kc columns from column k1 on.  The routine that
    takes a pointer to the block, and the one that takes the matrix (asked to pad, or for a block
    inside the matrix), put its elements in their places in the panels, zeros for the rows the
    matrix does not have, and change nothing else. *)
Theorem C64_pack_A :
  forall S src dst o M K m1 m2 k1 mc kc mr pad (A : Z -> Z -> elt S) m,
  src <> dst -> 0 < mr -> (mr | mc) -> 0 <= mc -> 0 <= kc -> 0 <= m1 + m2 -> 0 <= k1 -> k1 + kc <= K -> 0 <= o ->
  at_least m src (M * K) -> holds m src M K A -> at_least m dst (o + mc * kc) ->
  let v := fun i k => if m1 + m2 + i <? M then A (m1 + m2 + i) (k1 + k) else zero S in
  fills (pseq (pack_ob_A_single_buf S (src, (m1 + m2) * K + k1) (dst, o) M K m1 m2 mc kc mr)) m dst o mc kc
    (panel_slot mr kc) v /\
  (pad = true \/ m1 + m2 + mc <= M ->
   fills (pseq (pack_ob_A_multiple_buf S (src, 0) (dst, o) M K m1 k1 m2 mc kc mr pad)) m dst o mc kc
     (panel_slot mr kc) v).
Proof. exact block_A. Qed.
Print Assumptions C64_pack_A.

(** A block of B: kc rows from row k1 on, nc columns from column n1 on, packed by one thread or by a
    team, one panel each: the same result. *)
Theorem C64_pack_B :
  forall S src dst o K N n1 k1 kc nc nr pad (B : Z -> Z -> elt S) m,
  src <> dst -> 0 < nr -> (nr | nc) -> 0 <= nc -> 0 <= kc -> 0 <= n1 -> 0 <= k1 -> k1 + kc <= K -> 0 <= o ->
  at_least m src (K * N) -> holds m src K N B -> at_least m dst (o + nc * kc) ->
  pad = true \/ n1 + nc <= N ->
  let v := fun j k => if n1 + j <? N then B (k1 + k) (n1 + j) else zero S in
  fills (pseq (pack_ob_B_single_buf S (src, k1 * N + n1) (dst, o) K N n1 kc nc nr pad)) m dst o nc kc
    (panel_slot nr kc) v /\
  fills (pack_ob_B_parallel S (src, k1 * N + n1) (dst, o) K N n1 kc nc nr pad) m dst o nc kc
    (panel_slot nr kc) v.
Proof. exact block_B. Qed.
Print Assumptions C64_pack_B.

Theorem C64_pack_C :
  forall S src dst o M N m1 n1 m2 mc nc mr nr pad_m pad_n (C : Z -> Z -> elt S) m,
  src <> dst -> 0 < mr -> 0 < nr -> (mr | mc) -> (nr | nc) -> 0 <= mc -> 0 <= nc -> 0 <= m1 + m2 -> 0 <= n1 -> 0 <= o ->
  at_least m src (M * N) -> holds m src M N C -> at_least m dst (o + mc * nc) ->
  pad_m || pad_n = true \/ (m1 + m2 + mc <= M /\ n1 + nc <= N) ->
  let v := fun i j => if (m1 + m2 + i <? M) && (n1 + j <? N) then C (m1 + m2 + i) (n1 + j) else zero S in
  fills (pseq (pack_ob_C_single_buf S (src, (m1 + m2) * N + n1) (dst, o) M N m1 n1 m2 mc nc mr nr pad_m pad_n))
    m dst o mc nc (tile_slot mr nr mc) v /\
  fills (pseq (pack_ob_C_multiple_buf S (src, 0) (dst, o) M N m1 n1 m2 mc nc mr nr (pad_m || pad_n)))
    m dst o mc nc (tile_slot mr nr mc) v.
Proof. exact block_C. Qed.
Print Assumptions C64_pack_C.

(** Unpacking writes exactly the elements of the matrix that lie in the block. *)
Theorem C64_unpack_C :
  forall S src dst o M N m1 n1 m2 mc nc mr nr (v : Z -> Z -> elt S) m,
  src <> dst -> 0 < mr -> 0 < nr -> (mr | mc) -> (nr | nc) -> 0 <= mc -> 0 <= nc -> 0 <= m1 + m2 -> 0 <= n1 -> 0 <= o ->
  at_least m dst (M * N) -> at_least m src (o + mc * nc) ->
  (forall i j, 0 <= i < mc -> 0 <= j < nc -> dat m src (o + tile_slot mr nr mc i j) = Some (v i j)) ->
  copies_back (pseq (unpack_ob_C_single_buf S (dst, (m1 + m2) * N + n1) (src, o) M N m1 n1 m2 mc nc mr nr))
    m dst M N (m1 + m2) n1 mc nc v /\
  copies_back (pseq (unpack_ob_C_multiple_buf S (dst, 0) (src, o) M N m1 n1 m2 mc nc mr nr))
    m dst M N (m1 + m2) n1 mc nc v.
Proof. exact block_unpack. Qed.
Print Assumptions C64_unpack_C.

(** Packing a block of C and unpacking it again changes nothing but the packed copy. *)
Theorem C64_round_trip :
  forall S src dst o M N m1 n1 m2 mc nc mr nr (C : Z -> Z -> elt S) m,
  src <> dst -> 0 < mr -> 0 < nr -> (mr | mc) -> (nr | nc) -> 0 <= mc -> 0 <= nc -> 0 <= m1 + m2 -> 0 <= n1 -> 0 <= o ->
  0 <= N -> at_least m src (M * N) -> holds m src M N C -> at_least m dst (o + mc * nc) ->
  always (pbind (pseq (pack_ob_C_multiple_buf S (src, 0) (dst, o) M N m1 n1 m2 mc nc mr nr true))
            (fun _ => pseq (unpack_ob_C_multiple_buf S (src, 0) (dst, o) M N m1 n1 m2 mc nc mr nr))) m
    (fun _ m' => (forall b, live m' b = live m b) /\
       (forall b x, ~ (b = dst /\ o <= x < o + mc * nc) -> dat m' b x = dat m b x)).
Proof. exact block_round_trip. Qed.
Print Assumptions C64_round_trip.

(** Without padding, a block that reaches below the last row reads beyond the matrix: every execution
    is undefined.  (The routine for A that takes a pointer pads whether asked to or not.) *)
Theorem C64_A_without_padding :
  forall S src dst o M K m1 m2 k1 mc kc mr m,
  src <> dst -> 0 < mr -> (mr | mc) -> 0 < mc -> 0 < kc -> 0 <= k1 -> 0 <= K -> M < m1 + m2 + mc ->
  exact_size m src (M * K) ->
  forall r, pexec (pseq (pack_ob_A_multiple_buf S (src, 0) (dst, o) M K m1 k1 m2 mc kc mr false)) m r -> r = Undef.
Proof. exact no_pad_A. Qed.
Print Assumptions C64_A_without_padding.

Theorem C64_C_without_padding :
  forall S src dst o M N m1 n1 m2 mc nc mr nr m,
  src <> dst -> 0 < mr -> 0 < nr -> (mr | mc) -> 0 < mc -> 0 < nc -> 0 <= n1 -> 0 <= N -> M < m1 + m2 + mc ->
  exact_size m src (M * N) ->
  (forall r, pexec (pseq (pack_ob_C_single_buf S (src, (m1 + m2) * N + n1) (dst, o) M N m1 n1 m2 mc nc mr nr false false)) m r ->
     r = Undef) /\
  (forall r, pexec (pseq (pack_ob_C_multiple_buf S (src, 0) (dst, o) M N m1 n1 m2 mc nc mr nr false)) m r -> r = Undef).
Proof. exact no_pad_C. Qed.
Print Assumptions C64_C_without_padding.

(** Beside them: a 13 x 19 matrix and its block of 12 rows and 16 columns at (6, 7), of which 7 rows and
    12 columns exist; tiles of 6 x 8, packed from element 3 on. *)
Definition bkmem : mem Z :=
  Mem (fun b => match b with
    | BufA => Some (BInfo (13 * 19) false) | BufAp 0 => Some (BInfo (3 + 12 * 16) true) | _ => None end)
   (fun b i => match b with BufA => Some (wA i) | _ => None end).

Example C64_applies :
  BufA <> BufAp 0 /\ (6 | 12) /\ (8 | 16) /\ at_least bkmem BufA (13 * 19) /\ exact_size bkmem BufA (13 * 19) /\
  holds bkmem BufA 13 19 (fun i j => wA (i * 19 + j)) /\ at_least bkmem (BufAp 0) (3 + 12 * 16) /\
  (** row 6, column 4 of the block of C *)
  (match pseqexec (pseq (pack_ob_C_multiple_buf Zs (BufA, 0) (BufAp 0, 3) 13 19 4 7 2 12 16 6 8 true)) bkmem with
   | Done _ m' => dat m' (BufAp 0) (3 + tile_slot 6 8 12 6 4) = Some (wA (12 * 19 + 11)) /\
                  dat m' (BufAp 0) (3 + tile_slot 6 8 12 7 4) = Some 0 /\
                  dat m' (BufAp 0) (3 + tile_slot 6 8 12 6 12) = Some 0
   | _ => False end) /\
  (** row 6, column 9 of a block of A of the same size, columns from 2 on *)
  (match pseqexec (pseq (pack_ob_A_multiple_buf Zs (BufA, 0) (BufAp 0, 3) 13 19 4 2 2 12 16 6 true)) bkmem with
   | Done _ m' => dat m' (BufAp 0) (3 + panel_slot 6 16 6 9) = Some (wA (12 * 19 + 11)) /\
                  dat m' (BufAp 0) (3 + panel_slot 6 16 7 9) = Some 0
   | _ => False end) /\
  (** the matrix as a 13 x 19 operand B, rows from 1 on; column 11 of the block is the last *)
  (match pseqexec (pack_ob_B_parallel Zs (BufA, 1 * 19 + 7) (BufAp 0, 3) 13 19 7 12 16 8 true) bkmem with
   | Done _ m' => dat m' (BufAp 0) (3 + panel_slot 8 12 11 9) = Some (wA (10 * 19 + 18)) /\
                  dat m' (BufAp 0) (3 + panel_slot 8 12 12 9) = Some 0
   | _ => False end) /\
  match pseqexec (pseq (pack_ob_A_multiple_buf Zs (BufA, 0) (BufAp 0, 3) 13 19 4 2 2 12 16 6 false)) bkmem with
  | Undef => True | _ => False end.
Proof.
  split; [discriminate|]. split; [exists 2; reflexivity|]. split; [exists 2; reflexivity|].
  split; [exists (BInfo 247 false); split; [reflexivity|discriminate]|].
  split; [exists (BInfo 247 false); split; reflexivity|].
  split; [intros i j _ _; reflexivity|].
  split; [exists (BInfo 195 true); split; [reflexivity|discriminate]|].
  vm_compute. repeat split; reflexivity.
Qed.
