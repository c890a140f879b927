(** * C35 for the ARMv8 build. *)

From Coq Require Import ZArith List Bool Lia.
From Verif Require Import Lang Spec SpecTop SpecLinear SpecTouch ModelSizing ModelKernel ModelPack ModelSched ModelTop ModelUtil
     Witness Witness_facts TorchArm_facts.
Open Scope Z_scope.

(** C35.  As C35_torch_context (PropUtil.v): a context from the ARMv8 version of
    cake_query_cntx_torch works with every garbage in its uninitialised fields unless the library
    works K-first; then the garbage must name the 8x12 kernel. *)
Theorem C35_torch_context_armv8 :
  forall S F q (nz : elt S -> bool) M N K p junk l2 l3 alpha beta s mcu kcu ncu x c',
  tiles_ok F M p (cake_query_cntx_torch_armv8 junk l2 l3) mcu kcu ncu ->
  init_block_dims F M N K p (cake_query_cntx_torch_armv8 junk l2 l3) s mcu kcu ncu = CRet (x, c') ->
  0 <= M -> 0 <= N -> 0 <= K -> 0 < p -> nz beta = false -> (sch x = KMN -> lucky junk) ->
  exists ord, orders K ord /\
    forall A B m0, caller m0 M N K A B -> (sch x <> KMN -> B_rim m0 N K 12 0) ->
      always (cake_sgemm S F armv8 q nz M N K p (Some (cake_query_cntx_torch_armv8 junk l2 l3)) false false alpha beta s mcu kcu ncu) m0
        (fun _ m' => holds m' BufC M N (product S A B ord) /\ only_C_changed m0 m' M N).
Proof. exact torch_fine_arm. Qed.
Print Assumptions C35_torch_context_armv8.

(** K-first with any other garbage: every execution of every call with work to do is undefined. *)
Theorem C35_otherwise_undefined_armv8 :
  forall S F q (nz : elt S -> bool) M N K p junk l2 l3 alpha beta s mcu kcu ncu x c',
  tiles_ok F M p (cake_query_cntx_torch_armv8 junk l2 l3) mcu kcu ncu ->
  init_block_dims F M N K p (cake_query_cntx_torch_armv8 junk l2 l3) s mcu kcu ncu = CRet (x, c') ->
  0 < M -> 0 < N -> 0 < K -> 0 < p -> sch x = KMN -> ~ lucky junk ->
  forall A B m0, caller m0 M N K A B ->
  always_undefined (cake_sgemm S F armv8 q nz M N K p (Some (cake_query_cntx_torch_armv8 junk l2 l3)) false false alpha beta s mcu kcu ncu) m0.
Proof. exact torch_bad_arm. Qed.
Print Assumptions C35_otherwise_undefined_armv8.

Example C35_armv8_applies :
  let good := Cntx (0, 0) 0 0 0 0 0 0 0 0 in let bad := Cntx (0, 0) 0 0 1 0 0 0 0 0 in
  tiles_ok wF 9 2 (cake_query_cntx_torch_armv8 good 262144 8388608) 8 2 12 /\
  (exists x c', init_block_dims wF 9 13 3 2 (cake_query_cntx_torch_armv8 good 262144 8388608) KMN 8 2 12 = CRet (x, c') /\ sch x = KMN) /\
  lucky good /\ ~ lucky bad /\
  tiles_ok wF 9 2 (cake_query_cntx_torch_armv8 bad 262144 8388608) 8 2 12 /\
  (exists x c', init_block_dims wF 9 13 3 2 (cake_query_cntx_torch_armv8 bad 262144 8388608) KMN 8 2 12 = CRet (x, c') /\ sch x = KMN) /\
  caller (wmem 9 13 3) 9 13 3 (fun i k => wA (i * 3 + k)) (fun k j => wB (k * 13 + j)).
Proof.
  intros good bad.
  assert (T : forall j, tiles_ok wF 9 2 (cake_query_cntx_torch_armv8 j 262144 8388608) 8 2 12).
  { intros j. left. split; [reflexivity|split; [reflexivity|split; [reflexivity|split; [exists 1; reflexivity|exists 1; reflexivity]]]]. }
  split; [apply T|split; [do 2 eexists; split; [vm_compute; reflexivity|reflexivity]|]].
  split; [split; reflexivity|]. split; [intros (E & _); discriminate E|]. split; [apply T|].
  split; [do 2 eexists; split; [vm_compute; reflexivity|reflexivity]|apply w_caller].
Qed.
