(** * Matrices anywhere in the caller's memory: property theorems.

    The arguments A, B, C of a call are any three pointers into the caller's objects (SpecPlace,
    [caller_at]); the matrices may overlap in any way.  [call_at (arg pA pB pC) P] is the call P
    with these arguments. *)

From Coq Require Import ZArith List Bool Lia.
From Verif Require Import Lang Exec Spec SpecTop SpecOnline ModelSizing ModelKernel ModelTop ModelPlace SpecPlace
     Grid_call_facts Refute_facts Witness Witness_facts PlaceCall_facts PlaceDis_facts.
Open Scope Z_scope.

(** C66.  cake_sgemm copies A and B before it writes to C, so C may overlap A or B, or be one of
    them: what is left at pC is the product of the matrices that were at pA and pB before the
    call, and nothing but the M x N elements at pC has changed.  K-first schedule. *)
Theorem C66_overlap_K_first :
  forall S F ar q (nz : elt S -> bool) M N K p c alpha beta mcu kcu ncu,
  legal F ar KMN c M N K p mcu kcu ncu ->
  exists ord c', orders K ord /\ same_ctx c c' /\
    forall A B pA pB pC m0, caller_at m0 pA pB pC M N K A B ->
      always (call_at (arg pA pB pC)
                (cake_sgemm S F ar q nz M N K p (Some c) false false alpha beta KMN mcu kcu ncu)) m0
        (fun r m' => r = c' /\ matrix_at m' pC M N (product S A B ord) /\ only_changed_at pC m0 m' M N).
Proof.
  intros S F ar q nz M N K p c alpha beta mcu kcu ncu L.
  destruct (sgemm_at_product S F ar q nz M N K p c alpha beta KMN mcu kcu ncu 0 L) as (ord & c' & H1 & H2 & H3); [congruence|].
  exists ord, c'. split; [exact H1|split; [exact H2|]]. intros A B pA pB pC m0 Hc. apply H3; [exact Hc|congruence].
Qed.
Print Assumptions C66_overlap_K_first.

(** The same for the other schedules, with beta = 0. *)
Theorem C66_overlap_other_schedules :
  forall S F ar q (nz : elt S -> bool) M N K p c alpha beta s mcu kcu ncu t,
  legal F ar s c M N K p mcu kcu ncu -> nz beta = false -> tail_ok c K p mcu kcu ncu t ->
  exists ord c', orders K ord /\ same_ctx c c' /\
    forall A B pA pB pC m0, caller_at m0 pA pB pC M N K A B -> B_rim_at m0 pB N K (nr c) t ->
      always (call_at (arg pA pB pC)
                (cake_sgemm S F ar q nz M N K p (Some c) false false alpha beta s mcu kcu ncu)) m0
        (fun r m' => r = c' /\ matrix_at m' pC M N (product S A B ord) /\ only_changed_at pC m0 m' M N).
Proof.
  intros S F ar q nz M N K p c alpha beta s mcu kcu ncu t L Hb Ht.
  destruct (sgemm_at_product S F ar q nz M N K p c alpha beta s mcu kcu ncu t L) as (ord & c' & H1 & H2 & H3); [auto|].
  exists ord, c'. split; [exact H1|split; [exact H2|]]. intros A B pA pB pC m0 Hc Hr. apply H3; auto.
Qed.
Print Assumptions C66_overlap_other_schedules.

(** In general: whatever cake_sgemm guarantees about C for three separate matrices -- any schedule,
    any alpha and beta, with or without a context -- it guarantees about what is at pC for
    matrices that overlap. *)
Theorem C66_overlap_general :
  forall S F ar q (nz : elt S -> bool) M N K p oc alpha beta s mcu kcu ncu pA pB pC m0 (Q : cntx -> mem (elt S) -> Prop),
  argument pA -> argument pB -> argument pC ->
  always (cake_sgemm S F ar q nz M N K p oc false false alpha beta s mcu kcu ncu) (seen pA pB pC m0) Q ->
  always (call_at (arg pA pB pC) (cake_sgemm S F ar q nz M N K p oc false false alpha beta s mcu kcu ncu)) m0
    (fun r m' => exists m1, Q r m1 /\
       (forall i, dat m' (fst pC) (snd pC + i) = dat m1 BufC i) /\
       (forall b, callers b = true -> live m' b = live m0 b) /\
       (forall b i, callers b = true -> b <> fst pC -> dat m' b i = dat m0 b i)).
Proof. exact sgemm_anywhere. Qed.
Print Assumptions C66_overlap_general.

(** cake_sgemm_2d_small too writes C when it has read A and B for the last time. *)
Theorem C66_overlap_small_grid :
  forall S F ar q rows M N K p pn c,
  legal_small F ar rows c M N K p pn ->
  forall A B pA pB pC m0, caller_at m0 pA pB pC M N K A B -> A_rim_at m0 pA M K (mr c) -> B_rim_at m0 pB N K (nr c) 0 ->
  always (call_at (arg pA pB pC) (cake_sgemm_2d_small S F ar q rows M N K p (Some c))) m0
    (fun _ m' => matrix_at m' pC M N (product S A B (fun _ _ => zrange 0 K)) /\ only_changed_at pC m0 m' M N).
Proof. exact small_at. Qed.
Print Assumptions C66_overlap_small_grid.

(** cake_sgemm_online and cake_sgemm_2d: A and B may overlap, if C does not overlap what is read of
    them ([C_clear]); all three may be parts of one object. *)
Theorem C66_disjoint_C_online :
  forall S so F ar q M N K p c mcu kcu ncu,
  legal F ar KMN c M N K p mcu kcu ncu -> (so = true -> one_thread M N K p (mr c)) ->
  exists ord c', orders K ord /\ same_ctx c c' /\
    forall A B pA pB pC m0, caller_at m0 pA pB pC M N K A B ->
      A_rim_at m0 pA M K (mr c) -> B_rim_at m0 pB N K (nr c) 0 -> C_clear pA pB pC M N K (mr c) (nr c) ->
      always (call_at (arg pA pB pC) (cake_sgemm_online S so F ar q M N K p (Some c) mcu kcu ncu)) m0
        (fun r m' => r = c' /\ matrix_at m' pC M N (product S A B ord) /\ only_changed_at pC m0 m' M N).
Proof. exact online_at. Qed.
Print Assumptions C66_disjoint_C_online.

Theorem C66_disjoint_C_grid :
  forall S F ar q rows M N K p c mcu kcu ncu,
  legal_2d F ar rows c M N K p mcu kcu ncu ->
  exists ord, orders K ord /\
    forall A B pA pB pC m0, caller_at m0 pA pB pC M N K A B ->
      A_rim_at m0 pA M K (mr c) -> B_rim_at m0 pB N K (nr c) 0 -> C_clear pA pB pC M N K (mr c) (nr c) ->
      always (call_at (arg pA pB pC) (cake_sgemm_2d S F ar q rows M N K p (Some c) mcu kcu ncu)) m0
        (fun _ m' => matrix_at m' pC M N (product S A B ord) /\ only_changed_at pC m0 m' M N).
Proof. exact grid_at. Qed.
Print Assumptions C66_disjoint_C_grid.

(** Without that proviso it is false: with C = A both entry points leave a wrong product, even on
    one core. *)
Theorem C66_overlap_refuted :
  exists A B pA pB pC m0, caller_at m0 pA pB pC 12 32 16 A B /\ A_rim_at m0 pA 12 16 6 /\ B_rim_at m0 pB 32 16 16 0 /\
    pC = pA /\
    legal wF haswell KMN wctx 12 32 16 1 6 16 16 /\
    ~ always (call_at (arg pA pB pC) (cake_sgemm_online Zs false wF haswell wctx 12 32 16 1 (Some wctx) 6 16 16)) m0
        (fun _ m' => matrix_at m' pC 12 32 (matmul Zs Z.add Z.mul A B 16)) /\
    legal_2d wFr haswell 4 wctx 12 32 16 1 6 16 16 /\
    ~ always (call_at (arg pA pB pC) (cake_sgemm_2d Zs wFr haswell wctx 4 12 32 16 1 (Some wctx) 6 16 16)) m0
        (fun _ m' => matrix_at m' pC 12 32 (matmul Zs Z.add Z.mul A B 16)).
Proof. exact overlap_wrong. Qed.
Print Assumptions C66_overlap_refuted.

(** All three matrices in one object of 600 elements, A at 0 (13 x 5), C at 7 (13 x 33), B at 20
    (5 x 33), on two cores: the value left in the last element of C is the right one. *)
Example C66_applies :
  legal wF haswell KMN wctx 13 33 5 2 6 2 16 /\
  caller_at wone (BufA, 0) (BufA, 20) (BufA, 7) 13 33 5 (fun i k => wA (i * 5 + k)) (fun k j => wA (20 + (k * 33 + j))) /\
  out_at BufA (pseqexec (call_at (arg (BufA, 0) (BufA, 20) (BufA, 7)) (wrun 1 0 KMN 13 33 5 2 6 2 16)) wone) (7 + (12 * 33 + 32))
    = Some (matmul Zs Z.add Z.mul (fun i k => wA (i * 5 + k)) (fun k j => wA (20 + (k * 33 + j))) 5 12 32).
Proof. split; [apply w_legal; lia|split; [apply wone_caller|vm_compute; reflexivity]]. Qed.

(** C = A for the other schedules *)
Example C66_applies_other :
  legal wF haswell MKN wctx 12 32 16 1 6 16 16 /\ tail_ok wctx 16 1 6 16 16 0 /\
  caller_at wtwo (BufA, 0) (BufB, 0) (BufA, 0) 12 32 16 (fun i k => wA (i * 16 + k)) (fun k j => wB (k * 32 + j)) /\
  B_rim_at wtwo (BufB, 0) 32 16 (nr wctx) 0 /\
  out_at BufA (pseqexec (call_at (arg (BufA, 0) (BufB, 0) (BufA, 0)) (wrun 1 0 MKN 12 32 16 1 6 16 16)) wtwo) (0 * 32 + 16)
    = Some (matmul Zs Z.add Z.mul (fun i k => wA (i * 16 + k)) (fun k j => wB (k * 32 + j)) 16 0 16).
Proof.
  split; [apply w_legal; lia|split; [left; reflexivity|split; [now apply wtwo_caller|split; [apply wtwo_B_rim|vm_compute; reflexivity]]]].
Qed.

(** C = A in the small grid, 2 x 2 cores *)
Example C66_applies_small :
  legal_small wFr haswell 4 wctx 18 48 5 4 2 /\
  caller_at wbig (BufA, 0) (BufB, 0) (BufA, 0) 18 48 5 (fun i k => wA (i * 5 + k)) (fun k j => wB (k * 48 + j)) /\
  A_rim_at wbig (BufA, 0) 18 5 (mr wctx) /\ B_rim_at wbig (BufB, 0) 48 5 (nr wctx) 0 /\
  out_at BufA (pseqexec (call_at (arg (BufA, 0) (BufB, 0) (BufA, 0))
     (cake_sgemm_2d_small Zs wFr haswell wctx 4 18 48 5 4 (Some wctx))) wbig) (17 * 48 + 47)
    = Some (matmul Zs Z.add Z.mul (fun i k => wA (i * 5 + k)) (fun k j => wB (k * 48 + j)) 5 17 47).
Proof. split; [exact wbig_legal|split; [exact wbig_caller|split; [exact wbig_A|split; [exact wbig_B|vm_compute; reflexivity]]]]. Qed.

(** All three in one object, A and B overlapping, C behind them *)
Example C66_applies_disjoint :
  legal wF haswell KMN wctx 12 32 16 1 6 16 16 /\ legal_2d wFr haswell 4 wctx 12 32 16 1 6 16 16 /\
  caller_at wsep (BufA, 0) (BufA, 3) (BufA, 515) 12 32 16 (fun i k => wA (i * 16 + k)) (fun k j => wA (3 + (k * 32 + j))) /\
  A_rim_at wsep (BufA, 0) 12 16 (mr wctx) /\ B_rim_at wsep (BufA, 3) 32 16 (nr wctx) 0 /\
  C_clear (BufA, 0) (BufA, 3) (BufA, 515) 12 32 16 (mr wctx) (nr wctx) /\
  out_at BufA (pseqexec (call_at (arg (BufA, 0) (BufA, 3) (BufA, 515))
     (cake_sgemm_online Zs false wF haswell wctx 12 32 16 1 (Some wctx) 6 16 16)) wsep) (515 + (0 * 32 + 16))
    = Some (matmul Zs Z.add Z.mul (fun i k => wA (i * 16 + k)) (fun k j => wA (3 + (k * 32 + j))) 16 0 16).
Proof.
  split; [apply w_legal; lia|split; [exact wsep_legal|split; [exact wsep_caller|]]].
  split; [exact wsep_A|split; [exact wsep_B|split; [exact wsep_clear|vm_compute; reflexivity]]].
Qed.
