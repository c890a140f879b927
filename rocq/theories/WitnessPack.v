(** * Concrete memories for the packing properties. *)

From Coq Require Import ZArith List Bool Lia.
From Verif Require Import Lang Spec SpecTop SpecPack ModelSizing ModelKernel ModelPack ModelSched ModelTop Exec Exec_facts
     Witness Witness_facts Mult_facts Refute_facts.
Import ListNotations.
Open Scope Z_scope.

(** A in [srcA], B in [srcB], C of any content *)
Definition pmem (M N K : Z) : mem Z :=
  Mem (fun b => match b with
                | BufX 3 => Some (BInfo (M * K) false) | BufX 4 => Some (BInfo (K * N) false)
                | BufC => Some (BInfo (M * N) false) | _ => None end)
      (fun b i => match b with BufX 3 => Some (wA i) | BufX 4 => Some (wB i) | _ => None end).

(** A in place, B in [srcB] *)
Definition pmemB (M N K : Z) : mem Z :=
  Mem (fun b => match b with
                | BufA => Some (BInfo (M * K) false) | BufX 4 => Some (BInfo (K * N) false)
                | BufC => Some (BInfo (M * N) false) | _ => None end)
      (fun b i => match b with BufA => Some (wA i) | BufX 4 => Some (wB i) | _ => None end).

(** C[i] = 100 + i, and two objects without content *)
Definition rmem (M N n : Z) : mem Z :=
  Mem (fun b => match b with
                | BufC => Some (BInfo (M * N) false) | BufX 3 => Some (BInfo n false)
                | BufX 4 => Some (BInfo (M * N) false) | _ => None end)
      (fun b i => match b with BufC => Some (100 + i) | _ => None end).

Lemma p_caller M N K : prepacking_caller (pmem M N K) true true M N K (fun i k => wA (i * K + k)) (fun k j => wB (k * N + j)).
Proof.
  unfold prepacking_caller. cbn. repeat split; try (eexists; split; [reflexivity|cbn; lia]).
  intros b Hb H1 H2. unfold srcA, srcB in *. destruct b as [| | |i| |i|i]; cbn in *; try contradiction; try reflexivity.
  destruct i as [|q|q]; try reflexivity. destruct q as [[|[]|]|[[]|[]|]|]; try reflexivity; congruence.
Qed.

Lemma pB_caller M N K : prepacking_caller (pmemB M N K) false true M N K (fun i k => wA (i * K + k)) (fun k j => wB (k * N + j)).
Proof.
  unfold prepacking_caller. cbn. repeat split; try (eexists; split; [reflexivity|cbn; lia]).
  intros b Hb H1 H2. unfold srcA, srcB in *. destruct b as [| | |i| |i|i]; cbn in *; try contradiction; try reflexivity.
  destruct i as [|q|q]; try reflexivity. destruct q as [[|[]|]|[[]|[]|]|]; try reflexivity; congruence.
Qed.

Lemma p_rim {V} (m : mem V) b N K nr t : 0 < nr -> (nr | N) -> rim m b N K nr t.
Proof.
  intros Hn [q ->] k j _ Hj. exfalso. unfold round_up, ceil_div in Hj.
  replace (q * nr + nr - 1) with (nr - 1 + q * nr) in Hj by ring.
  rewrite Z.div_add, (Z.div_small (nr - 1) nr) in Hj by lia. lia.
Qed.

Lemma pack_C_overflows :
  exists x c1 n m C0, legal wF haswell NKM wctx 13 32 1 2 6 1 16 /\
    init_block_dims wF 13 32 1 2 wctx NKM 6 1 16 = CRet (x, c1) /\
    packed_C_size 13 32 2 x (mr c1) (nr c1) (sch x) = CRet n /\
    at_least m BufC (13 * 32) /\ holds m BufC 13 32 C0 /\ exact_size m srcB n /\
    pexec (pack_C Zs (BufC, 0) (srcB, 0) 13 32 2 x c1 (sch x)) m Undef.
Proof.
  eexists. eexists. exists 576.
  exists (Mem (fun b => match b with BufC => Some (BInfo (13 * 32) false) | BufX 4 => Some (BInfo 576 false) | _ => None end)
              (fun b i => match b with BufC => Some (100 + i) | _ => None end)), (fun i j => 100 + (i * 32 + j)).
  split; [apply w_legal; lia|split; [vm_compute; reflexivity|split; [reflexivity|split; [|split; [|split]]]]].
  - eexists. split; [reflexivity|cbn; lia].
  - intros i j _ _. reflexivity.
  - eexists. split; [reflexivity|reflexivity].
  - match goal with |- pexec ?P ?m _ => apply (refute_by_undef P m (fun _ _ => True)) end. vm_compute. reflexivity.
Qed.

Lemma unaligned_B :
  exists M N K p A B m0, legal wF haswell KMN wctx M N K p 6 1 16 /\ prepacking_caller m0 false true M N K A B /\
    pexec (prepacked_call Zs wF haswell wctx Znz M N K p wctx false true true false 1 0 KMN 6 1 16) m0 Undef.
Proof.
  exists 6, 16, 2, 1. do 2 eexists. exists (pmemB 6 16 2).
  split; [apply w_legal; lia|split; [apply pB_caller|]].
  match goal with |- pexec ?P ?m _ => apply (refute_by_undef P m (fun _ _ => True)) end. vm_compute. reflexivity.
Qed.
