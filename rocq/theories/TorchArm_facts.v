(** * Exactly when a context from cake_query_cntx_torch can be used, ARMv8 build. *)

From Coq Require Import ZArith List Bool Lia.
From Verif Require Import Lang Lang_facts Spec SpecTop SpecTouch ModelSizing ModelKernel ModelPack ModelSched ModelTop ModelUtil
     SpecLinear Misc_facts Mult_facts Sizing_facts SizingMN_facts Init_facts BadMap_facts Linear_facts TorchExact_facts.
Open Scope Z_scope.

Lemma arm_arch : arch_ok armv8.
Proof. repeat split; try reflexivity; [exists 12; reflexivity|exists 12; reflexivity]. Qed.

Section TorchArm.

Variable S : scalar.
Variables (F : fpenv) (q : cntx) (nz : elt S -> bool) (M N K p : Z) (junk : cntx) (l2 l3 : Z) (al be : elt S).
Let c := cake_query_cntx_torch_armv8 junk l2 l3.
Variables (s : sched) (mcu kcu ncu : Z) (x : blk_dims) (c' : cntx).
Hypothesis Ht : tiles_ok F M p c mcu kcu ncu.
Hypothesis Hi : init_block_dims F M N K p c s mcu kcu ncu = CRet (x, c').

(** the call with the schedule the library works with *)
Lemma torch_sched_arm :
  cake_sgemm S F armv8 q nz M N K p (Some c) false false al be s mcu kcu ncu =
  cake_sgemm S F armv8 q nz M N K p (Some c) false false al be (sch x) mcu kcu ncu /\ sch x <> NA.
Proof.
  assert (D : s = NA \/ s <> NA) by (destruct s; (left; reflexivity) || (right; discriminate)).
  destruct D as [D|D].
  - rewrite D in Hi |- *. split; [now apply (sgemm_NA S) with (c' := c')|apply (init_NA _ _ _ _ _ _ _ _ _ _ _ Hi)].
  - now rewrite (init_sch _ _ _ _ _ _ _ _ _ _ _ _ Hi D).
Qed.

Lemma torch_fine_arm :
  0 <= M -> 0 <= N -> 0 <= K -> 0 < p -> nz be = false -> (sch x = KMN -> lucky junk) ->
  exists ord, orders K ord /\
    forall A B m0, caller m0 M N K A B -> (sch x <> KMN -> B_rim m0 N K 12 0) ->
      always (cake_sgemm S F armv8 q nz M N K p (Some c) false false al be s mcu kcu ncu) m0
        (fun _ m' => holds m' BufC M N (product S A B ord) /\ only_C_changed m0 m' M N).
Proof.
  intros HM HN HK Hp Hb Hl. destruct torch_sched_arm as (-> & Hna).
  assert (L : legal F armv8 (sch x) c M N K p mcu kcu ncu).
  { split; [apply arm_arch|split; [|do 4 (split; [assumption|]); exact Ht]].
    destruct (sch x) eqn:Hs; [|split; reflexivity|split; reflexivity|congruence].
    destruct (Hl eq_refl) as (E3 & E4). unfold ctx_for, ctx_ok. change (m_map c) with (m_map junk). change (n_map c) with (n_map junk). rewrite E3, E4. cbn. lia. }
  destruct (plain_ok S F armv8 q nz M N K p c al be (sch x) mcu kcu ncu L (Some c) 0 eq_refl (or_intror Hb) (or_introl eq_refl)) as (ord & c2 & E1 & _ & E3).
  exists ord. split; [exact E1|]. intros A B m0 Hc Hr.
  eapply always_mono; [apply (E3 A B m0 Hc Hr)|]. cbv beta. tauto.
Qed.

Lemma torch_bad_arm : 0 < M -> 0 < N -> 0 < K -> 0 < p -> sch x = KMN -> ~ lucky junk ->
  forall A B m0, caller m0 M N K A B ->
  always_undefined (cake_sgemm S F armv8 q nz M N K p (Some c) false false al be s mcu kcu ncu) m0.
Proof.
  intros HM HN HK Hp Hs Hl A B m0 (_ & _ & _ & _ & _ & Ho).
  apply (bad_kernel S F armv8 q nz M N K p c al be s mcu kcu ncu x c'); auto; try reflexivity.
  - apply Ho. exact I.
  - apply Ho. exact I.
  - unfold in_table, km_of, kn_of, c, cake_query_cntx_torch_armv8. cbn [mr nr m_map n_map].
    change (MR_MIN armv8) with 8. change (NR_MIN armv8) with 12.
    assert (0 < MR_FACT armv8 /\ 0 < NR_FACT armv8) by (split; reflexivity). unfold lucky in Hl.
    destruct (Z_le_dec 0 (m_map junk)); [|left; lia]. destruct (Z_le_dec 0 (n_map junk)); [|left; lia].
    right. nia.
Qed.

End TorchArm.
