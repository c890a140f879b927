(** * Exactly when a context from cake_query_cntx_torch can be used. *)

From Coq Require Import ZArith List Bool Lia.
From Verif Require Import Lang Lang_facts Spec SpecTop SpecTouch ModelSizing ModelKernel ModelPack ModelSched ModelTop ModelUtil
     SpecLinear Misc_facts Mult_facts Sizing_facts SizingMN_facts Init_facts BadMap_facts Linear_facts Witness Witness_facts.
Open Scope Z_scope.

Lemma init_sch F M N K p c s mcu kcu ncu x c' :
  init_block_dims F M N K p c s mcu kcu ncu = CRet (x, c') -> s <> NA -> sch x = s.
Proof.
  intros E Hs. unfold init_block_dims in E. destruct (cbind_ret _ _ _ E) as (r & E1 & E2).
  assert (Er : cd_sch (fst r) = s).
  { revert E1. unfold get_cache_dims. destruct (imod _ _) as [r2| |]; cbn [cbind]; try discriminate.
    destruct (imod (fp_mcL3 F (L3 c) (ncores c)) _) as [r3| |]; cbn [cbind]; try discriminate.
    destruct (clip_mc _ _ _ _) as [mc| |]; cbn [cbind]; try discriminate.
    destruct (truthy mcu && truthy ncu && truthy kcu).
    { intros G. injection G as <-. cbn. destruct s; congruence. }
    destruct s; try congruence;
    repeat (match goal with |- cbind ?a _ = _ -> _ => destruct a; cbn [cbind]; try discriminate end);
    intros G; injection G as <-; reflexivity. }
  apply cbind_ret in E2. destruct E2 as (y & Ey & E2). injection E2 as -> _. rewrite Er in Ey. revert Ey.
  destruct s; [| | |congruence]; unfold dims_KMN, dims_MKN, dims_NKM;
  repeat (match goal with |- cbind ?a _ = _ -> _ => destruct a; cbn [cbind]; try discriminate end);
  intros G; injection G as <-; reflexivity.
Qed.

Section Torch.

Variable S : scalar.
Variables (F : fpenv) (q : cntx) (nz : elt S -> bool) (M N K p : Z) (junk : cntx) (l2 l3 : Z) (al be : elt S).
Let c := cake_query_cntx_torch junk l2 l3.
Variables (s : sched) (mcu kcu ncu : Z) (x : blk_dims) (c' : cntx).
Hypothesis Ht : tiles_ok F M p c mcu kcu ncu.
Hypothesis Hi : init_block_dims F M N K p c s mcu kcu ncu = CRet (x, c').

(** the call with the schedule the library works with *)
Lemma torch_sched :
  cake_sgemm S F haswell q nz M N K p (Some c) false false al be s mcu kcu ncu =
  cake_sgemm S F haswell q nz M N K p (Some c) false false al be (sch x) mcu kcu ncu /\ sch x <> NA.
Proof.
  assert (D : s = NA \/ s <> NA) by (destruct s; (left; reflexivity) || (right; discriminate)).
  destruct D as [D|D].
  - rewrite D in Hi |- *. split; [now apply (sgemm_NA S) with (c' := c')|apply (init_NA _ _ _ _ _ _ _ _ _ _ _ Hi)].
  - now rewrite (init_sch _ _ _ _ _ _ _ _ _ _ _ _ Hi D).
Qed.

Lemma torch_fine :
  0 <= M -> 0 <= N -> 0 <= K -> 0 < p -> nz be = false -> (sch x = KMN -> lucky junk) ->
  exists ord, orders K ord /\
    forall A B m0, caller m0 M N K A B -> (sch x <> KMN -> B_rim m0 N K 16 0) ->
      always (cake_sgemm S F haswell q nz M N K p (Some c) false false al be s mcu kcu ncu) m0
        (fun _ m' => holds m' BufC M N (product S A B ord) /\ only_C_changed m0 m' M N).
Proof.
  intros HM HN HK Hp Hb Hl. destruct torch_sched as (-> & Hna).
  assert (L : legal F haswell (sch x) c M N K p mcu kcu ncu).
  { split; [apply w_arch|split; [|do 4 (split; [assumption|]); exact Ht]].
    destruct (sch x) eqn:Hs; [|split; reflexivity|split; reflexivity|congruence].
    destruct (Hl eq_refl) as (E3 & E4). unfold ctx_for, ctx_ok. change (m_map c) with (m_map junk). change (n_map c) with (n_map junk). rewrite E3, E4. cbn. lia. }
  destruct (plain_ok S F haswell q nz M N K p c al be (sch x) mcu kcu ncu L (Some c) 0 eq_refl (or_intror Hb) (or_introl eq_refl)) as (ord & c2 & E1 & _ & E3).
  exists ord. split; [exact E1|]. intros A B m0 Hc Hr.
  eapply always_mono; [apply (E3 A B m0 Hc Hr)|]. cbv beta. tauto.
Qed.

Lemma torch_bad : 0 < M -> 0 < N -> 0 < K -> 0 < p -> sch x = KMN -> ~ lucky junk ->
  forall A B m0, caller m0 M N K A B ->
  always_undefined (cake_sgemm S F haswell q nz M N K p (Some c) false false al be s mcu kcu ncu) m0.
Proof.
  intros HM HN HK Hp Hs Hl A B m0 (_ & _ & _ & _ & _ & Ho).
  apply (bad_kernel S F haswell q nz M N K p c al be s mcu kcu ncu x c'); auto; try reflexivity.
  - apply Ho. exact I.
  - apply Ho. exact I.
  - unfold in_table, km_of, kn_of, c, cake_query_cntx_torch. cbn [mr nr m_map n_map].
    change (MR_MIN haswell) with 6. change (NR_MIN haswell) with 16.
    assert (0 < MR_FACT haswell /\ 0 < NR_FACT haswell) by (split; reflexivity). unfold lucky in Hl.
    destruct (Z_le_dec 0 (m_map junk)); [|left; lia]. destruct (Z_le_dec 0 (n_map junk)); [|left; lia].
    right. nia.
Qed.

End Torch.
