(** * From the body of cake_sgemm to the call as the user makes it. *)

From Coq Require Import ZArith List Bool Lia Permutation.
From Verif Require Import Lang Lang_facts Spec SpecTop ModelSizing ModelKernel ModelPack ModelSched ModelTop
     Kernel_facts Tile_facts Loop_facts Pack_facts Unpack_facts Sizing_facts PackMat_facts PackB_facts
     Order_facts Cphase_facts SchedK_facts Frame_facts Init_facts TopK_facts.
Import ListNotations.
Open Scope Z_scope.

Section Call.

Variable S : scalar.
Notation T := (elt S).

Lemma used_own p b : used p b -> own b.
Proof. intros [->|[->|[->|(k & _ & ->)]]]; cbn; lia || exact I. Qed.

Lemma sgemm_call F ar q nz M N K p c pa pb al be s mcu kcu ncu x c' (R : mem T -> Prop) m0 :
  init_block_dims F M N K p c s mcu kcu ncu = CRet (x, c') ->
  (forall b, used p b -> live m0 b = None) ->
  pok (sgemm_after S ar nz M N K p pa pb be (x, c')) (do_alloc m0 (BufX 0) 1 false None)
      (fun r m' => r = c' /\ R m' /\
         (forall b, live m' b = if buf_eqb (BufX 0) b then None
                                else live (do_alloc m0 (BufX 0) 1 false None) b) /\
         (forall b i, ~ used p b -> ~ (b = BufC /\ 0 <= i < M * N) ->
                      dat m' b i = dat (do_alloc m0 (BufX 0) 1 false None) b i)) ->
  pok (cake_sgemm S F ar q nz M N K p (Some c) pa pb al be s mcu kcu ncu) m0
      (fun r m' => r = c' /\ R m' /\ only_C_changed m0 m' M N).
Proof.
  intros Hi Hfr H. rewrite cake_sgemm_unfold. apply pok_bind. unfold get_ctx. apply pok_ret.
  assert (FX : live m0 (BufX 0) = None) by (apply Hfr; left; auto).
  apply pok_bind. apply pok_alloc; [lia|exact FX|].
  apply pok_bind. apply (pok_lift S (x, c')); [auto|].
  eapply pok_mono; [exact H|]. cbv beta. intros r m' (E & HR & HL & HD).
  split; [auto|split; [auto|split]].
  - intros b. rewrite HL, live_alloc. destruct (buf_eqb_spec (BufX 0) b) as [<-|_]; auto.
  - intros b i Hb Hn. rewrite HD, dat_alloc; [|intros Hu; apply Hb; auto|auto].
    rewrite buf_eqb_neq; auto. intros <-. congruence.
Qed.

(** Without a context the call makes one and does not free it. *)
Lemma sgemm_call_null F ar q nz M N K p pa pb al be s mcu kcu ncu x c' (R : mem T -> Prop) m0 :
  init_block_dims F M N K p q s mcu kcu ncu = CRet (x, c') ->
  (forall b, used p b -> live m0 b = None) -> live m0 cbuf = None ->
  let m1 := do_alloc m0 cbuf 1 false None in
  pok (sgemm_after S ar nz M N K p pa pb be (x, c')) (do_alloc m1 (BufX 0) 1 false None)
      (fun r m' => r = c' /\ R m' /\
         (forall b, live m' b = if buf_eqb (BufX 0) b then None
                                else live (do_alloc m1 (BufX 0) 1 false None) b) /\
         (forall b i, ~ used p b -> ~ (b = BufC /\ 0 <= i < M * N) ->
                      dat m' b i = dat (do_alloc m1 (BufX 0) 1 false None) b i)) ->
  pok (cake_sgemm S F ar q nz M N K p None pa pb al be s mcu kcu ncu) m0
      (fun r m' => r = c' /\ R m' /\ only_C_changed m1 m' M N).
Proof.
  intros Hi Hfr Hq m1 H. rewrite cake_sgemm_unfold. apply pok_bind. unfold get_ctx.
  apply pok_bind. apply pok_alloc; [lia|exact Hq|]. apply pok_ret. fold m1.
  assert (FX : live m1 (BufX 0) = None).
  { unfold m1. rewrite live_alloc. cbn. apply Hfr. left; auto. }
  apply pok_bind. apply pok_alloc; [lia|exact FX|].
  apply pok_bind. apply (pok_lift S (x, c')); [auto|].
  eapply pok_mono; [exact H|]. cbv beta. intros r m' (E & HR & HL & HD).
  split; [auto|split; [auto|split]].
  - intros b. rewrite HL, live_alloc. destruct (buf_eqb_spec (BufX 0) b) as [<-|_]; auto.
  - intros b i Hb Hn. rewrite HD, dat_alloc; [| |auto].
    + rewrite buf_eqb_neq; auto. intros <-. congruence.
    + intros Hu. apply Hb. unfold m1. rewrite live_alloc.
      destruct (buf_eqb_spec cbuf b) as [<-|_]; [|auto].
      exfalso. destruct Hu as [E'|[E'|[E'|(k & _ & E')]]]; discriminate.
Qed.

(** The operands of a plain call *)
Lemma caller_ops (m0 : mem T) M N K A B p :
  caller m0 M N K A B -> (forall b, used p b -> live m0 b = None).
Proof. intros (_ & _ & _ & _ & _ & H) b Hb. apply H. eapply used_own; eauto. Qed.

End Call.
