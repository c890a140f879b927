(** * cake_sgemm_test: the product is never computed. *)

From Coq Require Import ZArith List Bool Lia Permutation.
From Verif Require Import Lang Lang_facts Spec SpecTop ModelSizing ModelKernel ModelPack ModelSched ModelTop
     Kernel_facts Tile_facts Pack_facts Sizing_facts PackMat_facts PackB_facts CpackK_facts PackBlis_facts
     SchedK_facts SchedMN_facts Frame_facts Init_facts TopK_facts TopMN_facts Call_facts CallAll_facts Prepack_facts Mult_facts.
Open Scope Z_scope.

Section T.
Variable S : scalar.
Notation T := (elt S).

(** what the test entry leaves in C *)
Definition left_in_C (b : bool) (C0 : Z -> Z -> T) (i j : Z) : T := if b then C0 i j else zero S.

Lemma test_entry F ar q nz M N K p c pa pb al be A B C0 m0 :
  legal F ar KMN c M N K p 0 0 0 -> caller m0 M N K A B -> (nz be = true -> holds m0 BufC M N C0) ->
  pok (cake_sgemm_test S F ar q nz M N K p (Some c) pa pb al be) m0
      (fun _ m' => holds m' BufC M N (left_in_C (nz be) C0) /\ only_C_changed m0 m' M N).
Proof.
  intros L Hcl HC0.
  pose proof (caller_ops S m0 M N K A B p Hcl) as Hfr.
  destruct Hcl as ((ba & LA1 & LA2) & HA & (bb & LB1 & LB2) & HB & (bc & LC1 & LC2) & _).
  pose proof L as (Har & Hc & HM & HN & HK & Hp & Ht).
  destruct (plan_ok F ar M N K p c KMN 0 0 0 Har Hc HM HN HK Hp Ht) as (s' & x & c' & N1 & N2 & Hc' & Hi & Hsame & HP & _).
  rewrite N2 in * by discriminate. clear N1 N2. destruct HP as (FF & Es).
  destruct (ctx_for_pos ar KMN c' Har Hc') as (Hmr & Hnr).
  assert (HMp : 0 <= M_padded x) by (pose proof (kf_Mp _ _ _ _ _ _ _ FF); lia).
  assert (HNp : 0 <= N_padded x) by (pose proof (kf_Np _ _ _ _ _ _ _ FF); lia).
  assert (FX : live m0 (BufX 0) = None) by (apply Hfr; left; auto).
  assert (FAp : live m0 (BufAp 0) = None) by (apply Hfr; right; left; auto).
  assert (FBp : live m0 BufBp = None) by (apply Hfr; right; right; left; auto).
  assert (FCp : live m0 (BufCp 0) = None) by (apply Hfr; right; right; right; exists 0; split; [lia|auto]).
  unfold cake_sgemm_test. apply pok_bind. unfold get_ctx. apply pok_ret.
  apply pok_bind. apply pok_alloc; [lia|exact FX|].
  apply pok_bind. apply (pok_lift S (x, c')); [auto|]. cbn [fst snd]. rewrite Es.
  change xbuf with (BufX 0); set (m1 := do_alloc m0 (BufX 0) 1 false None).
  assert (L1 : forall b, b <> BufX 0 -> live m1 b = live m0 b) by (intros; unfold m1; rewrite live_alloc, buf_eqb_neq by auto; auto).
  assert (D1 : forall b i, b <> BufX 0 -> dat m1 b i = dat m0 b i) by (intros; unfold m1; rewrite dat_alloc, buf_eqb_neq by auto; auto).
  assert (L1x : live m1 (BufX 0) <> None) by (unfold m1; rewrite live_alloc; cbn; discriminate).
  clearbody m1.
  apply pok_bind.
  set (QA := fun (_ : ptr) (m : mem T) =>
     (forall b, live m b = if buf_eqb (BufAp 0) b then (if pa then None else Some (BInfo (M_padded x * K) true)) else live m1 b) /\
     (forall b i, b <> BufAp 0 -> dat m b i = dat m1 b i)).
  eapply (pok_mono _ _ QA).
  { destruct pa.
    - apply pok_ret. split; [|auto]. intros b. destruct (buf_eqb_spec (BufAp 0) b) as [<-|_]; [rewrite L1 by discriminate; auto|auto].
    - apply pok_bind. apply (pok_lift S (M_padded x * K)); [apply (kf_sA _ _ _ _ _ _ _ FF)|].
      apply pok_bind. apply pok_alloc; [nia|rewrite L1 by discriminate; auto|]. apply pok_bind.
      eapply pok_mono.
      + apply (pack_A_k_first_blis_spec S M N K p (mr c') (nr c') x FF HM HK Hp Hmr BufA (BufAp 0) A ba (BInfo (M_padded x * K) true)); [discriminate| |exact LA2| | |].
        * rewrite live_alloc, buf_eqb_neq, L1 by discriminate. exact LA1.
        * eapply holds_local; [|exact HA]. intros i. rewrite dat_alloc, buf_eqb_neq, D1 by discriminate. auto.
        * rewrite live_alloc, buf_eqb_refl. reflexivity.
        * cbn. lia.
      + cbv beta. intros _ m (E1 & E2 & _). apply pok_ret. split.
        * intros b. rewrite E1, live_alloc. auto.
        * intros b i Hb. rewrite E2, dat_alloc, buf_eqb_neq; auto. intros (E & _). auto. }
  unfold QA; cbv beta. intros rA m2 (L2 & D2).
  apply pok_bind.
  set (QB := fun (_ : ptr) (m : mem T) =>
     (forall b, live m b = if buf_eqb BufBp b then (if pb then None else Some (BInfo (K * N_padded x) true)) else live m2 b) /\
     (forall b i, b <> BufBp -> dat m b i = dat m2 b i)).
  eapply (pok_mono _ _ QB).
  { destruct pb.
    - apply pok_ret. split; [|auto]. intros b. destruct (buf_eqb_spec BufBp b) as [<-|_]; [rewrite L2; cbn; rewrite L1 by discriminate; auto|auto].
    - apply pok_bind. apply (pok_lift S (K * N_padded x)); [apply (kf_sB _ _ _ _ _ _ _ FF)|].
      apply pok_bind. apply pok_alloc; [nia|rewrite L2; cbn; rewrite L1 by discriminate; auto|]. apply pok_bind.
      eapply pok_mono.
      + apply (pack_B_k_first_blis_spec S M N K p (mr c') (nr c') x FF HN HK Hnr BufB BufBp B bb (BInfo (K * N_padded x) true)); [discriminate| |exact LB2| | |].
        * rewrite live_alloc, buf_eqb_neq, L2 by discriminate. cbn. rewrite L1 by discriminate. exact LB1.
        * eapply holds_local; [|exact HB]. intros i. rewrite dat_alloc, buf_eqb_neq, D2, D1 by discriminate. auto.
        * rewrite live_alloc, buf_eqb_refl. reflexivity.
        * cbn. lia.
      + cbv beta. intros _ m (E1 & E2 & _). apply pok_ret. split.
        * intros b. rewrite E1, live_alloc. auto.
        * intros b i Hb. rewrite E2, dat_alloc, buf_eqb_neq; auto. intros (E & _). auto. }
  unfold QB; cbv beta. intros rB m3 (L3 & D3).
  apply pok_bind. apply (pok_lift S (M_padded x * N_padded x)); [apply (kf_sC _ _ _ _ _ _ _ FF)|].
  assert (FC3 : live m3 (BufCp 0) = None) by (rewrite L3; cbn; rewrite L2; cbn; rewrite L1 by discriminate; auto).
  assert (LC3 : live m3 BufC = Some bc) by (rewrite L3; cbn; rewrite L2; cbn; rewrite L1 by discriminate; auto).
  assert (D30 : forall b i, ~ used p b -> dat m3 b i = dat m0 b i).
  { intros b i Hb. rewrite D3, D2, D1; auto; intros ->; apply Hb; [left|right; left|right; right; left]; auto. }
  assert (NC : ~ used p BufC) by (intros [E|[E|[E|(k & _ & E)]]]; discriminate).
  apply pok_bind.
  set (QC := fun (_ : unit) (m : mem T) => exists bp, live m (BufCp 0) = Some bp /\ M_padded x * N_padded x <= blen bp /\
     (forall b, b <> BufCp 0 -> live m b = live m3 b) /\ (forall b i, b <> BufCp 0 -> dat m b i = dat m3 b i) /\
     cpacked_K S p (mr c') (nr c') x m (BufCp 0) (if nz be then padbox S M N C0 else fun _ _ => zero S)).
  eapply (pok_mono _ _ QC).
  { destruct (nz be) eqn:Enz.
    - apply pok_bind. apply pok_alloc; [nia|auto|]. unfold pack_C.
      eapply pok_mono.
      + apply (pack_C_k_first_spec S M N K p (mr c') (nr c') x FF HM HN Hmr Hnr Hp BufC (BufCp 0) C0 bc (BInfo (M_padded x * N_padded x) true)); [discriminate| |exact LC2| | |].
        * rewrite live_alloc, buf_eqb_neq by discriminate. exact LC3.
        * eapply holds_local; [|exact (HC0 eq_refl)]. intros i. rewrite dat_alloc, buf_eqb_neq by discriminate. auto.
        * rewrite live_alloc, buf_eqb_refl. reflexivity.
        * cbn. lia.
      + cbv beta. intros r' m (E1 & E2 & E3). eexists. split; [rewrite E1, live_alloc, buf_eqb_refl; reflexivity|].
        split; [cbn; lia|split; [|split; [|exact E3]]].
        * intros b Hb. rewrite E1, live_alloc, buf_eqb_neq; auto.
        * intros b i Hb. rewrite E2, dat_alloc, buf_eqb_neq; auto. intros (E & _). auto.
    - apply pok_alloc; [nia|auto|]. eexists. split; [rewrite live_alloc, buf_eqb_refl; reflexivity|].
      split; [cbn; lia|split; [|split]].
      + intros b Hb. now rewrite live_alloc, buf_eqb_neq by auto.
      + intros b i Hb. now rewrite dat_alloc, buf_eqb_neq by auto.
      + intros n m core _ _ _ qm i qn j _ _ _ _. now rewrite dat_alloc, buf_eqb_refl. }
  unfold QC; cbv beta. intros _ m4 (bp & L4 & Hbp & L4' & D4 & HP4).
  apply pok_bind. cbn [schedule]. apply pok_ret.
  apply pok_bind. unfold unpack_C.
  eapply (unpack_C_k_first_spec S M N K p (mr c') (nr c') x FF HN Hmr Hnr Hp BufC (BufCp 0) _ bc bp); eauto;
    [discriminate|rewrite L4' by discriminate; auto|].
  intros m5 L5 D5 H5.
  set (m6 := if pa then m5 else do_free m5 (BufAp 0)).
  set (m7 := if pb then m6 else do_free m6 BufBp).
  assert (L54 : forall b, b <> BufCp 0 -> live m5 b = live m3 b) by (intros b Hb; rewrite L5; auto).
  apply pok_bind. eapply (pok_mono _ _ (fun _ m => m = m6)).
  { unfold m6. destruct pa; [apply pok_ret; auto|]. apply pok_free; [|auto]. rewrite L54 by discriminate.
    rewrite L3. cbn. rewrite L2. cbn. discriminate. }
  cbv beta. intros _ m ->. apply pok_bind. eapply (pok_mono _ _ (fun _ m => m = m7)).
  { unfold m7. destruct pb; [apply pok_ret; auto|]. apply pok_free; [|auto]. unfold m6. 
    assert (live m5 BufBp <> None) by (rewrite L54, L3 by discriminate; cbn; discriminate).
    destruct pa; [auto|]. rewrite live_free. cbn. auto. }
  cbv beta. intros _ m ->.
  assert (L7 : forall b, live m7 b = if (negb pa && buf_eqb (BufAp 0) b) || (negb pb && buf_eqb BufBp b) then None else live m5 b).
  { intros b. unfold m7, m6. destruct pa, pb; cbn [negb andb orb]; rewrite ?live_free, ?orb_false_r; auto;
      destruct (buf_eqb (BufAp 0) b), (buf_eqb BufBp b); auto. }
  assert (D7 : forall b i, b <> BufAp 0 -> b <> BufBp -> dat m7 b i = dat m5 b i).
  { intros b i H1 H2. unfold m7, m6. destruct pa, pb; rewrite ?dat_free, ?buf_eqb_neq by auto; auto. }
  apply pok_bind. apply pok_free; [rewrite L7; cbn; rewrite ?andb_false_r; cbn; rewrite L5, L4; discriminate|].
  apply pok_bind. apply pok_free.
  { rewrite live_free. cbn. rewrite L7. cbn. rewrite ?andb_false_r. cbn. rewrite L54, L3 by discriminate. cbn.
    rewrite L2. cbn. exact L1x. }
  apply pok_ret. split; [|split].
  - intros i j Hi' Hj. rewrite !dat_free. cbn. rewrite D7 by discriminate. rewrite (H5 i j Hi' Hj). unfold left_in_C.
    destruct (nz be); [|auto]. unfold padbox. replace ((i <? M) && (j <? N)) with true by lia. auto.
  - intros b. rewrite !live_free.
    destruct (buf_eqb_spec (BufX 0) b) as [<-|Nx]; [auto|].
    destruct (buf_eqb_spec (BufCp 0) b) as [<-|Nc]; [auto|].
    rewrite L7. destruct (buf_eqb_spec (BufAp 0) b) as [<-|Na].
    { cbn [buf_eqb]. rewrite andb_false_r, orb_false_r, andb_true_r. destruct pa; cbn [negb]; [|auto].
      rewrite L54, L3 by discriminate. cbn. rewrite L2. cbn. auto. }
    destruct (buf_eqb_spec BufBp b) as [<-|Nb'].
    { rewrite andb_false_r, andb_true_r. cbn [orb]. destruct pb; cbn [negb]; [|auto].
      rewrite L54, L3 by discriminate. cbn. auto. }
    rewrite !andb_false_r. cbn [orb]. rewrite L54, L3, buf_eqb_neq, L2, buf_eqb_neq, L1; auto.
  - intros b i Hb HnC. assert (Nu : ~ used p b) by (intros Hu; apply Hb; auto).
    assert (b <> BufX 0) by (intros ->; apply Nu; left; auto).
    assert (b <> BufAp 0) by (intros ->; apply Nu; right; left; auto).
    assert (b <> BufBp) by (intros ->; apply Nu; right; right; left; auto).
    assert (b <> BufCp 0) by (intros ->; congruence).
    rewrite !dat_free, !buf_eqb_neq by auto. rewrite D7 by auto.
    rewrite D5 by (intros (-> & Hi'); apply HnC; auto). rewrite D4 by auto. auto.
Qed.

End T.
