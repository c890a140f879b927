(** * cake_sgemm with the K-first schedule. *)

From Coq Require Import ZArith List Bool Lia Permutation.
From Verif Require Import Lang Lang_facts Spec SpecTop ModelSizing ModelKernel ModelPack ModelSched ModelTop
     Kernel_facts Tile_facts Loop_facts Pack_facts Unpack_facts Sizing_facts PackMat_facts PackB_facts
     Order_facts Cphase_facts SchedK_facts Frame_facts Init_facts.
Import ListNotations.
Open Scope Z_scope.

Section TopK.

Variable S : scalar.
Notation T := (elt S).

(** cake_sgemm after the context and the block sizes are known *)
Definition sgemm_mid (ar : arch) (nz : T -> bool) (M N K p : Z) (beta : T) (x : blk_dims) (c : cntx)
           (A_p B_p : ptr) : prog T unit :=
  (match sch x with
   | KMN =>
       alloc_Cp S p (m_c x * n_c x) ;;;
       schedule_KMN S ar A_p B_p (BufC, 0) M N K p c x ;;;
       free_Cp S p
   | _ =>
       let* sz := lift S (packed_C_size M N p x (mr c) (nr c) (sch x)) in
       (if nz beta then
          palloc (BufCp 0) sz true None ;;;
          pack_C S (BufC, 0) (BufCp 0, 0) M N p x c (sch x)
        else palloc (BufCp 0) sz false (Some (zero S))) ;;;
       schedule S ar A_p B_p (BufCp 0, 0) M N K p c x (sch x) ;;;
       unpack_C S (BufC, 0) (BufCp 0, 0) M N p x c (sch x) ;;;
       pfree (BufCp 0)
   end)%prog.

Definition sgemm_after (ar : arch) (nz : T -> bool) (M N K p : Z) (pa pb : bool) (beta : T)
           (xc : blk_dims * cntx) : prog T cntx :=
  let x := fst xc in
  let c := snd xc in
  sgemm_rest S pa pb (packed_A_size M K p x (mr c) (sch x)) (packed_B_size K N x (nr c))
    (pack_A S (BufA, 0) (BufAp 0, 0) M K p x c (sch x))
    (pack_B S (BufB, 0) (BufBp, 0) K N p x c (sch x))
    (sgemm_mid ar nz M N K p beta x c) c.

Lemma cake_sgemm_unfold F ar q nz M N K p oc pa pb al be s mcu kcu ncu :
  cake_sgemm S F ar q nz M N K p oc pa pb al be s mcu kcu ncu =
  pbind (get_ctx S q oc) (fun c0 =>
    pbind (palloc xbuf 1 false None) (fun _ =>
      pbind (lift S (init_block_dims F M N K p c0 s mcu kcu ncu))
        (sgemm_after ar nz M N K p pa pb be))).
Proof. reflexivity. Qed.

(** The operands in the form the K-first schedule reads them *)
Lemma packedA_local x p m_r K f b : dat_local S b (packedA_KMN S x p m_r K b f).
Proof. intros m m' H P ? ? ? ? ? ? q i kk ? ? ?. rewrite H. now apply P. Qed.
Lemma packedB_local x n_r K f b : dat_local S b (packedB_KMN S x n_r K b f).
Proof. intros m m' H P ? ? ? ? q i kk ? ? ?. rewrite H. now apply P. Qed.
Lemma holds_local b r cc (f : Z -> Z -> T) : dat_local S b (fun m => holds m b r cc f).
Proof. intros m m' H P i j Hi Hj. rewrite H. now apply P. Qed.

Variables (ar : arch) (nz : T -> bool) (M N K p : Z) (x : blk_dims) (c : cntx).
Hypothesis HM0 : 0 <= M.
Hypothesis HN0 : 0 <= N.
Hypothesis HK0 : 0 <= K.
Hypothesis Hp : 0 < p.
Hypothesis Har : arch_ok ar.
Hypothesis Hc : ctx_ok ar c.
Hypothesis F : kmn_facts M N K p (mr c) (nr c) x.
Hypothesis Hs : sch x = KMN.

Definition opA (pa : bool) (A : Z -> Z -> T) (m : mem T) : Prop :=
  exists ba, live m BufA = Some ba /\
    if pa then M_padded x * K <= blen ba /\ packedA_KMN S x p (mr c) K BufA (padrow S M A) m
    else M * K <= blen ba /\ holds m BufA M K A.
Definition opB (pb : bool) (B : Z -> Z -> T) (m : mem T) : Prop :=
  exists bb, live m BufB = Some bb /\
    if pb then K * N_padded x <= blen bb /\ b64 bb = true /\ packedB_KMN S x (nr c) K BufB (padcol S N B) m
    else K * N <= blen bb /\ holds m BufB K N B.

Lemma sgemm_after_KMN pa pb be A B m0 :
  opA pa A m0 -> opB pb B m0 -> at_least m0 BufC (M * N) ->
  (forall b, used p b -> b <> BufX 0 -> live m0 b = None) -> live m0 (BufX 0) <> None ->
  pok (sgemm_after ar nz M N K p pa pb be (x, c)) m0
      (fun r m' => r = c /\ holds m' BufC M N (product S A B (kmn_ord p x)) /\
         (forall b, live m' b = if buf_eqb (BufX 0) b then None else live m0 b) /\
         (forall b i, ~ used p b -> ~ (b = BufC /\ 0 <= i < M * N) -> dat m' b i = dat m0 b i)).
Proof.
  intros HA HB HC Hfr HX.
  destruct (ctx_pos ar c Har Hc) as (Hmr & Hnr & Hln & Hlk).
  pose proof (ctx_kern S ar c Hc) as Hk.
  unfold sgemm_after. cbn [fst snd]. rewrite Hs.
  pose proof (kf_mc _ _ _ _ _ _ _ F) as Hmc. pose proof (kf_nc _ _ _ _ _ _ _ F) as Hnc.
  pose proof (kf_Mp _ _ _ _ _ _ _ F) as HMp. pose proof (kf_Np _ _ _ _ _ _ _ F) as HNp.
  eapply (sgemm_rest_spec S pa pb _ _ (M_padded x * K) (K * N_padded x) (M * K) (K * N) _ _ _ c M N p
    (fun b => packedA_KMN S x p (mr c) K b (padrow S M A))
    (fun b => packedB_KMN S x (nr c) K b (padcol S N B))
    (fun m => holds m BufA M K A) (fun m => holds m BufB K N B)
    (fun m => holds m BufC M N (product S A B (kmn_ord p x))) (fun _ => True)); auto.
  - apply (kf_sA _ _ _ _ _ _ _ F).
  - apply (kf_sB _ _ _ _ _ _ _ F).
  - nia.
  - nia.
  - intros b. apply packedA_local.
  - intros b. apply packedB_local.
  - apply holds_local.
  - apply holds_local.
  - apply holds_local.
  - intros m m' _ _. exact I.
  - intros _ m ba HL Hl Hh HLp. cbn [pack_A].
    eapply (pack_A_k_first_spec S x M N K p (mr c) (nr c) BufA (BufAp 0) A ba); eauto; [discriminate|cbn; lia].
  - intros _ m bb HL Hl Hh HLp. cbn [pack_B].
    eapply (pack_B_k_first_spec S M N K p (mr c) (nr c) x F HK0 BufB BufBp B bb); eauto; [discriminate|cbn; lia].
  - intros ab bb ba bi m Hab Hbb HLa Hba PA HLb Hbb' Hal PB (bc & HLc & Hbc) HCp _.
    unfold sgemm_mid. rewrite Hs.
    apply pok_bind. unfold alloc_Cp. apply alloc_fam; auto; try lia.
    + intros i j E. now injection E.
    + intros m1 G1 G2 G3 G4.
      assert (Nab : forall k, ab <> BufCp k) by (intros k; destruct Hab as [-> | ->]; discriminate).
      assert (Nbb : forall k, bb <> BufCp k) by (intros k; destruct Hbb as [-> | ->]; discriminate).
      apply pok_bind. eapply pok_mono.
      * eapply (schedule_KMN_spec S M N K p x ar c F HN0 HK0 Hp Hmr Hnr Hk Hln Hlk ab bb
           (padrow S M A) (padcol S N B) ba bi bc m1); auto.
        -- destruct Hab as [-> | ->]; discriminate.
        -- destruct Hbb as [-> | ->]; discriminate.
        -- rewrite G3; auto.
        -- rewrite G3; auto.
        -- rewrite G3; auto. discriminate.
        -- intros k Hkk. eexists. split; [apply G1; auto|cbn; lia].
        -- eapply packedA_local; [|exact PA]. intros i. rewrite G4; auto.
        -- eapply packedB_local; [|exact PB]. intros i. rewrite G4; auto.
        -- intros k i Hkk Hi. apply G2; auto.
      * cbv beta. intros _ m2 (E1 & E2 & E3). unfold free_Cp. apply free_fam; try lia.
        -- intros i j E. now injection E.
        -- intros k Hkk. rewrite E1, G1 by auto. discriminate.
        -- intros m3 I1 I2 I3. split; [|split].
           ++ intros b.
              destruct (bounded_dec p (fun k => b = BufCp k)) as [(k & Hkk & ->)|Hno].
              { intros k. destruct (buf_eqb_spec b (BufCp k)); auto. }
              ** rewrite I1, HCp; auto.
              ** rewrite I2 by (intros k Hkk E; apply (Hno k Hkk E)). rewrite E1. apply G3.
                 intros k Hkk E. apply (Hno k Hkk E).
           ++ intros b i Hb HnC. rewrite I3 by auto. rewrite E2, G4; auto.
              intros [HC'|(k & E & Hkk)].
              ** auto.
              ** now apply (Hb k).
           ++ intros i j Hi Hj. rewrite I3 by discriminate. rewrite (E3 i j Hi Hj). f_equal.
              unfold kmn_val, product. apply dot_ext.
              intros k _. unfold padrow, padcol. destruct (Z.ltb_spec i M); [|lia]. destruct (Z.ltb_spec j N); [auto|lia].
Qed.

End TopK.
