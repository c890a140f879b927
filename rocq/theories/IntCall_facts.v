(** * Calls of cake_sgemm in 32-bit arithmetic. *)

From Coq Require Import ZArith List Bool Lia.
From Verif Require Import SpecInt SpecTile Lang Lang_facts Spec SpecTop ModelSizing ModelKernel ModelPack ModelSched ModelTop ModelInt
     ModelDouble ModelIEEE Sizing_facts SizingMN_facts Init_facts CallAll_facts PackCall_facts Machine_facts Mult_facts
     Witness Witness_facts Grid_call_facts Tile_wit_facts Int_facts IntSize_facts IntTop_facts IntIEEE_facts IntOnlineTop_facts.
Open Scope Z_scope.

Lemma call32_is_call S F ar q (nz : elt S -> bool) M N K p c oc pa pb alpha beta s mcu kcu ncu :
  legal F ar s c M N K p mcu kcu ncu -> match oc with Some c1 => c1 | None => q end = c ->
  sizes32 c M N K p -> sizing32 F c p ->
  (forall x c', init_block_dims F M N K p c s mcu kcu ncu = CRet (x, c') ->
     tiles32 (sch x) p (m_c x) (k_c x) (n_c x) /\ (nz beta = true -> beta32 (sch x) c M N p (m_c x))) ->
  cake_sgemm32 S F ar q nz M N K p oc pa pb alpha beta s mcu kcu ncu =
  cake_sgemm S F ar q nz M N K p oc pa pb alpha beta s mcu kcu ncu.
Proof.
  intros (Har & Hc & HM & HN & HK & Hp & Ht) Hoc L LF LT. destruct (ctx_for_pos ar s c Har Hc) as (Hmr & Hnr).
  apply call_32 with (c := c); auto.
  - apply L.
  - intros x c' E. apply (LT x c' E).
  - destruct (nz beta) eqn:E; auto. right. intros x c' Ex. apply (LT x c' Ex). reflexivity.
Qed.

Lemma call32_product S F ar q (nz : elt S -> bool) M N K p c alpha beta s mcu kcu ncu t :
  legal F ar s c M N K p mcu kcu ncu -> sizes32 c M N K p -> sizing32 F c p ->
  (forall x c', init_block_dims F M N K p c s mcu kcu ncu = CRet (x, c') ->
     tiles32 (sch x) p (m_c x) (k_c x) (n_c x)) ->
  s = KMN \/ nz beta = false -> tail_ok c K p mcu kcu ncu t ->
  exists ord c', orders K ord /\ same_ctx c c' /\
    forall A B m0, caller m0 M N K A B -> (s <> KMN -> B_rim m0 N K (nr c) t) ->
      always (cake_sgemm32 S F ar q nz M N K p (Some c) false false alpha beta s mcu kcu ncu) m0
        (fun r m' => r = c' /\ holds m' BufC M N (product S A B ord) /\ only_C_changed m0 m' M N).
Proof.
  intros Hl L LF LT Hb Ht.
  rewrite (call32_is_call S F ar q nz M N K p c (Some c) false false alpha beta s mcu kcu ncu Hl eq_refl L LF).
  - exact (plain_ok S F ar q nz M N K p c alpha beta s mcu kcu ncu Hl (Some c) t eq_refl Hb Ht).
  - intros x c' E. split; [eauto|]. destruct Hb as [->|Hb]; [|congruence]. intros _ Es.
    destruct Hl as (Har & Hc & HM & HN & HK & Hp & Hti). destruct (ctx_for_pos ar KMN c Har Hc) as (Hmr & Hnr).
    pose proof (sch_kept F M N K p c KMN mcu kcu ncu x c' HM HN HK Hp Hmr Hnr Hti ltac:(discriminate) E). congruence.
Qed.

Lemma call32_user S F ar q (nz : elt S -> bool) M N K p c pa pb alpha beta s mcu kcu ncu :
  legal F ar s c M N K p mcu kcu ncu -> user_tiles c mcu kcu ncu ->
  sizes32 c M N K p -> sizing32 F c p -> tiles32 s p mcu kcu ncu -> s = KMN \/ nz beta = false ->
  cake_sgemm32 S F ar q nz M N K p (Some c) pa pb alpha beta s mcu kcu ncu =
  cake_sgemm S F ar q nz M N K p (Some c) pa pb alpha beta s mcu kcu ncu.
Proof.
  intros Hl Hu L LF LT Hb. apply call32_is_call with (c := c); auto.
  destruct Hl as (Har & Hc & HM & HN & HK & Hp & Ht). destruct (ctx_for_pos ar s c Har Hc) as (Hmr & Hnr).
  intros x c' E. split.
  2: { destruct Hb as [->|Hb]; [|congruence]. intros _ Es.
       pose proof (sch_kept F M N K p c KMN mcu kcu ncu x c' HM HN HK Hp Hmr Hnr Ht ltac:(discriminate) E). congruence. }
  exact (proj1 (user_32 F M N K p c s mcu kcu ncu HM HN HK Hp Hmr Hnr Hu LT x c' E)).
Qed.

Lemma call32_ieee S ar q (nz : elt S -> bool) M N K p c pa pb alpha beta s mcu kcu ncu n2 n3 :
  machine c -> arch_ok ar -> ctx_for ar s c -> 2 * bytes (mr c) (mr c) (nr c) <= L2 c ->
  0 <= M -> 0 <= N -> 0 <= K -> 0 < p <= ncores c -> fits_int c M p -> mcu = 0 \/ kcu = 0 \/ ncu = 0 ->
  s = KMN \/ s = MKN -> L2_side c n2 -> L3_side c n3 ->
  round_down n2 (mr c) <= round_down n3 (mr c) -> nr c <= p * round_down n3 (mr c) ->
  sizes32 c M N K p ->
  cake_sgemm32 S ieee ar q nz M N K p (Some c) pa pb alpha beta s mcu kcu ncu =
  cake_sgemm S ieee ar q nz M N K p (Some c) pa pb alpha beta s mcu kcu ncu.
Proof.
  intros Hm Har Hc HL HM HN HK Hp Hf Hu Hs H2 H3 H23 Hn L.
  assert (Hl : legal ieee ar s c M N K p mcu kcu ncu) by (apply ieee_legal; auto; lia).
  apply call32_is_call with (c := c); auto; [now apply ieee_sizing32|].
  intros x c' E.
  pose proof (ieee_tiles32 ar c s M N K p mcu kcu ncu n2 n3 Hm HL Hl Hu Hs H2 H3 (proj2 Hp) H23 Hn x c' E) as T.
  split; [exact T|]. intros _ E'. exfalso.
  destruct (init_inv ieee c s M N K p mcu kcu ncu HM (proj1 Hp) (proj1 Hm) (proj1 (proj1 (proj2 Hm))) Hu x c' E) as (Es & _).
  rewrite E' in Es. destruct Hs; subst s; discriminate.
Qed.

Lemma call32_big S F ar q (nz : elt S -> bool) M N K p c oc pb alpha beta s mcu kcu ncu m0 :
  legal F ar s c M N K p mcu kcu ncu -> match oc with Some c1 => c1 | None => q end = c ->
  dims32 c M N K p -> sizing32 F c p ->
  (forall x c', init_block_dims F M N K p c s mcu kcu ncu = CRet (x, c') ->
     tiles32 (sch x) p (m_c x) (k_c x) (n_c x)) ->
  2 ^ 31 <= round_up M (mr c) * K ->
  let P := cake_sgemm32 S F ar q nz M N K p oc false pb alpha beta s mcu kcu ncu in
  (exists o, pexec P m0 o) /\ forall o, pexec P m0 o -> o = Undef.
Proof.
  intros (Har & Hc & HM & HN & HK & Hp & Ht) Hoc L LF LT. destruct (ctx_for_pos ar s c Har Hc) as (Hmr & Hnr).
  apply big_A; auto.
Qed.

Lemma packC_overflows :
  exists M N p mc nc, 0 < M /\ 0 < N /\ 0 < p /\ 0 < mc /\ 0 < nc /\ M * N < 2 ^ 20 /\ p * mc < 2 ^ 31 /\
  exists x, dims_NKM M N 1 p mc 1 nc 6 16 = CRet x /\ M_padded x * N_padded x < 2 ^ 20 /\
    forall m, pexec (pack_C_single_buf_n_first32 Zs (BufC, 0) (BufCp 0, 0) M N p x 6 16) m Undef.
Proof.
  exists 6, 64, 1, 805306368, 16. repeat (split; [reflexivity|]).
  eexists. split; [vm_compute; reflexivity|]. split; [reflexivity|].
  intros m. match goal with |- pexec ?P _ _ => let v := eval vm_compute in P in change P with v end. eapply PE_par_ub; [constructor|].
  left. eexists (TFail). split; [right; left; reflexivity|constructor].
Qed.

Lemma w_32 :
  legal ieee haswell KMN wctx 40000 40000 5000 4 96 96 160 /\ user_tiles wctx 96 96 160 /\  sizes32 wctx 40000 40000 5000 4 /\ sizing32 ieee wctx 4 /\ tiles32 KMN 4 96 96 160.
Proof.
  assert (U : user_tiles wctx 96 96 160).
  { repeat split; try reflexivity; [exists 16|exists 10]; reflexivity. }
  split; [|split; [exact U|split; [vm_compute; auto 10|split; [|vm_compute; auto 10]]]].
  - unfold legal. split; [apply w_arch|split; [apply w_ctx|]]. repeat (split; [lia|]). now left.
  - apply ieee_sizing32; [apply w_machine|apply w_machine|cbn; lia].
Qed.

Lemma w_32_ieee :
  machine wctx /\ fits_int wctx 40000 4 /\ sizes32 wctx 40000 40000 5000 4 /\
  round_down 165 (mr wctx) <= round_down 209 (mr wctx) /\ nr wctx <= 4 * round_down 209 (mr wctx).
Proof.
  destruct w_machine as (H1 & _ & (H2 & H3) & _ & W2 & W3). split; [exact H1|]. split.
  - split; [reflexivity|]. intros n2 n3 G2 G3. rewrite (L2_side_unique _ _ _ H1 G2 W2), (L3_side_unique _ _ _ H1 G3 W3). reflexivity.
  - split; [vm_compute; auto 10|split; vm_compute; discriminate].
Qed.

Lemma w_32_beyond :
  legal ieee haswell KMN wctx 65536 16 65536 4 96 96 160 /\ dims32 wctx 65536 16 65536 4 /\ sizing32 ieee wctx 4 /\
  (forall x c', init_block_dims ieee 65536 16 65536 4 wctx KMN 96 96 160 = CRet (x, c') ->
     tiles32 (sch x) 4 (m_c x) (k_c x) (n_c x)) /\
  2 ^ 31 <= round_up 65536 (mr wctx) * 65536.
Proof.
  destruct w_32 as (_ & U & _ & S & T).
  split; [|split; [vm_compute; auto 10|split; [exact S|split; [|vm_compute; discriminate]]]].
  - unfold legal. split; [apply w_arch|split; [apply w_ctx|]]. repeat (split; [lia|]). now left.
  - intros x c' E. refine (proj1 (user_32 _ _ _ _ _ _ _ _ _ _ _ _ _ _ _ _ U T x c' E)); cbn; lia.
Qed.
