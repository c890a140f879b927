(** * cake_sgemm with the M-first and N-first schedules. *)

From Coq Require Import ZArith List Bool Lia Permutation.
From Verif Require Import Lang Lang_facts Spec SpecTop ModelSizing ModelKernel ModelPack ModelSched ModelTop
     Kernel_facts Tile_facts Loop_facts Pack_facts Unpack_facts Sizing_facts SizingMN_facts PackMat_facts PackB_facts
     Order_facts Cphase_facts Grid_facts PackMN_facts SchedMN_facts Frame_facts Init_facts TopK_facts Hole_facts.
Import ListNotations.
Open Scope Z_scope.

Section TopMN.

Variable S : scalar.
Notation T := (elt S).

Lemma packedA_MN_local p m_r tM mt x ab f b : dat_local S b (packedA_MN S p m_r tM mt x ab b f).
Proof. intros m m' H P ? ? ? ? ? ? q i kk ? ? ?. rewrite H. now apply P. Qed.
Lemma packedB_MN_local p n_r x bb f b : dat_local S b (packedB_MN S p n_r x bb b f).
Proof. intros m m' H P ? ? ? ? ? ? q i kk ? ? ?. rewrite H. now apply P. Qed.

Variables (ar : arch) (nz : T -> bool) (M N K p : Z) (x : blk_dims) (c : cntx).
Hypothesis HM0 : 0 <= M.
Hypothesis HN0 : 0 <= N.
Hypothesis HK0 : 0 <= K.
Hypothesis Hp : 0 < p.
Hypothesis Har : arch_ok ar.
Hypothesis Hc : ctx_min ar c.

Lemma ctx_pos_min : 0 < mr c /\ 0 < nr c /\ 0 < lanes ar /\ nr c mod lanes ar = 0.
Proof.
  destruct Har as (H1 & H2 & H3 & H4 & H5 & H6 & H7). destruct Hc as (-> & ->). repeat split; auto.
  apply Z.mod_divide; auto. lia.
Qed.

Variable swap : bool.
Definition sch_s : sched := if swap then NKM else MKN.
Definition tM_s : Z := if swap then p * m_c x else m_c x.
Definition mt_s : Z -> Z := if swap then nf_mt x p else mf_mt x.
Hypothesis F : bf M N K p (mr c) (nr c) tM_s mt_s x.
Hypothesis Hs : sch x = sch_s.
Hypothesis EsA : packed_A_size M K p x (mr c) sch_s = CRet (M_padded x * K).
Hypothesis EsB : packed_B_size K N x (nr c) = CRet (K * N_padded x).
Hypothesis EsC : packed_C_size M N p x (mr c) (nr c) sch_s = CRet (M_padded x * N_padded x).

Notation abase := (abase_s K p tM_s mt_s x swap).
Notation bbase := (bbase_s K p x swap).
Notation cbase := (cbase_s tM_s mt_s x swap).

Definition okB_MN (LB : Z) (f : Z -> Z -> T) (m : mem T) : Prop :=
  forall kk col, 0 <= kk < K -> 0 <= col < N_padded x ->
    if (kguard K x <=? kk) && (N <=? col) then f kk col = zero S
    else kk * N + col < LB /\ dat m BufB (kk * N + col) = Some (f kk col).

Lemma okB_local LB f : dat_local S BufB (okB_MN LB f).
Proof.
  intros m m' H P kk col Hk Hcol. specialize (P kk col Hk Hcol).
  destruct (_ && _); auto. now rewrite H.
Qed.

Lemma okB_bsrc LB f m bi : live m BufB = Some bi -> LB <= blen bi -> okB_MN LB f m ->
  bsrc S N K x BufB f m.
Proof.
  intros HL Hb H. exists bi. split; auto. intros kk col Hk Hcol. specialize (H kk col Hk Hcol).
  destruct (_ && _); auto. split; [lia|tauto].
Qed.

Lemma packA_s ab pb ba bp f m : ab <> pb -> live m ab = Some ba -> M * K <= blen ba -> holds m ab M K f ->
  live m pb = Some bp -> M_padded x * K <= blen bp ->
  pok (pack_A S (ab, 0) (pb, 0) M K p x c sch_s) m
      (fun _ m' => live m' = live m /\ same_out (rng pb 0 (M_padded x * K)) m m' /\
         packedA_MN S p (mr c) tM_s mt_s x abase pb (padrow S M f) m').
Proof.
  intros NE HLa Hba Hh HLp Hbp. destruct ctx_pos_min as (Hmr & Hnr & _).
  unfold pack_A, sch_s. clear Hs EsA EsB EsC.
  unfold abase_s. destruct swap eqn:Esw.
  - unfold pack_A_single_buf_n_first. cbv zeta. unfold padd. cbn [fst snd].
    apply pok_bind. eapply pok_mono; [|intros v m'; intros H; apply pok_ret; exact H].
    pose proof (pack_A_MN S M N K p (mr c) (nr c) tM_s mt_s x F Hp HK0 Hmr true ab pb f ba bp m
      (fun m0 k off core => pack_ob_A_single_buf S (ab, 0 + (m0 * p * m_c x * K + k * p * k_c x + core * core_kx x k))
          (pb, 0 + (off + core * core_kx x k * nf_mt x p m0)) M K (m0 * p * m_c x) 0 (nf_mt x p m0) (core_kt x k core) (mr c))
      (fun m0 k => blk_kcb x p k * nf_mt x p m0)) as P.
    apply P; auto; clear P.
    + intros k m0 off core Hk Hm. eexists. split; [reflexivity|]. unfold tM_s, mt_s. rewrite Esw.
      replace (m0 * (p * m_c x)) with (m0 * p * m_c x) by ring. f_equal; f_equal; ring.
    + intros k m0. unfold mt_s. rewrite Esw. auto.
  - unfold pack_A_single_buf_m_first. cbv zeta. unfold padd. cbn [fst snd].
    apply pok_bind. eapply pok_mono; [|intros v m'; intros H; apply pok_ret; exact H].
    pose proof (pack_A_MN S M N K p (mr c) (nr c) tM_s mt_s x F Hp HK0 Hmr false ab pb f ba bp m
      (fun k m0 off core => pack_ob_A_single_buf S (ab, 0 + (m0 * m_c x * K + k * p * k_c x + core * core_kx x k))
          (pb, 0 + (off + core * core_kx x k * mf_mt x m0)) M K (m0 * m_c x) 0 (mf_mt x m0) (core_kt x k core) (mr c))
      (fun k m0 => blk_kcb x p k * mf_mt x m0)) as P.
    apply P; auto; clear P.
    + intros k m0 off core Hk Hm. eexists. split; [reflexivity|]. unfold tM_s, mt_s. rewrite Esw.
      f_equal; f_equal; ring.
    + intros k m0. unfold mt_s. rewrite Esw. auto.
Qed.

Lemma packB_s bb pb bp f m : bb <> pb -> bsrc S N K x bb f m ->
  live m pb = Some bp -> K * N_padded x <= blen bp ->
  pok (pack_B S (bb, 0) (pb, 0) K N p x c sch_s) m
      (fun _ m' => live m' = live m /\ same_out (rng pb 0 (K * N_padded x)) m m' /\
         packedB_MN S p (nr c) x bbase pb f m').
Proof.
  intros NE Hsrc HLp Hbp. destruct ctx_pos_min as (Hmr & Hnr & _).
  unfold pack_B, sch_s. clear Hs EsA EsB EsC.
  unfold bbase_s. destruct swap eqn:Esw.
  - unfold pack_B_n_first. cbv zeta. unfold padd. cbn [fst snd].
    apply pok_bind. eapply pok_mono; [|intros v m'; intros H; apply pok_ret; exact H].
    pose proof (pack_B_MN S M N K p (mr c) (nr c) tM_s mt_s x F Hp HN0 Hnr false bb pb f bp m
      (fun k n off core => pack_ob_B_single_buf S (bb, 0 + (k * p * k_c x * N + n * n_c x + core * core_kx x k * N))
          (pb, 0 + (off + core * core_kx x k * blk_nt x n)) K N (blk_n1 x N n) (core_kt x k core) (blk_nt x n) (nr c)
          (core_kpad x k core))
      (fun k n => blk_kcb x p k * blk_nt x n)) as P.
    apply P; auto; clear P.
    intros k n off core Hk Hn. eexists. split; [reflexivity|]. f_equal; f_equal; ring.
  - unfold pack_B_m_first. cbv zeta. unfold padd. cbn [fst snd].
    apply pok_bind. eapply pok_mono; [|intros v m'; intros H; apply pok_ret; exact H].
    pose proof (pack_B_MN S M N K p (mr c) (nr c) tM_s mt_s x F Hp HN0 Hnr true bb pb f bp m
      (fun n k off core => pack_ob_B_single_buf S (bb, 0 + (k * p * k_c x * N + n * n_c x + core * core_kx x k * N))
          (pb, 0 + (off + core * core_kx x k * blk_nt x n)) K N (blk_n1 x N n) (core_kt x k core) (blk_nt x n) (nr c)
          (core_kpad x k core))
      (fun n k => blk_kcb x p k * blk_nt x n)) as P.
    apply P; auto; clear P.
    intros k n off core Hk Hn. eexists. split; [reflexivity|]. f_equal; f_equal; ring.
Qed.

Lemma m1_s m : 0 <= m < Mb x -> (if swap then blk_m1 x M p m else mf_m1 x M m) = m * tM_s.
Proof.
  intros Hm. pose proof (bf_ml _ _ _ _ _ _ _ _ _ F m Hm) as H. unfold tM_s in *. unfold blk_m1, mf_m1.
  destruct swap; destruct (is_last m (Mb x) (m_pad x)); [rewrite H by auto; auto|ring|rewrite H by auto; auto|ring].
Qed.

(** The copy of C used when beta <> 0 lands where the schedule expects it; in the
    N-first code only if the block offsets agree. *)
Definition packC_agrees : Prop :=
  if swap then agree (Mb x) (p * m_c x) (nf_mt x p) (Nb x) (n_c x) (blk_nt x) else True.

Lemma fits_agrees : C_fits (M_padded x) (N_padded x) (p * m_c x) (n_c x) -> packC_agrees.
Proof.
  intros H. unfold packC_agrees. pose proof F as F'. unfold tM_s, mt_s in F'. destruct swap; [|exact I].
  destruct (Z_le_gt_dec (Mb x) 0) as [L|L]; [intros m n Hm; lia|].
  pose proof (bf_M _ _ _ _ _ _ _ _ _ F') as PM. pose proof (bf_N _ _ _ _ _ _ _ _ _ F') as PN.
  apply (shape_agree _ _ _ _ _ _ _ _ PM PN).
  apply (fits_shape _ _ _ _ _ _ _ _ PM PN); [lia|exact (bf_nc _ _ _ _ _ _ _ _ _ F')|auto].
Qed.

Lemma packC_s cb pb bc bp f m (Post : unit -> mem T -> Prop) : cb <> pb -> packC_agrees ->
  live m cb = Some bc -> M * N <= blen bc -> holds m cb M N f ->
  live m pb = Some bp -> M_padded x * N_padded x <= blen bp ->
  (forall m', live m' = live m -> same_out (rng pb 0 (M_padded x * N_padded x)) m m' ->
     cpacked S (mr c) (nr c) tM_s mt_s x swap m' pb (padbox S M N f) -> Post tt m') ->
  pok (pack_C S (cb, 0) (pb, 0) M N p x c sch_s) m Post.
Proof.
  intros Hcb Hag HLc Hbc Hh HLp Hbp HPost. destruct ctx_pos_min as (Hmr & Hnr & _).
  pose proof (packC_spec S M N K p (mr c) (nr c) tM_s mt_s x F HN0 Hmr Hnr swap cb pb f bc bp) as P.
  pose proof m1_s as Hm1. unfold packC_agrees in Hag.
  pose proof (bf_mpad _ _ _ _ _ _ _ _ _ F) as Emp. pose proof (bf_npad _ _ _ _ _ _ _ _ _ F) as Enp.
  unfold pack_C, sch_s in *. clear Hs EsA EsB EsC.
  destruct swap eqn:Esw.
  - unfold pack_C_single_buf_n_first. cbv zeta. unfold padd. cbn [fst snd].
    eapply (P (fun m0 n => pack_ob_C_single_buf S (cb, 0 + (m0 * p * m_c x * N + n * n_c x))
        (pb, 0 + (N_padded x * m0 * p * m_c x + n * p * m_c x * blk_nt x n)) M N (blk_m1 x M p m0) (blk_n1 x N n) 0
        (nf_mt x p m0) (blk_nt x n) (mr c) (nr c) (is_last m0 (Mb x) (m_pad x)) (is_last n (Nb x) (n_pad x)))); eauto.
    intros m0 n Hm Hn. rewrite (Hm1 m0 Hm). destruct (bf_n1 _ _ _ _ _ _ _ _ _ F n Hn) as (-> & _).
    unfold cbase_s, bpos, tM_s, mt_s in *. rewrite Esw in *.
    f_equal; f_equal; [ring|].
    specialize (Hag m0 n Hm Hn). lia.
  - unfold pack_C_single_buf_m_first. cbv zeta. unfold padd. cbn [fst snd].
    eapply (P (fun n m0 => pack_ob_C_single_buf S (cb, 0 + (m0 * m_c x * N + n * n_c x))
        (pb, 0 + (M_padded x * n * n_c x + m0 * m_c x * blk_nt x n)) M N (mf_m1 x M m0) (blk_n1 x N n) 0
        (mf_mt x m0) (blk_nt x n) (mr c) (nr c) (is_last m0 (Mb x) (m_pad x)) (is_last n (Nb x) (n_pad x)))); eauto.
    intros m0 n Hm Hn. rewrite (Hm1 m0 Hm). destruct (bf_n1 _ _ _ _ _ _ _ _ _ F n Hn) as (-> & _).
    unfold cbase_s, bpos, tM_s, mt_s in *. rewrite Esw in *.
    f_equal; f_equal; ring.
Qed.

Lemma unpackC_s cb pb bc bp f m (Post : unit -> mem T -> Prop) : cb <> pb ->
  live m cb = Some bc -> M * N <= blen bc ->
  live m pb = Some bp -> M_padded x * N_padded x <= blen bp ->
  cpacked S (mr c) (nr c) tM_s mt_s x swap m pb f ->
  (forall m', live m' = live m -> same_out (rng cb 0 (M * N)) m m' -> holds m' cb M N f -> Post tt m') ->
  pok (unpack_C S (cb, 0) (pb, 0) M N p x c sch_s) m Post.
Proof.
  intros Hcb HLc Hbc HLp Hbp Hcp HPost. destruct ctx_pos_min as (Hmr & Hnr & _).
  pose proof (unpackC_spec S M N K p (mr c) (nr c) tM_s mt_s x F HM0 HN0 Hmr Hnr swap cb pb f bc bp) as P.
  pose proof m1_s as Hm1.
  unfold unpack_C, sch_s in *. clear Hs EsA EsB EsC.
  destruct swap eqn:Esw.
  - unfold unpack_C_single_buf_n_first. cbv zeta. unfold padd. cbn [fst snd].
    eapply (P (fun m0 n => unpack_ob_C_single_buf S (cb, 0 + (m0 * p * m_c x * N + n * n_c x))
        (pb, 0 + (N_padded x * m0 * p * m_c x + n * nf_mt x p m0 * n_c x)) M N (blk_m1 x M p m0) (blk_n1 x N n) 0
        (nf_mt x p m0) (blk_nt x n) (mr c) (nr c))); eauto.
    intros m0 n Hm Hn. rewrite (Hm1 m0 Hm). destruct (bf_n1 _ _ _ _ _ _ _ _ _ F n Hn) as (-> & _).
    unfold cbase_s, bpos, tM_s, mt_s in *. rewrite Esw in *.
    f_equal; f_equal; ring.
  - unfold unpack_C_single_buf_m_first. cbv zeta. unfold padd. cbn [fst snd].
    eapply (P (fun n m0 => unpack_ob_C_single_buf S (cb, 0 + (m0 * m_c x * N + n * n_c x))
        (pb, 0 + (M_padded x * n * n_c x + m0 * m_c x * blk_nt x n)) M N (mf_m1 x M m0) (blk_n1 x N n) 0
        (mf_mt x m0) (blk_nt x n) (mr c) (nr c))); eauto.
    intros m0 n Hm Hn. rewrite (Hm1 m0 Hm). destruct (bf_n1 _ _ _ _ _ _ _ _ _ F n Hn) as (-> & _).
    unfold cbase_s, bpos, tM_s, mt_s in *. rewrite Esw in *.
    f_equal; f_equal; ring.
Qed.

Notation ord_s := (mn_ord p tM_s x swap).

Lemma schedule_s ab bb ba bi bc fA fB f0 m (Post : unit -> mem T -> Prop) :
  ab <> BufCp 0 -> bb <> BufCp 0 ->
  live m ab = Some ba -> M_padded x * K <= blen ba ->
  live m bb = Some bi -> K * N_padded x <= blen bi -> b64 bi = true ->
  live m (BufCp 0) = Some bc -> M_padded x * N_padded x <= blen bc ->
  packedA_MN S p (mr c) tM_s mt_s x abase ab fA m -> packedB_MN S p (nr c) x bbase bb fB m ->
  cpacked S (mr c) (nr c) tM_s mt_s x swap m (BufCp 0) f0 ->
  (forall m', live m' = live m -> same_out (rng (BufCp 0) 0 (M_padded x * N_padded x)) m m' ->
     cpacked S (mr c) (nr c) tM_s mt_s x swap m' (BufCp 0)
       (fun i j => dot S (fA i) (fun kk => fB kk j) (ord_s i j) (f0 i j)) -> Post tt m') ->
  pok (schedule S ar (ab, 0) (bb, 0) (BufCp 0, 0) M N K p c x sch_s) m Post.
Proof.
  intros Nab Nbb HLa Hba HLb Hbb Hal HLc Hbc PA PB HC HPost.
  destruct ctx_pos_min as (Hmr & Hnr & Hln & Hlk).
  pose proof (sched_spec S ar M N K p (mr c) (nr c) tM_s mt_s x F Hmr Hnr Hln Hlk swap
     (cake_sgemm_ukernel S ar) ab bb (BufCp 0) fA fB f0 ba bi bc) as P.
  pose proof (ctx_kern_min S ar c Hc) as Hkern.
  unfold schedule, sch_s in *. clear Hs EsA EsB EsC.
  destruct swap eqn:Esw.
  - unfold schedule_NKM. 
    eapply (P (fun u k v => nkm_col S ar (ab, 0) (bb, 0) (BufCp 0, 0) K p c x u k v)
              (fun u k v core => tile_loops S (cake_sgemm_ukernel S ar)
                 (padd (ab, 0) (u * p * m_c x * K + nf_mt x p u * k * p * k_c x + core * nf_mt x p u * core_kx x k))
                 (padd (bb, 0) (k * p * k_c x * N_padded x + v * n_c x * blk_kcb x p k + core * core_kx x k * blk_nt x v))
                 (padd (BufCp 0, 0) (u * p * m_c x * N_padded x + nf_mt x p u * v * n_c x))
                 (nf_mt x p u) (blk_nt x v) (core_kt x k core) (mr c) (nr c)) m Post); auto.
    intros m0 n k core Hm Hn Hk Hcr. unfold padd. cbn [fst snd].
    unfold abase_s, bbase_s, cbase_s, abase_N, bbase_N, bpos, tM_s, mt_s. rewrite Esw.
    f_equal; f_equal; ring.
  - unfold schedule_MKN. 
    eapply (P (fun u k v => mkn_row S ar (ab, 0) (bb, 0) (BufCp 0, 0) K p c x u k v)
              (fun u k v core => tile_loops S (cake_sgemm_ukernel S ar)
                 (padd (ab, 0) (k * M_padded x * p * k_c x + v * m_c x * blk_kcb x p k + core * mf_mt x v * core_kx x k))
                 (padd (bb, 0) (u * K * n_c x + k * p * k_c x * blk_nt x u + core * core_kx x k * blk_nt x u))
                 (padd (BufCp 0, 0) (u * M_padded x * n_c x + v * m_c x * blk_nt x u))
                 (mf_mt x v) (blk_nt x u) (core_kt x k core) (mr c) (nr c)) m Post); auto.
    intros m0 n k core Hm Hn Hk Hcr. unfold padd. cbn [fst snd].
    unfold abase_s, bbase_s, cbase_s, abase_M, bbase_M, bpos, tM_s, mt_s. rewrite Esw.
    f_equal; f_equal; ring.
Qed.

Lemma mid_s be C0 A fB ab bb ba bi m : 0 <= M_padded x -> 0 <= N_padded x ->
  (nz be = true -> packC_agrees) ->
  (ab = BufA \/ ab = BufAp 0) -> (bb = BufB \/ bb = BufBp) ->
  live m ab = Some ba -> M_padded x * K <= blen ba -> packedA_MN S p (mr c) tM_s mt_s x abase ab (padrow S M A) m ->
  live m bb = Some bi -> K * N_padded x <= blen bi -> b64 bi = true -> packedB_MN S p (nr c) x bbase bb fB m ->
  (exists bc, live m BufC = Some bc /\ M * N <= blen bc) ->
  (forall k, 0 <= k < p -> live m (BufCp k) = None) ->
  (nz be = true -> holds m BufC M N C0) ->
  pok (sgemm_mid S ar nz M N K p be x c (ab, 0) (bb, 0)) m
      (fun _ m' => (forall b, live m' b = live m b) /\
        (forall b i, (forall k, 0 <= k < p -> b <> BufCp k) -> ~ (b = BufC /\ 0 <= i < M * N) ->
            dat m' b i = dat m b i) /\
        holds m' BufC M N (fun i j => dot S (padrow S M A i) (fun kk => fB kk j) (ord_s i j)
                             (if nz be then C0 i j else zero S))).
Proof.
  intros HMp HNp Hag Hab Hbb HLa Hba PA HLb Hbb' Hal PB (bc & HLc & Hbc) HCp H0.
  destruct ctx_pos_min as (Hmr & Hnr & Hln & Hlk).
  assert (Nab : forall k, ab <> BufCp k) by (intros k; destruct Hab as [-> | ->]; discriminate).
  assert (Nbb : forall k, bb <> BufCp k) by (intros k; destruct Hbb as [-> | ->]; discriminate).
  assert (Fr : live m (BufCp 0) = None) by (apply HCp; lia).
  set (sz := M_padded x * N_padded x).
  assert (Hsz : 0 <= sz) by (unfold sz; nn).
  set (f0 := if nz be then padbox S M N C0 else fun _ _ => zero S).
  unfold sgemm_mid. rewrite Hs.
  replace (match sch_s with KMN => _ | _ => _ end) with
    (let* sz := lift S (packed_C_size M N p x (mr c) (nr c) sch_s) in
       (if nz be then
          palloc (BufCp 0) sz true None ;;;
          pack_C S (BufC, 0) (BufCp 0, 0) M N p x c sch_s
        else palloc (BufCp 0) sz false (Some (zero S))) ;;;
       schedule S ar (ab, 0) (bb, 0) (BufCp 0, 0) M N K p c x sch_s ;;;
       unpack_C S (BufC, 0) (BufCp 0, 0) M N p x c sch_s ;;;
       pfree (BufCp 0))%prog by (unfold sch_s; destruct swap; reflexivity).
  apply pok_bind. apply (pok_lift S sz); [exact EsC|]. cbv beta.
  apply pok_bind.
  assert (SC : pok (if nz be then
          (palloc (BufCp 0) sz true None ;;;
          pack_C S (BufC, 0) (BufCp 0, 0) M N p x c sch_s)%prog
        else palloc (BufCp 0) sz false (Some (zero S))) m
     (fun _ m' => (forall b, b <> BufCp 0 -> live m' b = live m b /\ forall i, dat m' b i = dat m b i) /\
        (exists bp, live m' (BufCp 0) = Some bp /\ sz <= blen bp) /\
        cpacked S (mr c) (nr c) tM_s mt_s x swap m' (BufCp 0) f0)).
  { unfold f0. destruct (nz be) eqn:Enz.
    - apply pok_bind. apply pok_alloc; [lia|auto|].
      eapply (packC_s BufC (BufCp 0) bc _ C0); auto; try discriminate; try (rewrite live_alloc; cbn; eauto; fail).
      + cbn. unfold sz. lia.
      + intros m' HL HF HP. split; [|split; [|exact HP]].
        * intros b Hb. rewrite HL, live_alloc, buf_eqb_neq by auto. split; auto.
          intros i. rewrite HF by (intros (E & _); auto). now rewrite dat_alloc, buf_eqb_neq by auto.
        * rewrite HL, live_alloc. cbn. eexists. split; [reflexivity|cbn; lia].
    - apply pok_alloc; [lia|auto|]. split; [|split].
      + intros b Hb. rewrite live_alloc, buf_eqb_neq by auto. split; auto.
        intros i. now rewrite dat_alloc, buf_eqb_neq by auto.
      + rewrite live_alloc. cbn. eexists. split; [reflexivity|cbn; lia].
      + eapply (cpacked_zero S M N K p (mr c) (nr c) tM_s mt_s x F); auto. }
  eapply pok_mono; [exact SC|]. clear SC. cbv beta. intros _ m1 (G1 & (bp & G2 & G2') & G3).
  assert (NC : BufC <> BufCp 0) by discriminate.
  apply pok_bind.
  eapply (schedule_s ab bb ba bi bp (padrow S M A) fB f0); auto.
  - destruct (G1 ab (Nab 0)) as (-> & _). auto.
  - destruct (G1 bb (Nbb 0)) as (-> & _). auto.
  - eapply packedA_MN_local; [|exact PA]. intros i. destruct (G1 ab (Nab 0)) as (_ & E). apply E.
  - eapply packedB_MN_local; [|exact PB]. intros i. destruct (G1 bb (Nbb 0)) as (_ & E). apply E.
  - intros m2 E1 E2 E3. apply pok_bind.
    eapply (unpackC_s BufC (BufCp 0) bc bp); [discriminate| | |rewrite E1; eauto|auto|exact E3|].
    + rewrite E1. destruct (G1 BufC NC) as (-> & _). auto.
    + auto.
    + intros m3 I1 I2 I3. apply pok_free; [rewrite I1, E1, G2; discriminate|]. split; [|split].
      * intros b. rewrite live_free. destruct (buf_eqb_spec (BufCp 0) b) as [<-|Nb]; [auto|].
        rewrite I1, E1. apply G1. auto.
      * intros b i Hb HnC. assert (Nb : b <> BufCp 0) by (apply Hb; lia).
        rewrite dat_free, buf_eqb_neq by auto.
        rewrite I2 by (intros (-> & Hi); apply HnC; auto).
        rewrite E2 by (intros (E & _); auto). apply G1; auto.
      * intros i j Hi Hj. rewrite dat_free. cbn. rewrite (I3 i j Hi Hj). f_equal. f_equal.
        unfold f0, padbox. destruct (nz be); auto.
        replace ((i <? M) && (j <? N)) with true by lia. auto.
Qed.

Definition opA_MN (pa : bool) (A : Z -> Z -> T) (m : mem T) : Prop :=
  exists ba, live m BufA = Some ba /\
    if pa then M_padded x * K <= blen ba /\ packedA_MN S p (mr c) tM_s mt_s x abase BufA (padrow S M A) m
    else M * K <= blen ba /\ holds m BufA M K A.
Definition opB_MN (pb : bool) (LB : Z) (fB : Z -> Z -> T) (m : mem T) : Prop :=
  exists bb, live m BufB = Some bb /\
    if pb then K * N_padded x <= blen bb /\ b64 bb = true /\ packedB_MN S p (nr c) x bbase BufB fB m
    else LB <= blen bb /\ okB_MN LB fB m.

Lemma sgemm_after_MN pa pb be LB A fB C0 m0 :
  (nz be = true -> packC_agrees) ->
  opA_MN pa A m0 -> opB_MN pb LB fB m0 -> at_least m0 BufC (M * N) ->
  (nz be = true -> holds m0 BufC M N C0) ->
  (forall b, used p b -> b <> BufX 0 -> live m0 b = None) -> live m0 (BufX 0) <> None ->
  pok (sgemm_after S ar nz M N K p pa pb be (x, c)) m0
      (fun r m' => r = c /\
         holds m' BufC M N (fun i j => dot S (A i) (fun kk => fB kk j) (ord_s i j)
                              (if nz be then C0 i j else zero S)) /\
         (forall b, live m' b = if buf_eqb (BufX 0) b then None else live m0 b) /\
         (forall b i, ~ used p b -> ~ (b = BufC /\ 0 <= i < M * N) -> dat m' b i = dat m0 b i)).
Proof.
  intros Hag HA HB HC H0 Hfr HX.
  destruct ctx_pos_min as (Hmr & Hnr & Hln & Hlk).
  unfold sgemm_after. cbn [fst snd]. rewrite Hs.
  pose proof (bf_Mp _ _ _ _ _ _ _ _ _ F) as HMp. pose proof (bf_Np _ _ _ _ _ _ _ _ _ F) as HNp.
  eapply (sgemm_rest_spec S pa pb _ _ (M_padded x * K) (K * N_padded x) (M * K) LB _ _ _ c M N p
    (fun b => packedA_MN S p (mr c) tM_s mt_s x abase b (padrow S M A))
    (fun b => packedB_MN S p (nr c) x bbase b fB)
    (fun m => holds m BufA M K A) (okB_MN LB fB)
    (fun m => holds m BufC M N (fun i j => dot S (A i) (fun kk => fB kk j) (ord_s i j)
                              (if nz be then C0 i j else zero S)))
    (fun m => nz be = true -> holds m BufC M N C0)); auto.
  - nia.
  - nia.
  - intros b. apply packedA_MN_local.
  - intros b. apply packedB_MN_local.
  - apply holds_local.
  - apply okB_local.
  - apply holds_local.
  - intros m m' H P E. specialize (P E). eapply holds_local; eauto.
  - intros _ m ba HL Hl Hh HLp. eapply (packA_s BufA (BufAp 0)); eauto; [discriminate|cbn; lia].
  - intros _ m bb HL Hl Hh HLp. eapply (packB_s BufB BufBp); eauto; [discriminate|eapply okB_bsrc; eauto|cbn; lia].
  - intros ab bb ba bi m Hab Hbb HLa Hba PA HLb Hbb' Hal PB HCl HCp HR0.
    eapply pok_mono; [eapply (mid_s be C0 A fB ab bb ba bi m); auto; lia|].
    cbv beta. intros _ m' (E1 & E2 & E3). split; [auto|split; [auto|]].
    intros i j Hi Hj. rewrite (E3 i j Hi Hj). f_equal. apply dot_ext. intros k _. unfold padrow.
    destruct (Z.ltb_spec i M); [auto|lia].
Qed.

End TopMN.
