(** * Packed buffers: every element is written, and packing then unpacking is the identity. *)

From Coq Require Import ZArith List Bool Lia Permutation.
From Verif Require Import Lang Lang_facts Spec SpecTop ModelSizing ModelKernel ModelPack ModelSched ModelTop
     Kernel_facts Tile_facts Loop_facts Pack_facts Unpack_facts Sizing_facts SizingMN_facts PackMat_facts PackB_facts
     Order_facts Cphase_facts SchedK_facts Grid_facts PackMN_facts SchedMN_facts Frame_facts Init_facts TopK_facts TopMN_facts
     Call_facts CallAll_facts.
Import ListNotations.
Open Scope Z_scope.

Lemma split2 (a b y : Z) : 0 < b -> 0 <= y < a * b -> exists q r, y = q * b + r /\ 0 <= q < a /\ 0 <= r < b.
Proof.
  intros Hb Hy. exists (y / b), (y mod b). pose proof (Z.div_mod y b ltac:(lia)). pose proof (Z.mod_pos_bound y b Hb).
  assert (0 <= y / b) by (apply Z.div_pos; lia). assert (y / b < a) by (apply Z.div_lt_upper_bound; lia).
  repeat split; lia.
Qed.

(** ** Every position belongs to a block, a core's share, a panel *)
Lemma bpos_cover nI tI DI wI nJ tJ DJ wJ y : part nI tI DI wI -> part nJ tJ DJ wJ -> 0 <= y < DI * DJ ->
  exists i j, 0 <= i < nI /\ 0 <= j < nJ /\ bpos tI wI tJ DJ i j <= y < bpos tI wI tJ DJ i j + wI i * wJ j.
Proof.
  intros HI HJ Hy. pose proof (part_D _ _ _ _ HI). pose proof (part_D _ _ _ _ HJ).
  assert (0 < DJ) by nia.
  destruct (split2 DI DJ y ltac:(lia) Hy) as (q & r & -> & Hq & Hr).
  destruct (part_cover _ _ _ _ HI q Hq) as (i & Hi & Hqi).
  pose proof (pt_w _ _ _ _ HI i Hi) as Hw.
  set (z := (q - i * tI) * DJ + r).
  assert (Hz : 0 <= z < DJ * wI i) by (unfold z; nia).
  destruct (split2 DJ (wI i) z ltac:(lia) Hz) as (q2 & r2 & Ez & Hq2 & Hr2).
  destruct (part_cover _ _ _ _ HJ q2 Hq2) as (j & Hj & Hqj).
  exists i, j. split; [auto|split; [auto|]]. unfold bpos.
  assert (q * DJ + r = i * tI * DJ + z) by (unfold z; ring). nia.
Qed.

Lemma core_cover np t D w g z : part np t D w -> 0 < g -> 0 <= z < D * g ->
  exists c, 0 <= c < np /\ c * t * g <= z < c * t * g + w c * g.
Proof.
  intros HP Hg Hz. destruct (split2 D g z Hg Hz) as (q & r & -> & Hq & Hr).
  destruct (part_cover _ _ _ _ HP q Hq) as (c & Hc & Hqc). exists c. split; [auto|]. nia.
Qed.

Section S.
Variable S : scalar.
Notation T := (elt S).

Definition filled (m : mem T) (b : buf) (n : Z) : Prop := forall i, 0 <= i < n -> exists v, dat m b i = Some v.

Lemma panels_full (m : mem T) b base r nq kd f y : 0 < r -> 0 < kd ->
  panels m b base r nq kd f -> base <= y < base + nq * r * kd -> exists v, dat m b y = Some v.
Proof.
  intros Hr Hk HP Hy.
  destruct (split2 nq (r * kd) (y - base) ltac:(nia) ltac:(lia)) as (q & z & E & Hq & Hz).
  destruct (split2 kd r z Hr ltac:(lia)) as (kk & i & Ez & Hkk & Hi).
  eexists. rewrite <- (HP q i kk Hq Hi Hkk). f_equal. lia.
Qed.

Lemma ctiles_full (m : mem T) b base mr nr nm nn f y : 0 < mr -> 0 < nr -> 0 < nm ->
  ctiles m b base mr nr nm nn f -> base <= y < base + nm * mr * (nn * nr) -> exists v, dat m b y = Some v.
Proof.
  intros Hm Hn Hnm HP Hy.
  destruct (split2 nn (nm * mr * nr) (y - base) ltac:(apply Z.mul_pos_pos; nia) ltac:(lia)) as (qn & z & E & Hq & Hz).
  destruct (split2 nm (mr * nr) z ltac:(nia) ltac:(lia)) as (qm & z2 & E2 & Hqm & Hz2).
  destruct (split2 mr nr z2 Hn ltac:(lia)) as (i & j & E3 & Hi & Hj).
  eexists. rewrite <- (HP qm i qn j Hqm Hi Hq Hj). f_equal. lia.
Qed.

Lemma packedA_KMN_full M N K p m_r n_r x b f m : kmn_facts M N K p m_r n_r x -> 0 < m_r ->
  packedA_KMN S x p m_r K b f m -> filled m b (M_padded x * K).
Proof.
  intros F Hmr HP y Hy.
  destruct (bpos_cover _ _ _ _ _ _ _ _ y (kf_M _ _ _ _ _ _ _ F) (kf_K _ _ _ _ _ _ _ F) Hy) as (i & j & Hi & Hj & Hb).
  pose proof (pt_w _ _ _ _ (kf_K _ _ _ _ _ _ _ F) j Hj) as Hk.
  destruct (core_cover _ _ _ _ (blk_kt x j) (y - bpos (p * m_c x) (blk_mcb x p m_r) (k_c x) K i j)
              (kf_C _ _ _ _ _ _ _ F i Hi)) as (c & Hc & Hcb); try lia.
  eapply (panels_full m b _ m_r _ _ _ y Hmr); [|apply (HP i j c Hi Hj Hc)|]; [lia|].
  rewrite <- (div_exact_of m_r _ Hmr (kf_mr _ _ _ _ _ _ _ F i c Hi Hc)). unfold bpos in *. nia.
Qed.

Lemma packedB_KMN_full M N K p m_r n_r x b f m : kmn_facts M N K p m_r n_r x -> 0 < n_r ->
  packedB_KMN S x n_r K b f m -> filled m b (K * N_padded x).
Proof.
  intros F Hnr HP y Hy.
  destruct (bpos_cover _ _ _ _ _ _ _ _ y (kf_N _ _ _ _ _ _ _ F) (kf_K _ _ _ _ _ _ _ F)) as (i & j & Hi & Hj & Hb); [lia|].
  pose proof (pt_w _ _ _ _ (kf_K _ _ _ _ _ _ _ F) j Hj) as Hk.
  eapply (panels_full m b _ n_r _ _ _ y Hnr); [|apply (HP i j Hi Hj)|]; [lia|].
  rewrite <- (div_exact_of n_r _ Hnr (kf_nr _ _ _ _ _ _ _ F i Hi)). unfold bpos in *. nia.
Qed.

Lemma packedA_MN_full M N K p m_r n_r tM mt x swap b f m : bf M N K p m_r n_r tM mt x -> 0 < m_r ->
  packedA_MN S p m_r tM mt x (abase_s K p tM mt x swap) b f m -> filled m b (M_padded x * K).
Proof.
  intros F Hmr HP y Hy.
  assert (E : exists k m0, 0 <= k < Kb x /\ 0 <= m0 < Mb x /\
     abase_s K p tM mt x swap k m0 <= y < abase_s K p tM mt x swap k m0 + blk_kcb x p k * mt m0).
  { unfold abase_s, abase_N, abase_M. destruct swap.
    - destruct (bpos_cover _ _ _ _ _ _ _ _ y (bf_M _ _ _ _ _ _ _ _ _ F) (bf_K _ _ _ _ _ _ _ _ _ F) Hy) as (i & j & Hi & Hj & Hb).
      exists j, i. split; [auto|split; [auto|lia]].
    - destruct (bpos_cover _ _ _ _ _ _ _ _ y (bf_K _ _ _ _ _ _ _ _ _ F) (bf_M _ _ _ _ _ _ _ _ _ F)) as (i & j & Hi & Hj & Hb); [lia|].
      exists i, j. split; [auto|split; [auto|lia]]. }
  destruct E as (k & m0 & Hk & Hm & Hb).
  pose proof (pt_w _ _ _ _ (bf_M _ _ _ _ _ _ _ _ _ F) m0 Hm) as Hmt.
  destruct (core_cover _ _ _ _ (mt m0) (y - abase_s K p tM mt x swap k m0)
              (bf_C _ _ _ _ _ _ _ _ _ F k Hk)) as (c & Hc & Hcb); try lia.
  pose proof (pt_w _ _ _ _ (bf_C _ _ _ _ _ _ _ _ _ F k Hk) c Hc) as Hkt.
  eapply (panels_full m b _ m_r _ _ _ y Hmr); [|apply (HP k m0 c Hk Hm Hc)|]; [lia|].
  rewrite <- (div_exact_of m_r _ Hmr (bf_mr _ _ _ _ _ _ _ _ _ F m0 Hm)). nia.
Qed.

Lemma packedB_MN_full M N K p m_r n_r tM mt x swap b f m : bf M N K p m_r n_r tM mt x -> 0 < n_r ->
  packedB_MN S p n_r x (bbase_s K p x swap) b f m -> filled m b (K * N_padded x).
Proof.
  intros F Hnr HP y Hy.
  assert (E : exists k n, 0 <= k < Kb x /\ 0 <= n < Nb x /\
     bbase_s K p x swap k n <= y < bbase_s K p x swap k n + blk_kcb x p k * blk_nt x n).
  { unfold bbase_s, bbase_N, bbase_M. destruct swap.
    - destruct (bpos_cover _ _ _ _ _ _ _ _ y (bf_K _ _ _ _ _ _ _ _ _ F) (bf_N _ _ _ _ _ _ _ _ _ F) Hy) as (i & j & Hi & Hj & Hb).
      exists i, j. split; [auto|split; [auto|lia]].
    - destruct (bpos_cover _ _ _ _ _ _ _ _ y (bf_N _ _ _ _ _ _ _ _ _ F) (bf_K _ _ _ _ _ _ _ _ _ F)) as (i & j & Hi & Hj & Hb); [lia|].
      exists j, i. split; [auto|split; [auto|lia]]. }
  destruct E as (k & n & Hk & Hn & Hb).
  pose proof (pt_w _ _ _ _ (bf_N _ _ _ _ _ _ _ _ _ F) n Hn) as Hnt.
  destruct (core_cover _ _ _ _ (blk_nt x n) (y - bbase_s K p x swap k n)
              (bf_C _ _ _ _ _ _ _ _ _ F k Hk)) as (c & Hc & Hcb); try lia.
  pose proof (pt_w _ _ _ _ (bf_C _ _ _ _ _ _ _ _ _ F k Hk) c Hc) as Hkt.
  eapply (panels_full m b _ n_r _ _ _ y Hnr); [|apply (HP k n c Hk Hn Hc)|]; [lia|].
  rewrite <- (div_exact_of n_r _ Hnr (bf_nr _ _ _ _ _ _ _ _ _ F n Hn)). nia.
Qed.

Lemma cpacked_full M N K p m_r n_r tM mt x swap b f m : bf M N K p m_r n_r tM mt x -> 0 < m_r -> 0 < n_r ->
  cpacked S m_r n_r tM mt x swap m b f -> filled m b (M_padded x * N_padded x).
Proof.
  intros F Hmr Hnr HP y Hy.
  assert (E : exists m0 n, 0 <= m0 < Mb x /\ 0 <= n < Nb x /\
     cbase_s tM mt x swap m0 n <= y < cbase_s tM mt x swap m0 n + mt m0 * blk_nt x n).
  { unfold cbase_s. destruct swap.
    - destruct (bpos_cover _ _ _ _ _ _ _ _ y (bf_M _ _ _ _ _ _ _ _ _ F) (bf_N _ _ _ _ _ _ _ _ _ F) Hy) as (i & j & Hi & Hj & Hb).
      exists i, j. split; [auto|split; [auto|lia]].
    - destruct (bpos_cover _ _ _ _ _ _ _ _ y (bf_N _ _ _ _ _ _ _ _ _ F) (bf_M _ _ _ _ _ _ _ _ _ F)) as (i & j & Hi & Hj & Hb); [lia|].
      exists j, i. split; [auto|split; [auto|lia]]. }
  destruct E as (m0 & n & Hm & Hn & Hb).
  pose proof (pt_w _ _ _ _ (bf_M _ _ _ _ _ _ _ _ _ F) m0 Hm) as Hmt.
  pose proof (div_exact_of m_r _ Hmr (bf_mr _ _ _ _ _ _ _ _ _ F m0 Hm)) as Ed.
  eapply (ctiles_full m b _ m_r n_r _ _ _ y Hmr Hnr); [|apply (HP m0 n Hm Hn)|]; [nia|].
  rewrite <- (div_exact_of m_r _ Hmr (bf_mr _ _ _ _ _ _ _ _ _ F m0 Hm)).
  rewrite <- (div_exact_of n_r _ Hnr (bf_nr _ _ _ _ _ _ _ _ _ F n Hn)). lia.
Qed.

End S.
