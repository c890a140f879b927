(** * Facts about block sizing: the blocks partition each dimension. *)

From Coq Require Import ZArith List Bool Lia.
From Verif Require Import ModelSizing ModelPack ModelSched.
Import ListNotations.
Open Scope Z_scope.

Definition cdiv (a b : Z) : Z := - ((- a) / b).

Lemma cdiv_spec a b : 0 < b -> a <= b * cdiv a b < a + b.
Proof.
  intros H. unfold cdiv.
  pose proof (Z.div_mod (- a) b ltac:(lia)). pose proof (Z.mod_pos_bound (- a) b H). nia.
Qed.

Lemma cdiv_unique a b q : 0 < b -> a <= b * q < a + b -> cdiv a b = q.
Proof. intros H H1. pose proof (cdiv_spec a b H). nia. Qed.

(** [nb] blocks of nominal size [t] tile 0..D-1; block [b] is b*t .. b*t + w b - 1. *)
Record part (nb t D : Z) (w : Z -> Z) : Prop := Part {
  pt_nb : 0 <= nb;
  pt_w : forall b, 0 <= b < nb -> 0 < w b <= t;
  pt_full : forall b, 0 <= b -> b + 1 < nb -> w b = t;
  pt_last : 0 < nb -> (nb - 1) * t + w (nb - 1) = D;
  pt_0 : nb = 0 -> D = 0 }.

Definition off (nb t D b : Z) : Z := if b <? nb then b * t else D.

Section P.
Variables (nb t D : Z) (w : Z -> Z).
Hypothesis H : part nb t D w.

Lemma part_D : 0 <= D.
Proof.
  destruct (Z.eq_dec nb 0) as [E|E]. { rewrite (pt_0 _ _ _ _ H E). lia. }
  pose proof (pt_nb _ _ _ _ H). pose proof (pt_w _ _ _ _ H (nb - 1) ltac:(lia)).
  rewrite <- (pt_last _ _ _ _ H) by lia. nia.
Qed.

Lemma off_0 : off nb t D 0 = 0.
Proof.
  unfold off. destruct (Z.ltb_spec 0 nb); [lia|]. apply (pt_0 _ _ _ _ H). pose proof (pt_nb _ _ _ _ H). lia.
Qed.

Lemma off_lt b : b < nb -> off nb t D b = b * t.
Proof. unfold off. destruct (Z.ltb_spec b nb); lia. Qed.

Lemma off_S b : 0 <= b < nb -> off nb t D (b + 1) = b * t + w b.
Proof.
  intros Hb. unfold off. destruct (Z.ltb_spec (b + 1) nb).
  - rewrite (pt_full _ _ _ _ H b) by lia. ring.
  - replace b with (nb - 1) by lia. now rewrite (pt_last _ _ _ _ H) by lia.
Qed.

Lemma off_n : off nb t D nb = D.
Proof. unfold off. destruct (Z.ltb_spec nb nb); lia. Qed.

Lemma part_end b : 0 <= b < nb -> b * t + w b <= D.
Proof.
  intros Hb. rewrite <- (pt_last _ _ _ _ H) by lia.
  destruct (Z.eq_dec b (nb - 1)) as [->|]; [lia|].
  pose proof (pt_w _ _ _ _ H b Hb). pose proof (pt_w _ _ _ _ H (nb - 1) ltac:(lia)). nia.
Qed.

Lemma part_sep b b' : 0 <= b < nb -> b < b' -> b * t + w b <= b' * t.
Proof. intros Hb Hbb. pose proof (pt_w _ _ _ _ H b Hb). nia. Qed.

Lemma part_cover i : 0 <= i < D -> exists b, 0 <= b < nb /\ b * t <= i < b * t + w b.
Proof.
  intros Hi. pose proof (pt_nb _ _ _ _ H) as Hn.
  destruct (Z.eq_dec nb 0) as [E|E]. { rewrite (pt_0 _ _ _ _ H E) in Hi. lia. }
  pose proof (pt_w _ _ _ _ H (nb - 1) ltac:(lia)) as Hw.
  destruct (Z_lt_le_dec i ((nb - 1) * t)).
  - exists (i / t).
    pose proof (Z.div_mod i t ltac:(lia)). pose proof (Z.mod_pos_bound i t ltac:(lia)).
    assert (0 <= i / t) by (apply Z.div_pos; lia).
    assert (i / t < nb - 1) by (apply Z.div_lt_upper_bound; nia).
    split; [lia|]. rewrite (pt_full _ _ _ _ H) by lia. nia.
  - exists (nb - 1). split; [lia|]. rewrite <- (pt_last _ _ _ _ H) in Hi by lia. lia.
Qed.

Lemma part_uniq b b' i : 0 <= b < nb -> 0 <= b' < nb ->
  b * t <= i < b * t + w b -> b' * t <= i < b' * t + w b' -> b = b'.
Proof.
  intros Hb Hb' H1 H2. destruct (Z.eq_dec b b'); auto.
  destruct (Z_lt_le_dec b b'); [pose proof (part_sep b b' Hb)|pose proof (part_sep b' b Hb')]; lia.
Qed.

End P.

(** ** The ceiling-based split *)

Lemma part_ceil rem pc : 0 < rem -> 0 < pc ->
  part (cdiv rem pc) pc rem (fun c => if c =? cdiv rem pc - 1 then pc - (cdiv rem pc * pc - rem) else pc).
Proof.
  intros Hr Hp. pose proof (cdiv_spec rem pc Hp) as Hc. set (q := cdiv rem pc) in *.
  assert (0 < q) by nia.
  constructor; try lia.
  - intros b Hb. destruct (Z.eqb_spec b (q - 1)); nia.
  - intros b Hb Hb'. destruct (Z.eqb_spec b (q - 1)); lia.
  - intros _. rewrite Z.eqb_refl. nia.
Qed.

Lemma part_scale nb t D w r : 0 < r -> part nb t D w -> part nb (t * r) (D * r) (fun c => w c * r).
Proof.
  intros Hr [H1 H2 H3 H4 H5]. constructor; auto.
  - intros b Hb. specialize (H2 b Hb). nia.
  - intros b Hb Hb'. now rewrite H3.
  - intros Hn. rewrite <- H4 by auto. ring.
  - intros Hn. rewrite H5 by auto. ring.
Qed.

Lemma part_ext nb t t' D D' w w' : (forall b, 0 <= b < nb -> w b = w' b) -> t = t' -> D = D' ->
  part nb t D w -> part nb t' D' w'.
Proof.
  intros E <- <- [H1 H2 H3 H4 H5]. constructor; auto.
  - intros b Hb. rewrite <- E by auto. auto.
  - intros b Hb Hb'. rewrite <- E by lia. auto.
  - intros Hn. rewrite <- E by lia. auto.
Qed.

Lemma part_const p t : 0 <= p -> 0 < t -> part p t (p * t) (fun _ => t).
Proof. intros. constructor; intros; auto; lia. Qed.

(** Quotient and remainder blocks: D = q*t + r, last block (if r <> 0) of width [l]. *)
Lemma part_quot D t l : 0 <= D -> 0 < t -> 0 < l <= t \/ Z.rem D t = 0 ->
  let pad := pad01 (Z.rem D t) in
  let nb := Z.quot D t + pad in
  part nb t (if truthy pad then Z.quot D t * t + l else D)
       (fun b => if is_last b nb pad then l else t) /\
  (forall b, 0 <= b < nb -> b * t < D) /\
  (forall b, 0 <= b < nb -> is_last b nb pad = true -> b * t = D - Z.rem D t /\ 0 < Z.rem D t) /\
  (Z.rem D t = 0 -> pad = 0) /\ (Z.rem D t <> 0 -> pad = 1) /\
  (forall b, 0 <= b < nb -> is_last b nb pad = false -> (b + 1) * t <= D).
Proof.
  intros HD Ht Hl pad nb.
  pose proof (Z.quot_rem D t ltac:(lia)) as E. pose proof (Z.rem_bound_pos D t HD Ht) as Hr.
  assert (Hq : 0 <= Z.quot D t) by (apply Z.quot_pos; lia).
  set (q := Z.quot D t) in *. set (r := Z.rem D t) in *.
  unfold pad01 in pad. unfold is_last. unfold truthy in *.
  destruct (Z.eqb_spec r 0) as [Er|Er]; cbn [negb] in pad; subst pad; cbn [negb Z.eqb] in *; subst nb.
  - split; [|split; [|split; [|split; [|split]]]]; try (intros; lia).
    + constructor; intros; try lia; rewrite ?andb_false_r; try lia; nia.
    + intros b Hb. nia.
    + intros b Hb _. nia.
  - assert (Hl' : 0 < l <= t) by lia.
    split; [|split; [|split; [|split; [|split]]]]; try (intros; lia).
    + constructor; intros; try lia.
      * rewrite andb_true_r. destruct (Z.eqb_spec b (q + 1 - 1)); lia.
      * rewrite andb_true_r. destruct (Z.eqb_spec b (q + 1 - 1)); lia.
      * rewrite andb_true_r. rewrite Z.eqb_refl. ring.
    + intros b Hb. nia.
    + intros b Hb. rewrite andb_true_r. intros Hb'%Z.eqb_neq. nia.
Qed.

(** ** KMN *)

Record kmn_facts (M N K p m_r n_r : Z) (x : blk_dims) : Prop := KmnFacts {
  kf_mc : 0 < m_c x; kf_kc : 0 < k_c x; kf_nc : 0 < n_c x;
  kf_K : part (Kb x) (k_c x) K (blk_kt x);
  kf_N : part (Nb x) (n_c x) (N_padded x) (blk_nt x);
  kf_M : part (Mb x) (p * m_c x) (M_padded x) (blk_mcb x p m_r);
  kf_pu : forall m, 0 <= m < Mb x -> 1 <= blk_pu x p m <= p;
  kf_C : forall m, 0 <= m < Mb x -> part (blk_pu x p m) (core_mx x m) (blk_mcb x p m_r m) (core_mt x m);
  kf_mx : forall m, 0 <= m < Mb x -> 0 < core_mx x m <= m_c x;
  kf_mr : forall m core, 0 <= m < Mb x -> 0 <= core < blk_pu x p m -> (m_r | core_mt x m core);
  kf_mxr : forall m, 0 <= m < Mb x -> (m_r | core_mx x m);
  kf_nr : forall n, 0 <= n < Nb x -> (n_r | blk_nt x n);
  kf_n1 : forall n, 0 <= n < Nb x -> blk_n1 x N n = n * n_c x /\ n * n_c x < N;
  kf_m1 : forall m, 0 <= m < Mb x -> blk_m1 x M p m = m * p * m_c x /\ m * p * m_c x < M;
  kf_Mp : M <= M_padded x; kf_Np : N <= N_padded x;
  kf_mcd : (m_r | m_c x); kf_ncd : (n_r | n_c x);
  kf_sA : packed_A_size M K p x m_r KMN = CRet (M_padded x * K);
  kf_sB : packed_B_size K N x n_r = CRet (K * N_padded x);
  kf_sC : packed_C_size M N p x m_r n_r KMN = CRet (M_padded x * N_padded x);
  kf_kc1 : k_c1 x = Z.rem K (k_c x);
  kf_Kq : Kb x = Z.quot K (k_c x) + k_pad x; kf_kpad : k_pad x = pad01 (Z.rem K (k_c x));
  kf_Nq : Nb x = Z.quot N (n_c x) + n_pad x; kf_npad : n_pad x = pad01 (Z.rem N (n_c x));
  kf_nc1 : n_c1 x = cdiv (Z.rem N (n_c x)) n_r * n_r;
  kf_Mq : Mb x = Z.quot M (p * m_c x) + m_pad x; kf_mpad : m_pad x = pad01 (Z.rem M (p * m_c x));
  kf_Mpu : M_padded x < M + m_r; kf_Npu : N_padded x < N + n_r;
  kf_two : forall m, 0 <= m < Mb x -> 2 <= p -> m_r < blk_mcb x p m_r m -> 2 <= blk_pu x p m }.

Lemma imod_pos a b : 0 < b -> imod a b = CRet (Z.rem a b).
Proof. intros. unfold imod. destruct (Z.eqb_spec b 0); [lia|easy]. Qed.
Lemma idiv_pos a b : 0 < b -> idiv a b = CRet (Z.quot a b).
Proof. intros. unfold idiv. destruct (Z.eqb_spec b 0); [lia|easy]. Qed.
Lemma iceil_pos a b : 0 < b -> iceil a b = CRet (cdiv a b).
Proof. intros. unfold iceil. destruct (Z.eqb_spec b 0); [lia|easy]. Qed.

Lemma cdiv_0 b : 0 < b -> cdiv 0 b = 0.
Proof. intros. apply cdiv_unique; lia. Qed.

Lemma cdiv_pos a b : 0 < a -> 0 < b -> 0 < cdiv a b.
Proof. intros. pose proof (cdiv_spec a b). nia. Qed.

(** The split of a remainder over [p] workers in units of [r]. *)
Lemma core_split rem p r t : 0 < rem -> 0 < p -> 0 < r -> (r | t) -> rem < p * t -> 0 < t ->
  let mr_rem' := cdiv rem r in
  let pc := cdiv mr_rem' p in
  let pl := cdiv mr_rem' pc in
  0 < pc /\ 1 <= pl <= p /\ pc * r <= t /\ rem <= mr_rem' * r <= p * t /\
  part pl (pc * r) (mr_rem' * r)
    (fun c => if c =? pl - 1 then (pc - (pl * pc - mr_rem')) * r else pc * r).
Proof.
  intros Hrem Hp Hr [u ->] Hlt Ht mr_rem' pc pl.
  assert (Hu : 0 < u) by nia.
  pose proof (cdiv_spec rem r Hr) as E1. fold mr_rem' in E1.
  assert (H1 : 0 < mr_rem') by (apply cdiv_pos; lia).
  pose proof (cdiv_spec mr_rem' p Hp) as E2. fold pc in E2.
  assert (H2 : 0 < pc) by (apply cdiv_pos; lia).
  pose proof (cdiv_spec mr_rem' pc H2) as E3. fold pl in E3.
  assert (H3 : 0 < pl) by (apply cdiv_pos; lia).
  assert (Hru : mr_rem' <= p * u).
  { assert (r * (mr_rem' - 1) < r * (p * u)) by nia. nia. }
  assert (Hpcu : pc <= u) by nia.
  split; [auto|]. split; [nia|]. split; [nia|]. split; [nia|].
  eapply part_ext; [| | |apply (part_scale _ _ _ _ r Hr (part_ceil mr_rem' pc H1 H2))]; auto.
  intros b Hb. cbv beta. fold pl. destruct (b =? pl - 1); [ring|reflexivity].
Qed.

Lemma dims_KMN_facts M N K p mc kc nc m_r n_r x :
  0 <= M -> 0 <= N -> 0 <= K -> 0 < p -> 0 < mc -> 0 < kc -> 0 < nc -> 0 < m_r -> 0 < n_r ->
  (m_r | mc) -> (n_r | nc) ->
  dims_KMN M N K p mc kc nc m_r n_r = CRet x ->
  kmn_facts M N K p m_r n_r x /\ m_c x = mc /\ k_c x = kc /\ n_c x = nc /\ sch x = KMN.
Proof.
  intros HM HN HK Hp Hmc Hkc Hnc Hmr Hnr Dm Dn.
  unfold dims_KMN.
  assert (Hpm : 0 < p * mc) by nia.
  rewrite !imod_pos, !idiv_pos by lia. cbn [cbind].
  rewrite !(iceil_pos _ m_r), !(iceil_pos _ n_r) by lia. cbn [cbind].
  rewrite (iceil_pos _ p) by lia. cbn [cbind].
  set (mrm := Z.rem M (p * mc)). set (nrm := Z.rem N nc). set (kr := Z.rem K kc).
  set (mr_rem' := cdiv mrm m_r). set (nr_rem' := cdiv nrm n_r). set (pc := cdiv mr_rem' p).
  pose proof (Z.rem_bound_pos M (p * mc) HM Hpm) as Bm. fold mrm in Bm.
  pose proof (Z.rem_bound_pos N nc HN Hnc) as Bn. fold nrm in Bn.
  pose proof (Z.rem_bound_pos K kc HK Hkc) as Bk. fold kr in Bk.
  pose proof (Z.quot_rem M (p * mc) ltac:(lia)) as QM. fold mrm in QM.
  pose proof (Z.quot_rem N nc ltac:(lia)) as QN. fold nrm in QN.
  pose proof (Z.quot_rem K kc ltac:(lia)) as QK. fold kr in QK.
  assert (Hpc : truthy pc = truthy mrm /\ (mrm = 0 -> mr_rem' = 0 /\ pc = 0)).
  { unfold truthy. destruct (Z.eqb_spec mrm 0) as [E|E].
    - unfold pc, mr_rem'. rewrite E, cdiv_0, cdiv_0 by lia. auto.
    - split; [|lia]. assert (0 < pc) by (apply cdiv_pos; [apply cdiv_pos; lia|lia]).
      destruct (Z.eqb_spec pc 0); [lia|easy]. }
  destruct Hpc as [Hpc Hm0].
  set (pl := if truthy pc then cdiv mr_rem' pc else 0).
  replace (if truthy pc then iceil mr_rem' pc else CRet 0) with (CRet pl).
  2:{ unfold pl. destruct (truthy pc) eqn:Et; auto. unfold truthy in Et.
      rewrite iceil_pos; auto. unfold pc. assert (mrm <> 0).
      { intros E. destruct (Hm0 E) as [_ E']. rewrite E' in Et. easy. }
      apply cdiv_pos; [apply cdiv_pos; lia|lia]. }
  cbn [cbind]. intros E. injection E as Ex.
  assert (Hsz : forall (P : Z -> Prop), (mrm = 0 -> P 0) -> (0 < mrm -> P mr_rem') -> P mr_rem').
  { intros P H0 H1. destruct (Z.eq_dec mrm 0) as [E0|E0].
    - destruct (Hm0 E0) as [-> _]. auto.
    - apply H1. lia. }
  assert (Emr : mr_rem x = mr_rem') by (subst x; reflexivity).
  assert (Epl : p_l x = pl) by (subst x; reflexivity).
  assert (Emc : m_c x = mc) by (subst x; reflexivity).
  assert (Ekc : k_c x = kc) by (subst x; reflexivity).
  assert (Enc : n_c x = nc) by (subst x; reflexivity).
  assert (Emp : m_pad x = pad01 mrm) by (subst x; reflexivity).
  assert (Ekp : k_pad x = pad01 kr) by (subst x; reflexivity).
  assert (Enp : n_pad x = pad01 nrm) by (subst x; reflexivity).
  assert (EMb : Mb x = Z.quot M (p * mc) + pad01 mrm) by (subst x; reflexivity).
  assert (EKb : Kb x = Z.quot K kc + pad01 kr) by (subst x; reflexivity).
  assert (ENb : Nb x = Z.quot N nc + pad01 nrm) by (subst x; reflexivity).
  assert (Em1 : m_c1 x = pc * m_r) by (subst x; reflexivity).
  assert (Eml : m_c1_last_core x = (pc - (pl * pc - mr_rem')) * m_r) by (subst x; reflexivity).
  assert (Ek1 : k_c1 x = kr) by (subst x; reflexivity).
  assert (En1 : n_c1 x = nr_rem' * n_r) by (subst x; reflexivity).
  assert (EMP : M_padded x = m_r * mr_rem' + Z.quot M (p * mc) * p * mc) by (subst x; reflexivity).
  assert (ENP : N_padded x = N - nrm + nr_rem' * n_r) by (subst x; reflexivity).
  assert (Es : sch x = KMN) by (subst x; reflexivity).
  clear Ex.
  assert (Bnr : nrm <= nr_rem' * n_r <= nc /\ (0 < nrm -> 0 < nr_rem')).
  { destruct Dn as [u Eu]. pose proof (cdiv_spec nrm n_r Hnr) as C. fold nr_rem' in C.
    assert (nr_rem' <= u) by nia. split; [nia|]. intros. apply cdiv_pos; lia. }
  assert (Cm : 0 < mrm -> 0 < pc /\ 1 <= pl <= p /\ pc * m_r <= mc /\ mrm <= mr_rem' * m_r <= p * mc /\
     part pl (pc * m_r) (mr_rem' * m_r)
      (fun c => if c =? pl - 1 then (pc - (pl * pc - mr_rem')) * m_r else pc * m_r)).
  { intros H0. pose proof (core_split mrm p m_r mc H0 Hp Hmr Dm ltac:(lia) Hmc) as C. cbv zeta in C.
    fold mr_rem' pc in C. unfold pl. unfold truthy. destruct (Z.eqb_spec pc 0); [lia|exact C]. }
  assert (Lm : 0 < m_r * mr_rem' <= p * mc \/ Z.rem M (p * mc) = 0).
  { fold mrm. destruct (Z.eq_dec mrm 0); [auto|left]. destruct Cm as (_ & _ & _ & C & _); lia. }
  assert (Ln : 0 < nr_rem' * n_r <= nc \/ Z.rem N nc = 0).
  { fold nrm. destruct (Z.eq_dec nrm 0); [auto|left]. destruct Bnr as [B1 B2]. specialize (B2 ltac:(lia)). nia. }
  assert (Lk : 0 < kr <= kc \/ Z.rem K kc = 0) by (fold kr; lia).
  destruct (part_quot M (p * mc) (m_r * mr_rem') HM Hpm Lm) as (PM & PM1 & PM2 & PM3 & PM4 & PM5).
  destruct (part_quot N nc (nr_rem' * n_r) HN Hnc Ln) as (PN & PN1 & PN2 & PN3 & PN4 & PN5).
  destruct (part_quot K kc kr HK Hkc Lk) as (PK & PK1 & PK2 & PK3 & PK4 & PK5).
  fold mrm in PM, PM1, PM2, PM3, PM4, PM5. fold nrm in PN, PN1, PN2, PN3, PN4, PN5.
  fold kr in PK, PK1, PK2, PK3, PK4, PK5. cbv zeta in *.
  rewrite <- EMb in PM, PM1, PM2, PM5. rewrite <- Emp in PM, PM2, PM3, PM4, PM5.
  rewrite <- ENb in PN, PN1, PN2, PN5. rewrite <- Enp in PN, PN2, PN3, PN4, PN5.
  rewrite <- EKb in PK, PK1, PK2, PK5. rewrite <- Ekp in PK, PK2, PK3, PK4, PK5.
  assert (HMp : M <= M_padded x).
  { rewrite EMP. destruct (Z.eq_dec mrm 0); [destruct Hm0 as [-> _]; [auto|nia]|].
    destruct Cm as (_ & _ & _ & C & _); [lia|nia]. }
  assert (HNp : N <= N_padded x) by (rewrite ENP; lia).
  assert (HMpu : M_padded x < M + m_r).
  { rewrite EMP. pose proof (cdiv_spec mrm m_r Hmr) as C. fold mr_rem' in C. lia. }
  assert (HNpu : N_padded x < N + n_r).
  { rewrite ENP. pose proof (cdiv_spec nrm n_r Hnr) as C. fold nr_rem' in C. lia. }
  split; [|auto].
  constructor; rewrite ?Emc, ?Ekc, ?Enc; auto.
  - eapply part_ext; [| | |exact PK]; auto.
    + intros b Hb. unfold blk_kt. now rewrite Ek1, Ekc.
    + unfold pad01 in Ekp. destruct (Z.eq_dec kr 0) as [E|E].
      * now rewrite PK3 by auto.
      * rewrite PK4 by auto. cbn. lia.
  - eapply part_ext; [| | |exact PN]; auto.
    + intros b Hb. unfold blk_nt. now rewrite En1, Enc.
    + rewrite ENP. destruct (Z.eq_dec nrm 0) as [E|E].
      * rewrite PN3 by auto. cbn. unfold nr_rem'. rewrite E, cdiv_0 by lia. lia.
      * rewrite PN4 by auto. cbn. lia.
  - eapply part_ext; [| | |exact PM]; auto.
    + intros b Hb. unfold blk_mcb. now rewrite Emr, Emc.
    + rewrite EMP. destruct (Z.eq_dec mrm 0) as [E|E].
      * rewrite PM3 by auto. cbn. destruct Hm0 as [-> _]; auto. lia.
      * rewrite PM4 by auto. cbn. lia.
  - intros m Hm. unfold blk_pu. destruct (is_last m (Mb x) (m_pad x)) eqn:El; [|lia].
    destruct (PM2 m Hm El). rewrite Epl. destruct Cm as (_ & C & _); lia.
  - intros m Hm. unfold blk_pu, core_mx, blk_mcb, core_mt.
    destruct (is_last m (Mb x) (m_pad x)) eqn:El.
    + destruct (PM2 m Hm El). rewrite Epl, Em1, Emr, Eml. destruct Cm as (_ & _ & _ & _ & C); [lia|].
      eapply part_ext; [| | |exact C]; auto. ring.
    + rewrite Emc. apply part_const; lia.
  - intros m Hm. unfold core_mx. destruct (is_last m (Mb x) (m_pad x)) eqn:El; [|lia].
    destruct (PM2 m Hm El). rewrite Em1. destruct Cm as (C1 & _ & C2 & _); [lia|]. nia.
  - intros m core Hm Hc. unfold core_mt. destruct (is_last m (Mb x) (m_pad x)).
    + destruct (core =? p_l x - 1); [rewrite Eml|rewrite Em1]; apply Z.divide_factor_r.
    + now rewrite Emc.
  - intros m Hm. unfold core_mx. destruct (is_last m (Mb x) (m_pad x)); [|now rewrite Emc].
    rewrite Em1. apply Z.divide_factor_r.
  - intros n Hn. unfold blk_nt. destruct (is_last n (Nb x) (n_pad x)); [rewrite En1; apply Z.divide_factor_r|now rewrite Enc].
  - intros n Hn. unfold blk_n1. rewrite Enc. fold nrm. split; [|auto].
    destruct (is_last n (Nb x) (n_pad x)) eqn:El; auto. destruct (PN2 n Hn El). lia.
  - intros m Hm. unfold blk_m1. rewrite Emc. fold mrm. specialize (PM1 m Hm). split; [|lia].
    destruct (is_last m (Mb x) (m_pad x)) eqn:El; auto. destruct (PM2 m Hm El). lia.
  - unfold packed_A_size. rewrite Emc, imod_pos, idiv_pos by lia. cbn [cbind].
    rewrite iceil_pos by lia. cbn [cbind]. fold mrm. fold mr_rem'. now rewrite EMP.
  - unfold packed_B_size. rewrite Enc, imod_pos by lia. cbn [cbind]. rewrite iceil_pos by lia. cbn [cbind].
    fold nrm nr_rem'. now rewrite ENP.
  - unfold packed_C_size. rewrite Emc, Enc, !imod_pos, idiv_pos by lia. cbn [cbind].
    rewrite !iceil_pos by lia. cbn [cbind]. fold mrm mr_rem' nrm nr_rem'. now rewrite EMP, ENP.
  - now rewrite EKb, Ekp.
  - now rewrite ENb, Enp.
  - now rewrite EMb, Emp.
  - intros m Hm Hp2. unfold blk_mcb, blk_pu. destruct (is_last m (Mb x) (m_pad x)) eqn:El; [|lia].
    destruct (PM2 m Hm El) as [_ Hr0]. destruct Cm as (C1 & _); [lia|]. rewrite Emr, Epl. intros Hlt.
    unfold pl, truthy. destruct (Z.eqb_spec pc 0); [lia|]. cbn [negb].
    pose proof (cdiv_spec mr_rem' p Hp) as S1. fold pc in S1. pose proof (cdiv_spec mr_rem' pc C1) as S2.
    clear -Hlt Hmr Hp2 S1 S2 C1. assert (2 <= mr_rem') by nia. nia.
Qed.

Lemma dims_KMN_total M N K p mc kc nc m_r n_r :
  0 < p -> 0 < mc -> 0 < kc -> 0 < nc -> 0 < m_r -> 0 < n_r ->
  exists x, dims_KMN M N K p mc kc nc m_r n_r = CRet x.
Proof.
  intros. unfold dims_KMN. assert (0 < p * mc) by nia.
  rewrite !imod_pos, !idiv_pos by lia. cbn [cbind].
  rewrite !(iceil_pos _ m_r), !(iceil_pos _ n_r) by lia. cbn [cbind].
  rewrite (iceil_pos _ p) by lia. cbn [cbind].
  match goal with |- context [truthy ?t] => unfold truthy; destruct (Z.eqb_spec t 0) end; cbn [negb cbind].
  - eexists; reflexivity.
  - unfold iceil. match goal with |- context [?t =? 0] => destruct (Z.eqb_spec t 0) end; [contradiction|].
    cbn [cbind]. eexists; reflexivity.
Qed.
