(** * Block sizing in 32-bit arithmetic. *)

From Coq Require Import ZArith List Bool Lia.
From Verif Require Import SpecInt Lang ModelSizing ModelKernel ModelPack ModelSched ModelInt Sizing_facts
  Int_facts IntPack_facts IntTile_facts.
Open Scope Z_scope.

Lemma cint_if e f : isafe e = true -> @cbind _ Z (cint e) f = f (ival e).
Proof. intros H. now rewrite cint_ok. Qed.

Lemma cint_bind {B} e (f : Z -> comp B) : isafe e = true -> cbind (cint e) f = f (ival e).
Proof. intros H. now rewrite cint_ok. Qed.

(** quotient and remainder of a non-negative dividend *)
Lemma qr a b : 0 <= a -> 0 < b ->
  0 <= Z.rem a b < b /\ Z.rem a b <= a /\ 0 <= Z.quot a b <= a /\ a = b * Z.quot a b + Z.rem a b /\
  Z.quot a b + pad01 (Z.rem a b) <= a /\ 0 <= pad01 (Z.rem a b) <= 1.
Proof.
  intros Ha Hb. pose proof (Z.rem_bound_pos a b Ha Hb). pose proof (Z.quot_rem a b ltac:(lia)).
  pose proof (Z.quot_pos a b Ha Hb). unfold pad01, truthy.
  destruct (Z.eqb_spec (Z.rem a b) 0); cbn [negb]; repeat split; try lia; nia.
Qed.

Lemma cd_le a b : 0 <= a -> 0 < b -> 0 <= cdiv a b <= a /\ a <= cdiv a b * b < a + b.
Proof. intros Ha Hb. pose proof (cdiv_spec a b Hb). nia. Qed.

Lemma pl_comp' kr d : 
  (if truthy d then iceil kr d else CRet 0) = CRet (if truthy d then cdiv kr d else 0).
Proof. unfold truthy, iceil. destruct (Z.eqb_spec d 0); reflexivity. Qed.

Lemma le_of_mul a r b : 0 <= a -> 1 <= r -> a * r <= b -> a <= b.
Proof. intros. nia. Qed.

Lemma share_le q pc r p : 0 < pc -> q * pc < r + pc -> r <= pc * p -> q <= p.
Proof. intros. nia. Qed.

Section D.
Variables (M N K p mc kc nc m_r n_r : Z).
Hypothesis HM : 0 <= M < 2 ^ 31.
Hypothesis HN : 0 <= N < 2 ^ 31.
Hypothesis HK : 0 <= K < 2 ^ 31.
Hypothesis Hp : 0 < p < 2 ^ 31.
Hypothesis Hmc : 0 < mc < 2 ^ 31.
Hypothesis Hkc : 0 < kc < 2 ^ 31.
Hypothesis Hnc : 0 < nc < 2 ^ 31.
Hypothesis Hmr : 0 < m_r < 2 ^ 31.
Hypothesis Hnr : 0 < n_r < 2 ^ 31.
Hypothesis Dm : (m_r | mc).

(** the share of the remaining rows in KMN *)
Lemma kmn_share : p * mc < 2 ^ 31 ->
  let r := Z.rem M (p * mc) in let u := cdiv r m_r in let pc := cdiv u p in
  let pl := if truthy pc then cdiv u pc else 0 in
  0 <= u /\ 0 <= pc /\ 0 <= pl /\ pc * m_r <= u * m_r /\ u <= pl * pc /\ pl * pc < 2 ^ 31 /\
  pl * pc - u <= pc /\ (pc - (pl * pc - u)) * m_r <= u * m_r /\ pc < 2 ^ 31.
Proof.
  intros L r u pc pl. assert (Hpm : 0 < p * mc) by nia.
  destruct (qr M (p * mc)) as (Q1 & Q2 & Q3 & Q4 & Q5 & Q6); try lia. fold r in Q1, Q2, Q4, Q5, Q6.
  destruct (cd_le r m_r) as [U1 U2]; try lia. fold u in U1, U2.
  destruct (cd_le u p) as [P1 P2]; try lia. fold pc in P1, P2.
  assert (pc * m_r <= u * m_r) by (apply Z.mul_le_mono_nonneg_r; lia).
  destruct (Z.eq_dec r 0) as [E|E].
  - assert (u = 0) by (unfold u; now rewrite E, cdiv_0 by lia).
    assert (pc = 0) by lia. unfold pl. rewrite H1. cbn. repeat split; lia.
  - destruct (core_split r p m_r mc) as (C1 & C2 & C3 & C4 & C5); try lia; auto.
    fold u in C1, C2, C3, C4. fold pc in C1, C2, C3.
    assert (Ep : pl = cdiv u pc).
    { unfold pl, truthy. destruct (Z.eqb_spec pc 0); [lia|reflexivity]. }
    rewrite <- Ep in C2. pose proof (cdiv_spec u pc C1) as C6. rewrite <- Ep in C6.
    assert (pl * pc <= p * mc).
    { pose proof (le_of_mul pc m_r mc ltac:(lia) ltac:(lia) C3). rewrite (Z.mul_comm p mc), (Z.mul_comm pl pc).
      apply prod_bound; lia. }
    assert (pl * pc - u <= pc) by lia.
    assert ((pc - (pl * pc - u)) * m_r <= u * m_r) by (apply Z.mul_le_mono_nonneg_r; lia).
    repeat split; lia.
Qed.

Lemma dims_KMN_32 x :
  p * mc < 2 ^ 31 -> dims_KMN M N K p mc kc nc m_r n_r = CRet x -> M_padded x < 2 ^ 31 -> N_padded x < 2 ^ 31 ->
  dims_KMN32 M N K p mc kc nc m_r n_r = CRet x.
Proof.
  intros L E LM LN. assert (Hpm : 0 < p * mc) by nia.
  destruct (qr M (p * mc)) as (M1 & M2 & M3 & M4 & M5 & M6); try lia.
  destruct (qr N nc) as (N1 & N2 & N3 & N4 & N5 & N6); try lia.
  destruct (qr K kc) as (K1 & K2 & K3 & K4 & K5 & K6); try lia.
  pose proof (kmn_share L) as S.
  unfold dims_KMN in E. rewrite !imod_pos, !idiv_pos in E by lia. cbn [cbind] in E.
  rewrite !(iceil_pos _ m_r), !(iceil_pos _ n_r) in E by lia. cbn [cbind] in E.
  rewrite (iceil_pos _ p) in E by lia. cbn [cbind] in E. rewrite pl_comp' in E. cbn [cbind] in E.
  injection E as <-. cbn [M_padded N_padded] in LM, LN. cbv zeta in S.
  set (r := Z.rem M (p * mc)) in *. set (u := cdiv r m_r) in *. set (pc := cdiv u p) in *.
  set (pl := if truthy pc then cdiv u pc else 0) in *. destruct S as (S1 & S2 & S3 & S4 & S5 & S6 & S7 & S8 & S9).
  set (rn := Z.rem N nc) in *. set (rk := Z.rem K kc) in *.
  destruct (cd_le rn n_r) as [U1 U2]; try lia. set (un := cdiv rn n_r) in *.
  pose proof (mul_ge0 (Z.quot M (p * mc)) (p * mc) ltac:(lia) ltac:(lia)) as PQ.
  unfold dims_KMN32.
  rewrite cint_bind by (safe; fold rk; lia). cbn [ival]. fold rk.
  rewrite cint_bind by (safe; fold rn; lia). cbn [ival]. fold rn.
  rewrite cint_bind by (safe; fold r; lia). cbn [ival]. fold r.
  rewrite (iceil_pos _ m_r) by lia. cbn [cbind]. fold u.
  rewrite (iceil_pos _ p) by lia. cbn [cbind]. fold pc. rewrite pl_comp'. cbn [cbind]. fold pl.
  rewrite (iceil_pos _ n_r) by lia. cbn [cbind]. fold un.
  rewrite cint_bind by (safe; lia). cbn [ival].
  rewrite cint_bind by (safe; lia). cbn [ival].
  rewrite cint_bind by (safe; lia). cbn [ival].
  rewrite cint_bind by (safe; fold r; lia). cbn [ival].
  rewrite cint_bind by (safe; fold rn; lia). cbn [ival].
  rewrite cint_bind by (safe; fold rk; lia). cbn [ival].
  rewrite cint_bind by (safe; try lia). cbn [ival].
  rewrite cint_bind by (safe; fold rn; try lia). cbn [ival]. reflexivity.
Qed.

(** the share of the remaining depth in MKN and NKM *)
Lemma k_share : p * kc < 2 ^ 31 ->
  let r := Z.rem K (p * kc) in let pc := cdiv r p in let pl := if truthy pc then cdiv r pc else 0 in
  0 <= pc /\ 0 <= pl /\ pl <= p /\ 0 <= pc * pl /\ pc * (pl - 1) <= r /\ 0 <= r - pc * (pl - 1) /\ 0 <= pc * (pl - 1) /\
  r < 2 ^ 31.
Proof.
  intros L r pc pl. assert (Hpk : 0 < p * kc) by nia.
  destruct (qr K (p * kc)) as (Q1 & Q2 & Q3 & Q4 & Q5 & Q6); try lia. fold r in Q1, Q2, Q4, Q5, Q6.
  destruct (cd_le r p) as [P1 P2]; try lia. fold pc in P1, P2.
  unfold pl, truthy. destruct (Z.eqb_spec pc 0) as [E|E]; cbn [negb].
  - rewrite E. lia.
  - destruct (cd_le r pc) as [R1 R2]; try lia. set (q := cdiv r pc) in *.
    assert (q <= p) by (apply (share_le q pc r p); lia).
    assert (1 <= q). { destruct (Z.eq_dec q 0) as [E0|]; [rewrite E0 in R2|]; lia. }
    pose proof (mul_ge0 pc q ltac:(lia) ltac:(lia)). pose proof (mul_ge0 pc (q - 1) ltac:(lia) ltac:(lia)).
    repeat split; lia.
Qed.

Lemma last_safe a b c : 0 <= a < 2 ^ 31 -> 0 <= b -> 0 <= c < 2 ^ 31 -> 0 <= b * (c - 1) <= a ->
  isafe (IxSub (IxV a) (IxMul (IxV b) (IxSub (IxV c) (IxV 1)))) = true.
Proof. intros. cbn [isafe ival]. rewrite !in_int_ok by lia. reflexivity. Qed.

Lemma dims_MKN_32 x :
  p * kc < 2 ^ 31 -> dims_MKN M N K p mc kc nc m_r n_r = CRet x -> M_padded x < 2 ^ 31 -> N_padded x < 2 ^ 31 ->
  dims_MKN32 M N K p mc kc nc m_r n_r = CRet x.
Proof.
  intros L E LM LN. assert (Hpk : 0 < p * kc) by nia.
  destruct (qr M mc) as (M1 & M2 & M3 & M4 & M5 & M6); try lia.
  destruct (qr N nc) as (N1 & N2 & N3 & N4 & N5 & N6); try lia.
  destruct (qr K (p * kc)) as (K1 & K2 & K3 & K4 & K5 & K6); try lia.
  pose proof (k_share L) as S.
  unfold dims_MKN in E. rewrite !imod_pos, !idiv_pos in E by lia. cbn [cbind] in E.
  rewrite !(iceil_pos _ m_r), !(iceil_pos _ n_r) in E by lia. cbn [cbind] in E.
  rewrite (iceil_pos _ p) in E by lia. cbn [cbind] in E. rewrite pl_comp' in E. cbn [cbind] in E.
  injection E as <-. cbn [M_padded N_padded] in LM, LN. cbv zeta in S.
  set (r := Z.rem K (p * kc)) in *. set (pc := cdiv r p) in *.
  set (pl := if truthy pc then cdiv r pc else 0) in *. destruct S as (S1 & S2 & S3 & S4 & S5 & S6 & S7 & S8).
  set (rn := Z.rem N nc) in *. set (rm := Z.rem M mc) in *.
  destruct (cd_le rn n_r) as [U1 U2]; try lia. set (un := cdiv rn n_r) in *.
  destruct (cd_le rm m_r) as [V1 V2]; try lia. set (um := cdiv rm m_r) in *.
  pose proof (mul_ge0 (Z.quot M mc) mc ltac:(lia) ltac:(lia)) as PQ.
  unfold dims_MKN32.
  rewrite cint_bind by (safe; fold r; lia). cbn [ival]. fold r.
  rewrite cint_bind by (safe; fold rm; lia). cbn [ival]. fold rm.
  rewrite cint_bind by (safe; fold rn; lia). cbn [ival]. fold rn.
  rewrite (iceil_pos _ p) by lia. cbn [cbind]. fold pc. rewrite pl_comp'. cbn [cbind]. fold pl.
  rewrite (iceil_pos _ n_r) by lia. cbn [cbind]. fold un.
  rewrite cint_bind by (safe; lia). cbn [ival].
  rewrite cint_bind by (apply last_safe; lia). cbn [ival].
  rewrite (iceil_pos _ m_r) by lia. cbn [cbind]. fold um.
  rewrite cint_bind by (safe; lia). cbn [ival].
  rewrite cint_bind by (safe; fold rm; lia). cbn [ival].
  rewrite cint_bind by (safe; fold r; lia). cbn [ival].
  rewrite cint_bind by (safe; fold rn; lia). cbn [ival].
  rewrite cint_bind by (safe; fold rm; try lia). cbn [ival].
  rewrite cint_bind by (safe; fold rn; try lia). cbn [ival]. reflexivity.
Qed.

Lemma dims_NKM_32 x :
  p * kc < 2 ^ 31 -> p * mc < 2 ^ 31 -> dims_NKM M N K p mc kc nc m_r n_r = CRet x ->
  M_padded x < 2 ^ 31 -> N_padded x < 2 ^ 31 ->
  dims_NKM32 M N K p mc kc nc m_r n_r = CRet x.
Proof.
  intros L L' E LM LN. assert (Hpk : 0 < p * kc) by nia. assert (Hpm : 0 < p * mc) by nia.
  destruct (qr M (p * mc)) as (M1 & M2 & M3 & M4 & M5 & M6); try lia.
  destruct (qr N nc) as (N1 & N2 & N3 & N4 & N5 & N6); try lia.
  destruct (qr K (p * kc)) as (K1 & K2 & K3 & K4 & K5 & K6); try lia.
  pose proof (k_share L) as S.
  unfold dims_NKM in E. rewrite !imod_pos, !idiv_pos in E by lia. cbn [cbind] in E.
  rewrite !(iceil_pos _ m_r), !(iceil_pos _ n_r) in E by lia. cbn [cbind] in E.
  rewrite (iceil_pos _ p) in E by lia. cbn [cbind] in E. rewrite pl_comp' in E. cbn [cbind] in E.
  injection E as <-. cbn [M_padded N_padded] in LM, LN. cbv zeta in S.
  set (r := Z.rem K (p * kc)) in *. set (pc := cdiv r p) in *.
  set (pl := if truthy pc then cdiv r pc else 0) in *. destruct S as (S1 & S2 & S3 & S4 & S5 & S6 & S7 & S8).
  set (rn := Z.rem N nc) in *. set (rm := Z.rem M (p * mc)) in *.
  destruct (cd_le rn n_r) as [U1 U2]; try lia. set (un := cdiv rn n_r) in *.
  destruct (cd_le rm m_r) as [V1 V2]; try lia. set (um := cdiv rm m_r) in *.
  pose proof (mul_ge0 (Z.quot M (p * mc)) (p * mc) ltac:(lia) ltac:(lia)) as PQ.
  unfold dims_NKM32.
  rewrite cint_bind by (safe; fold r; lia). cbn [ival]. fold r.
  rewrite cint_bind by (safe; fold rm; lia). cbn [ival]. fold rm.
  rewrite cint_bind by (safe; fold rn; lia). cbn [ival]. fold rn.
  rewrite (iceil_pos _ p) by lia. cbn [cbind]. fold pc. rewrite pl_comp'. cbn [cbind]. fold pl.
  rewrite (iceil_pos _ n_r) by lia. cbn [cbind]. fold un.
  rewrite cint_bind by (safe; lia). cbn [ival].
  rewrite cint_bind by (apply last_safe; lia). cbn [ival].
  rewrite (iceil_pos _ m_r) by lia. cbn [cbind]. fold um.
  rewrite cint_bind by (safe; lia). cbn [ival].
  rewrite cint_bind by (safe; fold rm; lia). cbn [ival].
  rewrite cint_bind by (safe; fold r; lia). cbn [ival].
  rewrite cint_bind by (safe; fold rn; lia). cbn [ival].
  rewrite cint_bind.
  2:{ cbn [isafe ival]. fold rm. rewrite !in_int_ok by lia. destruct (Z.eqb_spec (p * mc) 0); [lia|reflexivity]. }
  cbn [ival].
  rewrite cint_bind by (safe; fold rn; try lia). cbn [ival]. reflexivity.
Qed.

End D.

(** ** Sizes of the packed matrices *)

Lemma padded_eq M t m_r : 0 <= M -> 0 < t -> 0 < m_r ->
  let w := Z.quot M t * t + cdiv (Z.rem M t) m_r * m_r in M <= w < M + m_r.
Proof.
  intros HM Ht Hm. destruct (qr M t) as (M1 & M2 & M3 & M4 & M5 & M6); try lia.
  destruct (cd_le (Z.rem M t) m_r) as [U1 U2]; lia.
Qed.

Lemma Mp_32 M p x m_r s :
  let t := match s with MKN => m_c x | _ => p * m_c x end in
  let w := Z.quot M t * t + cdiv (Z.rem M t) m_r * m_r in
  0 <= M < 2 ^ 31 -> 0 < p < 2 ^ 31 -> 0 < m_r < 2 ^ 31 -> 0 < m_c x < 2 ^ 31 -> t < 2 ^ 31 -> s <> NA ->
  w < 2 ^ 31 -> M_padded32 M p x m_r s = CRet w.
Proof.
  intros t w HM Hp Hm Hc Ht Hs Hw.
  assert (T : 0 < t) by (unfold t; destruct s; nia).
  destruct (qr M t) as (M1 & M2 & M3 & M4 & M5 & M6); try lia.
  destruct (cd_le (Z.rem M t) m_r) as [U1 U2]; try lia.
  pose proof (mul_ge0 (Z.quot M t) t ltac:(lia) ltac:(lia)) as PQ.
  unfold M_padded32. destruct s; try congruence; subst t; cbv iota in *.
  - rewrite cint_bind by (safe; lia). cbn [ival]. rewrite iceil_pos by lia. cbn [cbind].
    rewrite cint_ok by (safe; lia). cbn [ival]. f_equal. unfold w. ring.
  - rewrite cint_bind by (safe; lia). cbn [ival]. rewrite iceil_pos by lia. cbn [cbind].
    rewrite cint_ok by (safe; lia). cbn [ival]. f_equal.
  - rewrite cint_bind by (safe; lia). cbn [ival]. rewrite iceil_pos by lia. cbn [cbind].
    rewrite cint_ok by (safe; lia). cbn [ival]. f_equal. unfold w. ring.
Qed.

Lemma Np_32 N x n_r :
  let w := N - Z.rem N (n_c x) + cdiv (Z.rem N (n_c x)) n_r * n_r in
  0 <= N < 2 ^ 31 -> 0 < n_r < 2 ^ 31 -> 0 < n_c x < 2 ^ 31 -> w < 2 ^ 31 -> N_padded32 N x n_r = CRet w.
Proof.
  intros w HN Hn Hc Hw.
  destruct (qr N (n_c x)) as (M1 & M2 & M3 & M4 & M5 & M6); try lia.
  destruct (cd_le (Z.rem N (n_c x)) n_r) as [U1 U2]; try lia.
  unfold N_padded32. rewrite cint_bind by (safe; lia). cbn [ival]. rewrite iceil_pos by lia. cbn [cbind].
  rewrite cint_bind by (safe; lia). cbn [ival]. rewrite cint_ok by (safe; lia). reflexivity.
Qed.

(** ** Tile sizes *)

Lemma sub_rem_safe a m : in32 a -> 0 < m -> isafe (IxSub (IxV a) (IxRem (IxV a) (IxV m))) = true /\ in32 (a - Z.rem a m).
Proof.
  intros Ha Hm. unfold in32 in *.
  assert (B : Z.abs (a - Z.rem a m) <= Z.abs a /\ Z.abs (Z.quot a m) <= Z.abs a /\
              (a < 0 -> a - Z.rem a m <= 0 /\ Z.quot a m <= 0)).
  { pose proof (Z.quot_rem a m ltac:(lia)) as E.
    destruct (Z_le_gt_dec 0 a).
    - pose proof (Z.rem_bound_pos a m ltac:(lia) Hm). pose proof (Z.quot_pos a m ltac:(lia) Hm). nia.
    - pose proof (Z.rem_opp_l a m ltac:(lia)). pose proof (Z.quot_opp_l a m ltac:(lia)).
      pose proof (Z.rem_bound_pos (- a) m ltac:(lia) Hm). pose proof (Z.quot_pos (- a) m ltac:(lia) Hm). nia. }
  split; [|lia]. cbn [isafe ival]. rewrite !in_int_ok by lia.
  destruct (Z.eqb_spec m 0); [lia|reflexivity].
Qed.

Lemma clip_32 M p m_r t : 0 <= M < 2 ^ 31 -> 0 < p < 2 ^ 31 -> 0 < m_r < 2 ^ 31 -> p * m_r < 2 ^ 31 ->
  (m_r | t) -> in32 (p * t) ->
  clip_mc32 M p m_r t = clip_mc M p m_r t /\
  (forall v, clip_mc M p m_r t = CRet v -> in32 (p * v) /\ in32 v).
Proof.
  intros HM Hp Hm L Dt Lt. unfold in32 in *. unfold clip_mc32, clip_mc.
  assert (T : in32 t) by (unfold in32; nia). unfold in32 in T.
  rewrite cint_bind by (safe; lia). cbn [ival].
  destruct (Z.ltb_spec M (p * m_r)) as [C1|C1].
  { split; [reflexivity|]. intros v [= <-]. lia. }
  rewrite cint_bind by (cbn [isafe ival]; rewrite in_int_ok by lia; reflexivity). cbn [ival].
  destruct (Z.ltb_spec M (p * t)) as [C2|C2].
  2:{ split; [reflexivity|]. intros v [= <-]. lia. }
  destruct (qr M p) as (M1 & M2 & M3 & M4 & M5 & M6); try lia.
  rewrite cint_bind by (safe; lia). rewrite idiv_pos by lia. cbn [ival cbind].
  set (a := Z.quot M p) in *.
  destruct (Z.ltb_spec a m_r) as [C3|C3].
  { split; [reflexivity|]. intros v [= <-]. lia. }
  rewrite imod_pos by lia. cbn [cbind].
  destruct (qr a m_r) as (A1 & A2 & A3 & A4 & A5 & A6); try lia.
  assert (B : a + (m_r - Z.rem a m_r) <= t).
  { assert (a < t) by nia. replace (a + (m_r - Z.rem a m_r)) with (m_r * Z.quot a m_r + m_r) by lia.
    apply mult_step; auto; try lia. apply Z.divide_factor_l. }
  split.
  - rewrite cint_ok; [reflexivity|]. safe; lia.
  - intros v [= <-]. set (w := a + (m_r - Z.rem a m_r)) in *. assert (0 < w) by lia.
    pose proof (prod_bound p w p t ltac:(lia) ltac:(lia)). pose proof (mul_ge0 p w ltac:(lia) ltac:(lia)). lia.
Qed.

Lemma cache_dims_32 F M N K p c s mcu kcu ncu :
  0 <= M < 2 ^ 31 -> 0 < p < 2 ^ 31 -> 0 < mr c < 2 ^ 31 -> 0 < nr c < 2 ^ 31 -> sizing32 F c p ->
  get_cache_dims32 F M N K p c s mcu kcu ncu = get_cache_dims F M N K p c s mcu kcu ncu.
Proof.
  intros HM Hp Hm Hn [S1 S2 S3 S4 S5 S6]. unfold get_cache_dims32, get_cache_dims.
  rewrite cint_bind by (safe; nia). cbn [ival].
  rewrite cint_bind by (safe; lia). cbn [ival].
  set (m2 := fp_mcL2 F (nr c) (L2 c)) in *. set (m3 := fp_mcL3 F (L3 c) (ncores c)) in *.
  destruct (sub_rem_safe m2 (mr c) S1) as [R1 R2]; try lia.
  destruct (sub_rem_safe m3 (mr c) S2) as [R3 R4]; try lia.
  rewrite (cint_bind _ _ R1). cbn [ival]. rewrite (cint_bind _ _ R3). cbn [ival].
  rewrite !(imod_pos _ (mr c)) by lia. cbn [cbind].
  set (t := m2 - Z.rem m2 (mr c)) in *. set (t3 := m3 - Z.rem m3 (mr c)) in *.
  assert (Dt : (mr c | t)).
  { exists (Z.quot m2 (mr c)). unfold t. pose proof (Z.quot_rem m2 (mr c) ltac:(lia)). lia. }
  destruct (clip_32 M p (mr c) t) as [C1 C2]; auto. rewrite C1.
  destruct (clip_mc M p (mr c) t) as [v| |] eqn:Ec; cbn [cbind]; auto.
  destruct (C2 v eq_refl) as [V1 V2].
  assert (Es : match s with
     | NA => do _ <- cint (p * v); CRet (derive_schedule F M N K p v (t3, t)) | _ => CRet s end =
     CRet (match s with NA => derive_schedule F M N K p v (t3, t) | _ => s end)).
  { destruct s; auto. rewrite cint_bind; auto. cbn [isafe ival]. rewrite in_int_ok by apply V1. reflexivity. }
  rewrite Es. cbn [cbind].
  set (s' := match s with NA => derive_schedule F M N K p v (t3, t) | _ => s end).
  destruct (truthy mcu && truthy ncu && truthy kcu)%bool; auto.
  assert (G : forall al q, match ofopt (fp_mul F al q v) with CRet w => in32 w | _ => True end).
  { intros al q. destruct (fp_mul F al q v) eqn:Ef; cbn; auto. eapply S3; eauto. }
  destruct s'; auto.
  - specialize (G (t3, t) p). destruct (ofopt (fp_mul F (t3, t) p v)) as [w| |]; cbn [cbind]; auto.
    destruct (sub_rem_safe w (nr c) G) as [W1 W2]; try lia.
    rewrite (cint_bind _ _ W1). cbn [ival]. rewrite imod_pos by lia. reflexivity.
  - specialize (G (t3, t) p). destruct (ofopt (fp_mul F (t3, t) p v)) as [w| |]; cbn [cbind]; auto.
    destruct (sub_rem_safe w (nr c) G) as [W1 W2]; try lia.
    rewrite (cint_bind _ _ W1). cbn [ival]. rewrite imod_pos by lia. reflexivity.
  - destruct (sub_rem_safe v (nr c) V2) as [W1 W2]; try lia.
    rewrite (cint_bind _ _ W1). cbn [ival]. rewrite imod_pos by lia. cbn [cbind].
    specialize (G (t3, t) 1). destruct (ofopt (fp_mul F (t3, t) 1 v)) as [w| |]; cbn [cbind]; auto.
    destruct (sub_rem_safe w (mr c) G) as [W3 W4]; try lia.
    rewrite (cint_bind _ _ W3). cbn [ival]. rewrite imod_pos by lia. reflexivity.
Qed.
