(** * Caller-given tiles that are not multiples of the register tile: an element of C that is
      never computed. *)

From Coq Require Import ZArith List Bool Lia.
From Verif Require Import Lang Lang_facts ModelSizing ModelKernel ModelPack ModelSched ModelTop Spec SpecTop SpecMisfit
  Sizing_facts Init_facts Keep_facts Stale_facts Resid_facts.
Import ListNotations.
Open Scope Z_scope.
Local Transparent pbind.

(** ** One cell of the packing buffer and one of C *)

Section Cells.

Variable S : scalar.
Notation T := (elt S).
Variables (M N m_r n_r x0 r0 c0 : Z) (m0 : mem T).
Hypothesis HN : 0 < N.
Hypothesis Hmr : 0 < m_r.
Hypothesis Hnr : 0 < n_r.
Hypothesis Hr0 : 0 <= r0.
Hypothesis Hc0 : 0 <= c0 < N.

(** Only C counts. *)
Definition I2 : cellinv T := fun b x v =>
  match b with
  | BufC => x = r0 * N + c0 -> v = Some (zero S) \/ v = dat m0 BufC x
  | _ => True
  end.

(** Moreover cell [x0] of the packing buffer of core 0 is 0. *)
Definition I1 : cellinv T := fun b x v =>
  match b with
  | BufCp c => c = 0 -> x = x0 -> v = Some (zero S)
  | BufC => x = r0 * N + c0 -> v = Some (zero S) \/ v = dat m0 BufC x
  | _ => True
  end.

Lemma I1_any b : match b with BufC | BufCp _ => False | _ => True end -> anything S I1 b.
Proof. intros H x v. destruct b; cbn; tauto. Qed.
Lemma I2_any b : b <> BufC -> anything S I2 b.
Proof. intros H x v. destruct b; cbn; tauto. Qed.

Lemma I1_I2 m : minv I1 m -> minv I2 m.
Proof. apply minv_mono. intros b i v. destruct b; cbn; tauto. Qed.

Lemma I1_start m : (forall i, live m (BufCp i) = None) -> (forall x, dat m BufC x = dat m0 BufC x) -> minv I1 m.
Proof.
  intros H H' b i Hb. destruct b; cbn [I1]; auto. destruct Hb as [Hb|Hb]; [|discriminate]. rewrite H in Hb. contradiction.
Qed.

(** Where element (r, c) with c < N is. *)
Lemma place_eq r c : 0 <= c < N -> r * N + c = r0 * N + c0 -> r = r0 /\ c = c0.
Proof. intros H E. assert (r = r0) by nia. nia. Qed.

(** A block that begins below or to the right of the element. *)
Lemma unpack_away (I : cellinv T) rb cb C Cp m1 m2 mc nc :
  (forall x v, x <> r0 * N + c0 -> I BufC x (Some v)) ->
  0 <= cb -> 0 <= rb -> r0 < rb \/ c0 < cb -> C = (BufC, rb * N + cb) ->
  tkeep I (unpack_ob_C_single_buf S C Cp M N m1 cb m2 mc nc m_r n_r) (fun _ => True).
Proof.
  intros HI Hcb Hrb Hf ->. apply keep_unpack; auto. intros a b i j v Ha Ha' Hb Hb' Hi Hj G1 G2 _. cbn [fst snd].
  apply HI. intros E.
  replace (rb * N + cb + (a * n_r + b * m_r * N + i * N + j)) with ((rb + b * m_r + i) * N + (cb + a * n_r + j)) in E by ring.
  apply place_eq in E; [nia|]. nia.
Qed.

(** The block with the element at tile (a0, b0), first row and column: it takes what is in
    [x0]. *)
Lemma unpack_at a0 b0 m1 m2 mc nc C Cp : r0 = b0 * m_r -> c0 = a0 * n_r ->
  x0 = (a0 * Z.of_nat (loop_count 0 mc m_r) + b0) * m_r * n_r ->
  C = (BufC, 0) -> Cp = (BufCp 0, 0) ->
  tkeep I1 (unpack_ob_C_single_buf S C Cp M N m1 0 m2 mc nc m_r n_r) (fun _ => True).
Proof.
  intros Er Ec Ex -> ->. apply keep_unpack; auto. intros a b i j v Ha Ha' Hb Hb' Hi Hj G1 G2 HI. cbn [fst snd I1] in *.
  intros E. left. apply HI; [auto|].
  replace (0 + (a * n_r + b * m_r * N + i * N + j)) with ((b * m_r + i) * N + (a * n_r + j)) in E by ring.
  assert (0 <= a * n_r) by (apply Z.mul_nonneg_nonneg; lia).
  apply place_eq in E; [|lia]. destruct E as (E1 & E2). rewrite Er in E1. rewrite Ec in E2.
  assert (D : forall u v w r, 0 < w -> 0 <= r < w -> u * w + r = v * w -> u = v /\ r = 0).
  { clear. intros u v w r Hw Hr E. assert (u = v) by nia. nia. }
  destruct (D _ _ _ _ Hmr Hi E1) as (-> & ->). destruct (D _ _ _ _ Hnr Hj E2) as (-> & ->). rewrite Ex. ring.
Qed.

Lemma tiles_avoid kk kern Ap Bp c cb mt nt kt : within S I1 kk kern ->
  (c = 0 -> forall a b e, 0 <= a < Z.quot nt n_r -> 0 <= b < Z.quot mt m_r -> 0 <= e < kk ->
     cb + (a * mt * n_r + b * m_r * n_r) + e <> x0) ->
  tkeep I1 (tile_loops S kern Ap Bp (BufCp c, cb) mt nt kt m_r n_r) (fun _ => True).
Proof.
  intros HK H. apply (keep_tiles S I1 kk); [exact HK|]. intros a b e v Ha Hb He. cbn [fst snd I1]. intros Hc E.
  exfalso. exact (H Hc a b e Ha Hb He E).
Qed.

Lemma tiles_I2 kk kern Ap Bp c cb mt nt kt : within S I2 kk kern ->
  tkeep I2 (tile_loops S kern Ap Bp (BufCp c, cb) mt nt kt m_r n_r) (fun _ => True).
Proof. intros HK. apply (keep_tiles S I2 kk); [exact HK|]. intros. exact Logic.I. Qed.

(** The two ways a block can miss an element.  [q] whole tiles fit the height, and not exactly:
    tile (0, q) is not computed. *)
Lemma miss_rows mt nt kk : kk <= m_r * n_r -> 0 < mt -> 
  forall a b e, 0 <= a < Z.quot nt n_r -> 0 <= b < Z.quot mt m_r -> 0 <= e < kk -> ~ (m_r | mt) ->
  0 + (a * mt * n_r + b * m_r * n_r) + e <> mt / m_r * m_r * n_r.
Proof.
  intros Hk Hm a b e Ha Hb He Hd E. rewrite Z.quot_div_nonneg in Hb by lia.
  pose proof (Z.div_mod mt m_r ltac:(lia)) as D. pose proof (Z.mod_pos_bound mt m_r Hmr) as B.
  assert (mt mod m_r <> 0) by (intros Z0; apply Hd; apply Z.mod_divide; lia).
  set (q := mt / m_r) in *. set (w := mt mod m_r) in *. clearbody q w.
  assert (a = 0 \/ 1 <= a) as [-> | Ha'] by lia; [nia|].
  assert (mt * n_r <= a * mt * n_r) by nia. assert (q * m_r * n_r < mt * n_r) by nia. nia.
Qed.

(** [q] whole tiles fit the width: tile (q, 0) is not computed. *)
Lemma miss_columns mt nt kk : kk <= m_r * n_r -> 0 < nt ->
  forall a b e, 0 <= a < Z.quot nt n_r -> 0 <= b < Z.quot mt m_r -> 0 <= e < kk -> (m_r | mt) \/ nt < n_r ->
  0 + (a * mt * n_r + b * m_r * n_r) + e <> nt / n_r * mt * n_r.
Proof.
  intros Hk Hn a b e Ha Hb He Hd E. rewrite (Z.quot_div_nonneg nt) in Ha by lia.
  destruct Hd as [[u Eu]|Hd]; [|rewrite Z.div_small in Ha by lia; lia].
  set (q := nt / n_r) in *. clearbody q.
  assert (Hu : b < u). { rewrite Eu, Z.quot_mul in Hb by lia. lia. }
  assert ((a + 1) * mt * n_r <= q * mt * n_r). { assert (0 <= mt) by nia. nia. }
  assert (b * m_r * n_r + e < mt * n_r) by nia. nia.
Qed.

End Cells.

(** ** The sizing structure for any positive tiles *)

Section Dims.

Lemma user_dims F M N K p c s mcu kcu ncu x c' : 0 < mr c -> 0 < p -> 0 < mcu -> 0 < kcu -> 0 < ncu -> s <> NA ->
  init_block_dims F M N K p c s mcu kcu ncu = CRet (x, c') ->
  dims_of s M N K p mcu kcu ncu (mr c) (nr c) = CRet x /\
  mr c' = mr c /\ nr c' = nr c /\ m_map c' = m_map c /\ n_map c' = n_map c.
Proof.
  intros Hmr Hp Hm Hk Hn Hs E. unfold init_block_dims, get_cache_dims in E. cbv zeta in E.
  rewrite !imod_pos in E by lia. cbn [cbind] in E.
  destruct (clip_mc _ _ _ _) as [v| |]; try discriminate. cbn [cbind] in E.
  replace (truthy mcu && truthy ncu && truthy kcu) with true in E.
  2:{ unfold truthy. destruct (Z.eqb_spec mcu 0), (Z.eqb_spec ncu 0), (Z.eqb_spec kcu 0); try lia; reflexivity. }
  cbn [cbind fst snd cd_sch cd_m_c cd_k_c cd_n_c] in E.
  destruct s; try congruence; cbn [dims_of]; cbn [cd_sch cd_m_c cd_k_c cd_n_c fst snd cbind] in E.
  all: match type of E with cbind ?d _ = _ => destruct d as [y| |]; try discriminate end.
  all: cbn [cbind] in E; injection E as <- <-; repeat split; reflexivity.
Qed.

(** A dimension of D cut into [nb] pieces of [t], the last one shorter if [pad]. *)
Lemma cut_facts D t : 0 < D -> 0 < t ->
  let pad := pad01 (Z.rem D t) in let nb := Z.quot D t + pad in
  1 <= nb /\ (t <= D -> is_last 0 nb pad = false) /\ (D < t -> is_last 0 nb pad = true /\ nb = 1) /\
  (forall b, 0 <= b < nb -> (if is_last b nb pad then D - Z.rem D t else b * t) = b * t) /\
  (forall b, 0 <= b < nb -> b * t < D).
Proof.
  intros HD Ht pad nb.
  pose proof (Z.quot_rem D t ltac:(lia)) as E. pose proof (Z.rem_bound_pos D t ltac:(lia) Ht) as Hr.
  assert (Hq : 0 <= Z.quot D t) by (apply Z.quot_pos; lia).
  unfold nb, pad, is_last, pad01, truthy in *. clear nb pad.
  set (q := Z.quot D t) in *. set (r := Z.rem D t) in *. clearbody q r.
  destruct (Z.eqb_spec r 0) as [Er|Er]; cbn [negb].
  - assert (1 <= q) by nia. split; [lia|]. split; [intros; now rewrite andb_false_r|]. split; [intros; nia|].
    split; intros b Hb; [now rewrite andb_false_r|nia].
  - split; [lia|]. split; [|split; [|split]].
    + intros L. assert (1 <= q) by nia. replace (0 =? q + 1 - 1) with false by lia. reflexivity.
    + intros L. assert (q = 0) by nia. split; [|lia]. replace (0 =? q + 1 - 1) with true by lia. reflexivity.
    + intros b Hb. destruct (Z.eqb_spec b (q + 1 - 1)); cbn; [nia|reflexivity].
    + intros b Hb. nia.
Qed.

Variables (M N K p mc kc nc m_r n_r : Z).
Hypothesis HM : 0 < M.
Hypothesis HN : 0 < N.
Hypothesis HK : 0 <= K.
Hypothesis Hp : 0 < p.
Hypothesis Hmc : 0 < mc.
Hypothesis Hkc : 0 < kc.
Hypothesis Hnc : 0 < nc.
Hypothesis Hmr : 0 < m_r.
Hypothesis Hnr : 0 < n_r.

(** What the three schedules have in common; [tM] is the height of a block of rows. *)
Record raw (tM : Z) (x : blk_dims) : Prop := Raw {
  rw_nc : n_c x = nc; rw_mc : m_c x = mc;
  rw_mpad : m_pad x = pad01 (Z.rem M tM); rw_Mb : Mb x = Z.quot M tM + m_pad x;
  rw_npad : n_pad x = pad01 (Z.rem N nc); rw_Nb : Nb x = Z.quot N nc + n_pad x;
  rw_m1 : (m_r | m_c1 x); rw_m1n : 0 <= m_c1 x; rw_m1p : M < tM -> 0 < m_c1 x;
  rw_n1 : (n_r | n_c1 x); rw_n1p : N < nc -> 0 < n_c1 x }.

Lemma cdiv_nonneg a b : 0 <= a -> 0 < b -> 0 <= cdiv a b.
Proof. intros Ha Hb. pose proof (cdiv_spec a b Hb). nia. Qed.

Lemma raw_KMN x : dims_KMN M N K p mc kc nc m_r n_r = CRet x ->
  raw (p * mc) x /\ sch x = KMN /\ (m_r | m_c1_last_core x) /\ (M < p * mc -> 0 < m_c1_last_core x <= m_c1 x).
Proof.
  unfold dims_KMN. assert (Hpm : 0 < p * mc) by nia.
  rewrite !imod_pos, !idiv_pos by lia. cbn [cbind].
  rewrite !(iceil_pos _ m_r), !(iceil_pos _ n_r) by lia. cbn [cbind]. rewrite (iceil_pos _ p) by lia. cbn [cbind].
  pose proof (Z.rem_bound_pos M (p * mc) ltac:(lia) Hpm) as B.
  pose proof (cdiv_nonneg (Z.rem M (p * mc)) m_r ltac:(lia) Hmr) as B1.
  assert (Q : M < p * mc -> 0 < cdiv (Z.rem M (p * mc)) m_r).
  { intros L. rewrite Z.rem_small by lia. apply cdiv_pos; lia. }
  set (mrr := cdiv (Z.rem M (p * mc)) m_r) in *.
  assert (Q2 : M < p * mc -> 0 < cdiv mrr p) by (intros L; apply cdiv_pos; [apply Q; auto|lia]).
  pose proof (cdiv_nonneg mrr p B1 Hp) as B2.
  set (per := cdiv mrr p) in *.
  set (pl := if truthy _ then _ else _). destruct pl as [pl'| |] eqn:Epl; try discriminate. cbn [cbind]. intros E. injection E as <-.
  split; [|split; [reflexivity|split; [cbn; apply Z.divide_factor_r|]]].
  - constructor; cbn; auto; try apply Z.divide_factor_r; try (intros L; apply Z.mul_pos_pos; [solve [auto]|lia]); try nia.
    intros L. rewrite Z.rem_small by lia. apply Z.mul_pos_pos; [|lia]. apply cdiv_pos; lia.
  - intros L. cbn. specialize (Q2 L). unfold pl, truthy in Epl.
    replace (negb (per =? 0)) with true in Epl by lia. rewrite iceil_pos in Epl by lia. injection Epl as <-.
    pose proof (cdiv_spec mrr per Q2). split; [apply Z.mul_pos_pos; nia|apply Z.mul_le_mono_nonneg_r; nia].
Qed.

Lemma raw_MKN x : dims_MKN M N K p mc kc nc m_r n_r = CRet x ->
  raw mc x /\ sch x = MKN /\ M_padded x = Z.quot M mc * mc + m_c1 x /\ N_padded x = Z.quot N nc * nc + n_c1 x /\ 0 <= m_c1 x /\ 0 <= n_c1 x.
Proof.
  unfold dims_MKN. assert (Hpm : 0 < p * kc) by nia.
  rewrite !imod_pos, !idiv_pos by lia. cbn [cbind].
  rewrite !(iceil_pos _ m_r), !(iceil_pos _ n_r) by lia. rewrite (iceil_pos _ p) by lia. cbn [cbind].
  set (pl := if truthy _ then _ else _). destruct pl as [pl'| |]; try discriminate. cbn [cbind]. intros E. injection E as <-.
  pose proof (Z.rem_bound_pos M mc ltac:(lia) Hmc). pose proof (Z.rem_bound_pos N nc ltac:(lia) Hnc).
  pose proof (Z.quot_rem N nc ltac:(lia)).
  split; [|split; [reflexivity|split; [reflexivity|split; [cbn; lia|]]]].
  - constructor; cbn; auto; try apply Z.divide_factor_r.
    + apply Z.mul_nonneg_nonneg; try lia; apply cdiv_nonneg; lia.
    + intros L. rewrite Z.rem_small by lia. apply Z.mul_pos_pos; [|lia]. apply cdiv_pos; lia.
    + intros L. rewrite Z.rem_small by lia. apply Z.mul_pos_pos; [|lia]. apply cdiv_pos; lia.
  - cbn. split; apply Z.mul_nonneg_nonneg; try lia; apply cdiv_nonneg; lia.
Qed.

Lemma raw_NKM x : dims_NKM M N K p mc kc nc m_r n_r = CRet x ->
  raw (p * mc) x /\ sch x = NKM /\ M_padded x = Z.quot M (p * mc) * (p * mc) + m_c1 x /\ N_padded x = Z.quot N nc * nc + n_c1 x /\ 0 <= m_c1 x /\ 0 <= n_c1 x.
Proof.
  unfold dims_NKM. assert (Hpm : 0 < p * kc) by nia. assert (Hpm' : 0 < p * mc) by nia.
  rewrite !imod_pos, !idiv_pos by lia. cbn [cbind].
  rewrite !(iceil_pos _ m_r), !(iceil_pos _ n_r) by lia. rewrite (iceil_pos _ p) by lia. cbn [cbind].
  set (pl := if truthy _ then _ else _). destruct pl as [pl'| |]; try discriminate. cbn [cbind]. intros E. injection E as <-.
  pose proof (Z.rem_bound_pos M (p * mc) ltac:(lia) Hpm'). pose proof (Z.rem_bound_pos N nc ltac:(lia) Hnc).
  pose proof (Z.quot_rem N nc ltac:(lia)).
  split; [|split; [reflexivity|split; [reflexivity|split; [cbn; lia|]]]].
  - constructor; cbn; auto; try apply Z.divide_factor_r.
    + apply Z.mul_nonneg_nonneg; try lia; apply cdiv_nonneg; lia.
    + intros L. rewrite Z.rem_small by lia. apply Z.mul_pos_pos; [|lia]. apply cdiv_pos; lia.
    + intros L. rewrite Z.rem_small by lia. apply Z.mul_pos_pos; [|lia]. apply cdiv_pos; lia.
  - cbn. split; apply Z.mul_nonneg_nonneg; try lia; apply cdiv_nonneg; lia.
Qed.

(** What follows: the first block is whole if it can be, and block n starts at column n*nc. *)
Lemma raw_use tM x : 0 < tM -> raw tM x ->
  1 <= Mb x /\ 1 <= Nb x /\
  (tM <= M -> is_last 0 (Mb x) (m_pad x) = false) /\ (M < tM -> is_last 0 (Mb x) (m_pad x) = true /\ Mb x = 1) /\
  (nc <= N -> blk_nt x 0 = nc) /\ (N < nc -> (n_r | blk_nt x 0) /\ 0 < blk_nt x 0 /\ Nb x = 1) /\
  (forall n, 0 <= n < Nb x -> blk_n1 x N n = n * nc) /\ (1 < Mb x -> tM <= M) /\ (1 < Nb x -> nc <= N).
Proof.
  intros Ht [E1 E2 E3 E4 E5 E6 E7 E7n E7' E8 E8']. rewrite E3 in E4. rewrite E5 in E6.
  destruct (cut_facts M tM HM Ht) as (A1 & A2 & A3 & _). destruct (cut_facts N nc HN Hnc) as (B1 & B2 & B3 & B4 & _).
  cbv zeta in *. rewrite <- E4, <- E3 in *. rewrite <- E6, <- E5 in *.
  split; [auto|split; [auto|split; [auto|split; [auto|split; [|split]]]]].
  - intros L. unfold blk_nt. now rewrite B2, E1.
  - intros L. unfold blk_nt. destruct (B3 L) as (-> & ->). auto.
  - split; [intros n Hn; unfold blk_n1; rewrite E1; auto|]. split.
    + intros L. destruct (Z_lt_le_dec M tM) as [L'|]; [|auto]. destruct (A3 L'). lia.
    + intros L. destruct (Z_lt_le_dec N nc) as [L'|]; [|auto]. destruct (B3 L'). lia.
Qed.

End Dims.

(** ** The element missed *)

Record spot (m_r n_r mt nt r0 c0 x0 a0 b0 : Z) : Prop := Spot {
  sp_r : 0 <= r0 < mt; sp_c : 0 <= c0 < nt;
  sp_rt : r0 = b0 * m_r; sp_ct : c0 = a0 * n_r;
  sp_x : x0 = (a0 * Z.of_nat (loop_count 0 mt m_r) + b0) * m_r * n_r;
  sp_miss : forall a b e, 0 <= a < Z.quot nt n_r -> 0 <= b < Z.quot mt m_r -> 0 <= e < m_r * n_r ->
     0 + (a * mt * n_r + b * m_r * n_r) + e <> x0;
  sp_in : 0 <= x0 < mt * nt;
  sp_r0 : r0 = 0 \/ ~ (m_r | mt); sp_c0 : c0 = 0 \/ ~ (n_r | nt) }.

Lemma lc_div mt m_r : 0 < m_r -> 0 < mt -> (m_r | mt) -> Z.of_nat (loop_count 0 mt m_r) * m_r = mt.
Proof.
  intros Hm Ht [u ->]. unfold loop_count.
  replace (u * m_r - 0 + m_r - 1) with ((m_r - 1) + u * m_r) by ring.
  rewrite Z.div_add, Z.div_small, Z.add_0_l by lia. assert (0 <= u) by nia. now rewrite Z2Nat.id.
Qed.

Lemma not_div_mod a b : 0 < b -> ~ (b | a) -> 0 < a mod b < b.
Proof.
  intros Hb Hd. pose proof (Z.mod_pos_bound a b Hb). assert (a mod b <> 0) by (intros E; apply Hd, Z.mod_divide; lia). lia.
Qed.

Lemma spot_ex m_r n_r mt nt : 0 < m_r -> 0 < n_r -> 0 < mt -> 0 < nt -> ~ ((m_r | mt) /\ (n_r | nt)) ->
  exists r0 c0 x0 a0 b0, spot m_r n_r mt nt r0 c0 x0 a0 b0.
Proof.
  intros Hm Hn Hmt Hnt Hd.
  destruct (Znumtheory.Zdivide_dec m_r mt) as [D|D]; [|destruct (Z_lt_le_dec nt n_r) as [L|L]].
  - assert (D' : ~ (n_r | nt)) by tauto. pose proof (not_div_mod nt n_r Hn D') as B.
    pose proof (Z.div_mod nt n_r ltac:(lia)) as E. assert (0 <= nt / n_r) by (apply Z.div_pos; lia).
    exists 0, (nt / n_r * n_r), (nt / n_r * mt * n_r), (nt / n_r), 0.
    constructor; auto; try lia.
    + rewrite Z.add_0_r, <- (lc_div mt m_r Hm Hmt D) at 1. ring.
    + intros a b e Ha Hb He. apply (miss_columns m_r n_r) with (kk := m_r * n_r); auto. lia.
  - assert (D' : ~ (n_r | nt)) by (intros [u Eu]; assert (u <= 0 \/ 1 <= u) as [|] by lia; nia).
    exists 0, 0, 0, 0, 0. constructor; auto; try lia.
    + intros a b e Ha. rewrite Z.quot_small in Ha by lia. lia.
  - pose proof (not_div_mod mt m_r Hm D) as B.
    pose proof (Z.div_mod mt m_r ltac:(lia)) as E. assert (0 <= mt / m_r) by (apply Z.div_pos; lia).
    exists (mt / m_r * m_r), 0, (mt / m_r * m_r * n_r), 0, (mt / m_r).
    constructor; auto; try lia.
    + intros a b e Ha Hb He. apply (miss_rows m_r n_r) with (nt := nt) (kk := m_r * n_r); auto. lia.
    + split; [apply Z.mul_nonneg_nonneg; nia|]. assert (mt / m_r * m_r < mt) by lia. nia.
Qed.

(** ** Executions of loops from the first round on *)

Lemma exec_for_first {V} (f : Z -> prog V unit) hi m r m' : 0 < hi ->
  pexec (pfor_ 0 hi 1 f) m (Done r m') ->
  exists m1, pexec (f 0) m (Done tt m1) /\ pexec (pfor_ 1 hi 1 f) m1 (Done r m').
Proof.
  intros H E. unfold pfor_, pfor in E. cbn [Z.ltb Z.compare] in E.
  assert (L : loop_count 0 hi 1 = Datatypes.S (loop_count 1 hi 1)) by (unfold loop_count; rewrite !Z.div_1_r; lia).
  rewrite L in E. cbn [piter] in E. destruct (exec_bind _ _ _ _ _ E) as ([] & m1 & E1 & E2). exists m1. split; [exact E1|].
  exact E2.
Qed.

Lemma exec_for_ne_first {V} (f : Z -> prog V unit) hi m r m' : 0 < hi ->
  pexec (pfor_ne_ 0 hi 1 f) m (Done r m') ->
  exists m1, pexec (f 0) m (Done tt m1) /\ pexec (pfor_ne_ 1 hi 1 f) m1 (Done r m').
Proof.
  intros H E. unfold pfor_ne_, pfor_ne in E |- *. cbn [Z.mul Z.eqb Pos.mul Pos.eqb] in E.
  replace (0 <=? (hi - 0) * 1) with true in E by lia. cbn [andb] in E.
  replace (Z.to_nat ((hi - 0) * 1)) with (Datatypes.S (Z.to_nat ((hi - 1) * 1))) in E by lia.
  cbn [piter] in E. destruct (exec_bind _ _ _ _ _ E) as ([] & m1 & E1 & E2). exists m1. split; [exact E1|].
  replace (0 <=? (hi - 1) * 1) with true by lia. exact E2.
Qed.

Section Sched.

Variable S : scalar.
Notation T := (elt S).
Variables (ar : arch) (M N K p mc nc m_r n_r r0 c0 x0 a0 b0 : Z) (x : blk_dims) (c : cntx) (m0 : mem T).
Hypothesis HM : 0 < M.
Hypothesis HN : 0 < N.
Hypothesis Hp : 0 < p.
Hypothesis Hmc : 0 < mc.
Hypothesis Hnc : 0 < nc.
Hypothesis Hmr : 0 < m_r.
Hypothesis Hnr : 0 < n_r.
Hypothesis Ec1 : mr c = m_r.
Hypothesis Ec2 : nr c = n_r.
Hypothesis HcN : 0 <= c0 < N.
Notation I1 := (I1 S N x0 r0 c0 m0).
Notation I2 := (I2 S N r0 c0 m0).

Lemma I_C1 y v : y <> r0 * N + c0 -> I1 BufC y (Some v).
Proof. intros H E. contradiction. Qed.
Lemma I_C2 y v : y <> r0 * N + c0 -> I2 BufC y (Some v).
Proof. intros H E. contradiction. Qed.

(** *** K-first *)

Lemma kmn_user A_p B_p m r m' :
  raw M N mc nc m_r n_r (p * mc) x -> (m_r | m_c1_last_core x) ->
  MR_MIN ar + m_map c * MR_FACT ar = m_r -> NR_MIN ar + n_map c * NR_FACT ar = n_r ->
  spot m_r n_r (core_mt x 0 0) (blk_nt x 0) r0 c0 x0 a0 b0 -> core_mt x 0 0 <= core_mx x 0 ->
  pexec (schedule_KMN S ar A_p B_p (BufC, 0) M N K p c x) m (Done r m') -> minv I1 m -> minv I2 m'.
Proof.
  intros HR Hlast Em En Hs Hx H Hm.
  assert (Ht : 0 < p * mc) by nia.
  destruct (raw_use M N mc nc m_r n_r HM HN Hnc (p * mc) x Ht HR) as (U1 & U2 & U3 & U4 & U5 & U6 & U7 & U8 & U9).
  pose proof (rw_mc _ _ _ _ _ _ _ _ HR) as Emc. pose proof (rw_nc _ _ _ _ _ _ _ _ HR) as Enc.
  pose proof (rw_m1n _ _ _ _ _ _ _ _ HR) as Hm1.
  destruct Hs as [Sr Sc Srt Sct Sx Smiss Sin Sr0 Sc0].
  assert (W1 : within S I1 (m_r * n_r) (kernel_map S ar (m_map c) (n_map c))) by (rewrite <- Em, <- En; apply within_map).
  assert (W2 : within S I2 (m_r * n_r) (kernel_map S ar (m_map c) (n_map c))) by (rewrite <- Em, <- En; apply within_map).
  assert (Hmx : forall b, 0 <= core_mx x b) by (intros b; unfold core_mx; destruct (is_last b _ _); lia).
  assert (Hr0 : r0 < core_mx x 0) by lia.
  (* any other block *)
  assert (Rest : forall n b, 0 <= n < Nb x -> 0 <= b < Mb x -> 1 <= n \/ 1 <= b ->
    pkeep I2 (pbind (ppar_for 0 (blk_pu x p b) 1 (kmn_core S ar A_p B_p K p c x n b))
       (fun _ => ppar_for 0 (blk_pu x p b) 1 (kmn_unpack S (BufC, 0) M N p c x n b))) (fun _ => True)).
  { intros n b Hn Hb Hnb. apply pkeep_seq2.
    - apply pkeep_par; [|auto]. intros core Hcore. unfold kmn_core, tfor_ne_. cbv zeta. apply tkeep_any_ne. intros g _ _.
      rewrite Ec1, Ec2. now apply (tiles_I2 _ _ _ _ _ _ _ (m_r * n_r)).
    - apply pkeep_par; [|auto]. intros core Hcore. unfold kmn_unpack. cbv zeta. apply keep_seq2.
      + rewrite U7 by lia. rewrite Ec1, Ec2, Emc, Enc.
        assert (0 <= n * nc) by nia. assert (0 <= core * core_mx x b) by (pose proof (Hmx b); nia). assert (0 <= b * (p * mc)) by nia.
        apply (unpack_away S M N m_r n_r r0 c0 HN Hmr Hnr ltac:(lia) HcN _ (b * (p * mc) + core * core_mx x b)); try lia; [apply I_C2| |].
        * destruct Hnb as [L|L].
          -- right. rewrite U5 in Sc by (apply U9; lia). nia.
          -- left. assert (r0 < p * mc); [|nia]. assert (L2 : p * mc <= M) by (apply U8; lia). unfold core_mx in Hr0. rewrite (U3 L2), Emc in Hr0. nia.
        * unfold padd. cbn [fst snd]. f_equal. ring.
      + apply keep_memset0. intros; exact Logic.I. }
  unfold schedule_KMN in H. apply exec_for_first in H; [|lia]. destruct H as (ma & H1 & H2).
  cbv zeta in H1. cbn [odd2 snake sn_start sn_end sn_inc] in H1.
  replace (odd2 0) with false in H1 by reflexivity. cbn [snake sn_start sn_end sn_inc fst snd] in H1.
  apply exec_for_ne_first in H1; [|lia]. destruct H1 as (mb & H0 & H1).
  assert (Hb : minv I1 mb).
  { refine (proj2 (keep_exec _ _ _ _ H0 (fun _ => True) _ Hm)). apply pkeep_seq2.
    - apply pkeep_par; [|auto]. intros core Hcore. unfold kmn_core, tfor_ne_. cbv zeta. apply tkeep_any_ne. intros g _ _.
      rewrite Ec1, Ec2. apply (tiles_avoid _ _ _ _ _ _ _ _ (m_r * n_r)); [exact W1|]. intros ->. exact Smiss.
    - apply pkeep_par; [|auto]. intros core Hcore. unfold kmn_unpack. cbv zeta. apply keep_seq2.
      + rewrite U7 by lia. rewrite Ec1, Ec2, Emc, Enc. destruct (Z.eq_dec core 0) as [->|Hne].
        * apply (unpack_at S M N m_r n_r x0 r0 c0 m0 HN Hmr Hnr HcN a0 b0); auto.
        * assert (core_mx x 0 <= core * core_mx x 0) by nia.
          apply (unpack_away S M N m_r n_r r0 c0 HN Hmr Hnr ltac:(lia) HcN _ (core * core_mx x 0)); try lia; [apply I_C1|].
          unfold padd. cbn [fst snd]. f_equal. ring.
      + apply keep_memset0. intros i Hi. cbn [fst snd]. intros _ _. reflexivity. }
  apply I1_I2 in Hb.
  assert (Ha : minv I2 ma).
  { refine (proj2 (keep_exec _ _ _ _ H1 (fun _ => True) _ Hb)). unfold pfor_ne_. apply pkeep_any_ne; [|auto]. intros g _ Hg.
    apply Rest; lia. }
  refine (proj2 (keep_exec _ _ _ _ H2 (fun _ => True) _ Ha)). unfold pfor_. apply pkeep_any; [|auto]. intros n _ Hn. cbv zeta.
  unfold pfor_ne_. apply pkeep_any_ne; [|auto]. intros g _ Hg. pose proof (sn_in' (Mb x) (odd2 n) g Hg) as Hi. cbv zeta in Hi.
  apply Rest; lia.
Unshelve. exact HcN.
Qed.

(** *** M-first *)

Lemma mkn_user A_p B_p : raw M N mc nc m_r n_r mc x ->
  M_padded x = Z.quot M mc * mc + m_c1 x ->
  MR_MIN ar * NR_MIN ar = m_r * n_r ->
  spot m_r n_r (mf_mt x 0) (blk_nt x 0) r0 c0 x0 a0 b0 ->
  pkeep I1 (schedule_MKN S ar A_p B_p (BufCp 0, 0) M N K p c x) (fun _ => True) /\
  pkeep I1 (unpack_C_single_buf_m_first S (BufC, 0) (BufCp 0, 0) M N p x m_r n_r) (fun _ => True).
Proof.
  intros HR EMp Ek Hs.
  destruct (raw_use M N mc nc m_r n_r HM HN Hnc mc x Hmc HR) as (U1 & U2 & U3 & U4 & U5 & U6 & U7 & U8 & U9).
  pose proof (rw_mc _ _ _ _ _ _ _ _ HR) as Emc. pose proof (rw_nc _ _ _ _ _ _ _ _ HR) as Enc.
  pose proof (rw_m1n _ _ _ _ _ _ _ _ HR) as Hm1.
  destruct Hs as [Sr Sc Srt Sct Sx Smiss Sin Sr0 Sc0].
  assert (Emt : mc <= M -> mf_mt x 0 = mc) by (intros L; unfold mf_mt; now rewrite U3).
  assert (Hmt : forall b, 0 <= mf_mt x b) by (intros b; unfold mf_mt; destruct (is_last b _ _); lia).
  assert (HMp : mf_mt x 0 <= M_padded x).
  { destruct (Z_lt_le_dec M mc) as [L|L].
    - unfold mf_mt. destruct (U4 L) as (-> & _). rewrite EMp, Z.quot_small by lia. lia.
    - rewrite Emt, EMp by auto. assert (1 <= Z.quot M mc) by (apply Z.quot_le_lower_bound; lia). nia. }
  split.
  - unfold schedule_MKN, pfor_. apply pkeep_any; [|auto]. intros n _ Hn.
    unfold pfor_ne_. apply pkeep_any_ne; [|auto]. intros g _ Hg. cbv zeta.
    set (k := sn_start (snake (odd2 n) (Kb x)) + g * sn_inc (snake (odd2 n) (Kb x))) in *.
    apply pkeep_par; [|auto]. intros mi Hmi. pose proof (sn_in (Mb x) (inner_rev n k) mi Hmi) as Hb. cbv zeta in Hb.
    set (b := sn_start _ + mi * _) in *. unfold mkn_row, tfor_. cbv zeta. apply tkeep_any. intros core _ _.
    rewrite Ec1, Ec2. unfold padd. cbn [fst snd]. rewrite !Z.add_0_l.
    apply (tiles_avoid _ _ _ _ _ _ _ _ (m_r * n_r)); [rewrite <- Ek; apply within_min|]. intros _ a b' e Ha Hb' He.
    rewrite Emc, Enc. destruct (Z.eq_dec n 0) as [->|Hn0]; [destruct (Z.eq_dec b 0) as [->|Hb0]|].
    + rewrite !Z.mul_0_l, Z.add_0_l. apply Smiss; auto.
    + assert (L : mc <= M) by (apply U8; lia). rewrite (Emt L) in Sin.
      assert (0 <= a * mf_mt x b * n_r) by (pose proof (Hmt b); apply Z.mul_nonneg_nonneg; nia).
      assert (0 <= b' * m_r * n_r) by (apply Z.mul_nonneg_nonneg; nia).
      assert (mc * blk_nt x 0 <= b * mc * blk_nt x 0) by nia. lia.
    + assert (L : nc <= N) by (apply U9; lia). rewrite (U5 L) in Sin.
      assert (0 <= a * mf_mt x b * n_r) by (pose proof (Hmt b); apply Z.mul_nonneg_nonneg; nia).
      assert (0 <= b' * m_r * n_r) by (apply Z.mul_nonneg_nonneg; nia).
      assert (0 <= b * mc * blk_nt x n).
      { destruct (Z.le_gt_cases 0 (blk_nt x n)) as [|Hneg]; [apply Z.mul_nonneg_nonneg; nia|].
        exfalso. assert (Z.quot (blk_nt x n) n_r <= 0); [|lia]. rewrite <- (Z.opp_involutive (blk_nt x n)), Z.quot_opp_l by lia.
        assert (0 <= Z.quot (- blk_nt x n) n_r) by (apply Z.quot_pos; lia). lia. }
      assert (0 < M_padded x * nc) by nia.
      assert (M_padded x * nc <= n * M_padded x * nc) by (rewrite <- Z.mul_assoc; nia).
      assert (mf_mt x 0 * nc <= M_padded x * nc) by nia. lia.
  - unfold unpack_C_single_buf_m_first, pfor_. apply pkeep_any; [|auto]. intros n _ Hn. cbv zeta.
    apply pkeep_par; [|auto]. intros b Hb. rewrite U7 by lia. rewrite Emc, Enc.
    destruct (Z.eq_dec n 0) as [->|Hn0]; [destruct (Z.eq_dec b 0) as [->|Hb0]|].
    + rewrite Z.mul_0_l. apply (unpack_at S M N m_r n_r x0 r0 c0 m0 HN Hmr Hnr HcN a0 b0); auto.
      unfold padd. cbn [fst snd]. f_equal. ring.
    + apply (unpack_away S M N m_r n_r r0 c0 HN Hmr Hnr ltac:(lia) HcN _ (b * mc)); [apply I_C1|nia|nia| |].
      * left. assert (L : mc <= M) by (apply U8; lia). rewrite (Emt L) in Sr. nia.
      * unfold padd. cbn [fst snd]. f_equal.
    + apply (unpack_away S M N m_r n_r r0 c0 HN Hmr Hnr ltac:(lia) HcN _ (b * mc)); [apply I_C1|nia|nia| |].
      * right. assert (L : nc <= N) by (apply U9; lia). rewrite (U5 L) in Sc. nia.
      * unfold padd. cbn [fst snd]. f_equal.
Qed.

(** *** N-first *)

Lemma nkm_user A_p B_p : raw M N mc nc m_r n_r (p * mc) x ->
  N_padded x = Z.quot N nc * nc + n_c1 x -> 0 <= n_c1 x ->
  MR_MIN ar * NR_MIN ar = m_r * n_r ->
  spot m_r n_r (nf_mt x p 0) (blk_nt x 0) r0 c0 x0 a0 b0 ->
  pkeep I1 (schedule_NKM S ar A_p B_p (BufCp 0, 0) M N K p c x) (fun _ => True) /\
  pkeep I1 (unpack_C_single_buf_n_first S (BufC, 0) (BufCp 0, 0) M N p x m_r n_r) (fun _ => True).
Proof.
  intros HR ENp Hn1 Ek Hs. assert (Htm : 0 < p * mc) by nia.
  destruct (raw_use M N mc nc m_r n_r HM HN Hnc (p * mc) x Htm HR) as (U1 & U2 & U3 & U4 & U5 & U6 & U7 & U8 & U9).
  pose proof (rw_mc _ _ _ _ _ _ _ _ HR) as Emc. pose proof (rw_nc _ _ _ _ _ _ _ _ HR) as Enc.
  pose proof (rw_m1n _ _ _ _ _ _ _ _ HR) as Hm1.
  destruct Hs as [Sr Sc Srt Sct Sx Smiss Sin Sr0 Sc0].
  assert (Emt : p * mc <= M -> nf_mt x p 0 = p * mc) by (intros L; unfold nf_mt; now rewrite U3, Emc).
  assert (Hmt : forall b, 0 <= nf_mt x p b) by (intros b; unfold nf_mt; rewrite Emc; destruct (is_last b _ _); lia).
  assert (HNp : blk_nt x 0 <= N_padded x).
  { destruct (Z_lt_le_dec N nc) as [L|L].
    - assert (blk_nt x 0 = n_c1 x); [|rewrite ENp, Z.quot_small by lia; lia].
      unfold blk_nt. destruct (cut_facts N nc HN Hnc) as (_ & _ & B3 & _). destruct (B3 L) as (B4 & _).
      rewrite (rw_Nb _ _ _ _ _ _ _ _ HR), (rw_npad _ _ _ _ _ _ _ _ HR), B4. reflexivity.
    - rewrite U5, ENp by auto. assert (1 <= Z.quot N nc) by (apply Z.quot_le_lower_bound; lia). nia. }
  split.
  - unfold schedule_NKM, pfor_. apply pkeep_any; [|auto]. intros b _ Hb.
    unfold pfor_ne_. apply pkeep_any_ne; [|auto]. intros g _ Hg. cbv zeta.
    set (k := sn_start (snake (odd2 b) (Kb x)) + g * sn_inc (snake (odd2 b) (Kb x))) in *.
    apply pkeep_par; [|auto]. intros ni Hni. pose proof (sn_in (Nb x) (inner_rev b k) ni Hni) as Hn. cbv zeta in Hn.
    set (n := sn_start _ + ni * _) in *. unfold nkm_col, tfor_. cbv zeta. apply tkeep_any. intros core _ _.
    rewrite Ec1, Ec2. unfold padd. cbn [fst snd]. rewrite !Z.add_0_l.
    apply (tiles_avoid _ _ _ _ _ _ _ _ (m_r * n_r)); [rewrite <- Ek; apply within_min|]. intros _ a b' e Ha Hb' He.
    rewrite Emc, Enc.
    assert (0 <= a * nf_mt x p b * n_r) by (pose proof (Hmt b); apply Z.mul_nonneg_nonneg; nia).
    assert (0 <= b' * m_r * n_r) by (apply Z.mul_nonneg_nonneg; nia).
    destruct (Z.eq_dec b 0) as [->|Hb0]; [destruct (Z.eq_dec n 0) as [->|Hn0]|].
    + rewrite !Z.mul_0_l, Z.mul_0_r, Z.mul_0_l, Z.add_0_l. apply Smiss; auto.
    + assert (L : nc <= N) by (apply U9; lia). rewrite (U5 L) in Sin.
      assert (nf_mt x p 0 * nc <= nf_mt x p 0 * n * nc) by nia. lia.
    + assert (L : p * mc <= M) by (apply U8; lia). rewrite (Emt L) in Sin.
      assert (0 <= nf_mt x p b * n * nc) by (pose proof (Hmt b); apply Z.mul_nonneg_nonneg; nia).
      replace (b * p * mc * N_padded x) with (b * ((p * mc) * N_padded x)) by ring.
      assert (p * mc * blk_nt x 0 <= p * mc * N_padded x) by nia. nia.
  - unfold unpack_C_single_buf_n_first, pfor_. apply pkeep_any; [|auto]. intros b _ Hb. cbv zeta.
    apply pkeep_par; [|auto]. intros n Hn. rewrite U7 by lia. rewrite Emc, Enc.
    destruct (Z.eq_dec n 0) as [->|Hn0]; [destruct (Z.eq_dec b 0) as [->|Hb0]|].
    + rewrite Z.mul_0_l. apply (unpack_at S M N m_r n_r x0 r0 c0 m0 HN Hmr Hnr HcN a0 b0); auto.
      unfold padd. cbn [fst snd]. f_equal. ring.
    + apply (unpack_away S M N m_r n_r r0 c0 HN Hmr Hnr ltac:(lia) HcN _ (b * (p * mc))); [apply I_C1|nia|nia| |].
      * left. assert (L : p * mc <= M) by (apply U8; lia). rewrite (Emt L) in Sr. nia.
      * unfold padd. cbn [fst snd]. f_equal. ring.
    + apply (unpack_away S M N m_r n_r r0 c0 HN Hmr Hnr ltac:(lia) HcN _ (b * (p * mc))); [apply I_C1|nia|nia| |].
      * right. assert (L : nc <= N) by (apply U9; lia). rewrite (U5 L) in Sc. nia.
      * unfold padd. cbn [fst snd]. f_equal. ring.
Qed.

End Sched.

(** ** The calls *)

Section Calls.

Variable S : scalar.
Notation T := (elt S).

(** The first block of each schedule. *)
Definition mt0 (s : sched) (p : Z) (x : blk_dims) : Z :=
  match s with KMN => core_mt x 0 0 | MKN => mf_mt x 0 | _ => nf_mt x p 0 end.

Lemma first_block s M N K p mcu kcu ncu m_r n_r x : s <> NA ->
  0 < M -> 0 < N -> 0 <= K -> 0 < p -> 0 < mcu -> 0 < kcu -> 0 < ncu -> 0 < m_r -> 0 < n_r ->
  dims_of s M N K p mcu kcu ncu m_r n_r = CRet x -> misfit s p m_r n_r M N mcu ncu ->
  sch x = s /\ 0 < mt0 s p x /\ 0 < blk_nt x 0 /\ ~ ((m_r | mt0 s p x) /\ (n_r | blk_nt x 0)) /\
  (~ (m_r | mt0 s p x) -> mt0 s p x <= M) /\ (~ (n_r | blk_nt x 0) -> blk_nt x 0 <= N) /\
  match s with
  | KMN => raw M N mcu ncu m_r n_r (p * mcu) x /\ (m_r | m_c1_last_core x) /\ core_mt x 0 0 <= core_mx x 0
  | MKN => raw M N mcu ncu m_r n_r mcu x /\ M_padded x = Z.quot M mcu * mcu + m_c1 x
  | _ => raw M N mcu ncu m_r n_r (p * mcu) x /\ N_padded x = Z.quot N ncu * ncu + n_c1 x /\ 0 <= n_c1 x
  end.
Proof.
  intros Hs HM HN HK Hp Hm Hk Hn Hmr Hnr E Hf. assert (Hpm : 0 < p * mcu) by nia.
  assert (G : exists tM, raw M N mcu ncu m_r n_r tM x /\ tM = block_rows s p mcu /\ sch x = s /\
    (tM <= M -> mt0 s p x = piece_rows s p mcu) /\ (M < tM -> (m_r | mt0 s p x) /\ 0 < mt0 s p x) /\
    match s with
    | KMN => raw M N mcu ncu m_r n_r (p * mcu) x /\ (m_r | m_c1_last_core x) /\ core_mt x 0 0 <= core_mx x 0
    | MKN => raw M N mcu ncu m_r n_r mcu x /\ M_padded x = Z.quot M mcu * mcu + m_c1 x
    | _ => raw M N mcu ncu m_r n_r (p * mcu) x /\ N_padded x = Z.quot N ncu * ncu + n_c1 x /\ 0 <= n_c1 x
    end).
  { clear Hf. destruct s; try congruence; cbn [dims_of mt0 block_rows piece_rows] in *.
    - destruct (raw_KMN M N K p mcu kcu ncu m_r n_r HM HN Hp Hm Hk Hn Hmr Hnr x E) as (R & Es & D1 & D2).
      pose proof (raw_use M N mcu ncu m_r n_r HM HN Hn (p * mcu) x Hpm R) as (U1 & U2 & U3 & U4 & _).
      exists (p * mcu). split; [exact R|split; [auto|split; [auto|]]].
      pose proof (rw_mc _ _ _ _ _ _ _ _ R). pose proof (rw_m1 _ _ _ _ _ _ _ _ R). pose proof (rw_m1p _ _ _ _ _ _ _ _ R).
      unfold core_mt, core_mx.
      split; [intros L; rewrite (U3 L); auto|split]; [|split; [exact R|split; [exact D1|]]].
      + intros L. destruct (U4 L) as (-> & _). destruct (_ =? _); split; auto; apply D2; auto.
      + destruct (Z_lt_le_dec M (p * mcu)) as [L|L].
        * destruct (U4 L) as (-> & _). destruct (_ =? _); [apply D2; auto|lia].
        * rewrite (U3 L). lia.
    - destruct (raw_MKN M N K p mcu kcu ncu m_r n_r HM HN Hp Hm Hk Hn Hmr Hnr x E) as (R & Es & D1 & D2 & D3 & D4).
      pose proof (raw_use M N mcu ncu m_r n_r HM HN Hn mcu x Hm R) as (U1 & U2 & U3 & U4 & _).
      exists mcu. split; [exact R|split; [auto|split; [auto|]]].
      pose proof (rw_mc _ _ _ _ _ _ _ _ R). pose proof (rw_m1 _ _ _ _ _ _ _ _ R). pose proof (rw_m1p _ _ _ _ _ _ _ _ R).
      unfold mf_mt. split; [intros L; rewrite (U3 L); auto|split; [|auto]].
      intros L. destruct (U4 L) as (-> & _). auto.
    - destruct (raw_NKM M N K p mcu kcu ncu m_r n_r HM HN Hp Hm Hk Hn Hmr Hnr x E) as (R & Es & D1 & D2 & D3 & D4).
      pose proof (raw_use M N mcu ncu m_r n_r HM HN Hn (p * mcu) x Hpm R) as (U1 & U2 & U3 & U4 & _).
      exists (p * mcu). split; [exact R|split; [auto|split; [auto|]]].
      pose proof (rw_mc _ _ _ _ _ _ _ _ R). pose proof (rw_m1 _ _ _ _ _ _ _ _ R). pose proof (rw_m1p _ _ _ _ _ _ _ _ R).
      unfold nf_mt. split; [intros L; rewrite (U3 L); congruence|split; [|auto]].
      intros L. destruct (U4 L) as (-> & _). auto. }
  destruct G as (tM & R & Et & Es & G1 & G2 & G3).
  assert (HtM : 0 < tM) by (rewrite Et; unfold block_rows; destruct s; lia).
  pose proof (raw_use M N mcu ncu m_r n_r HM HN Hn tM x HtM R) as (U1 & U2 & U3 & U4 & U5 & U6 & _).
  assert (Hle : piece_rows s p mcu <= block_rows s p mcu) by (unfold piece_rows, block_rows; destruct s; nia).
  assert (Hpp : 0 < piece_rows s p mcu) by (unfold piece_rows; destruct s; lia).
  split; [exact Es|]. split; [|split; [|split; [|split; [|split; [|exact G3]]]]].
  - destruct (Z_lt_le_dec M tM) as [L|L]; [apply G2; auto|rewrite G1; auto].
  - destruct (Z_lt_le_dec N ncu) as [L|L]; [apply U6; auto|rewrite U5; auto].
  - intros (D1 & D2). destruct Hf as [(L & D)|(L & D)]; apply D.
    + rewrite <- G1; auto. lia.
    + rewrite <- U5; auto.
  - intros D. destruct (Z_lt_le_dec M tM) as [L|L]; [exfalso; apply D, G2; auto|rewrite G1; auto; lia].
  - intros D. destruct (Z_lt_le_dec N ncu) as [L|L]; [exfalso; apply D, U6; auto|rewrite U5; auto].
Qed.

Theorem user_missed F ar q (nz : T -> bool) M N K p oc c pa pb alpha beta s mcu kcu ncu :
  match oc with Some c1 => c = c1 | None => c = q end -> s <> NA -> arch_ok ar -> ctx_for ar s c ->
  0 < M -> 0 < N -> 0 <= K -> 0 < p -> 0 < mcu -> 0 < kcu -> 0 < ncu -> (s <> KMN -> nz beta = false) ->
  misfit s p (mr c) (nr c) M N mcu ncu ->
  exists i j, 0 <= i < M /\ 0 <= j < N /\
    forall m0 r m', (forall b, own b -> live m0 b = None) ->
      pexec (cake_sgemm S F ar q nz M N K p oc pa pb alpha beta s mcu kcu ncu) m0 (Done r m') ->
      dat m' BufC (i * N + j) = Some (zero S) \/ dat m' BufC (i * N + j) = dat m0 BufC (i * N + j).
Proof.
  intros Eoc Hs Har Hc HM HN HK Hp Hm Hk Hn Hb Hf.
  assert (Hmr : 0 < mr c /\ 0 < nr c).
  { destruct Har as (A1 & A2 & A3 & A4 & _). unfold ctx_for, ctx_ok, ctx_min in Hc. destruct s; try congruence; nia. }
  destruct Hmr as (Hmr & Hnr).
  destruct (init_block_dims F M N K p c s mcu kcu ncu) as [(x & c')| |] eqn:Ex.
  2,3: exists 0, 0; split; [lia|split; [lia|]]; intros m0 r m' _ H; exfalso;
    unfold cake_sgemm in H; apply exec_bind in H; destruct H as (c1 & m1 & H1 & H);
    assert (c1 = c) by (destruct oc; cbn [get_ctx pbind palloc] in H1; inversion H1; subst; try congruence;
      match goal with X : pexec (PRet _) _ _ |- _ => inversion X; subst; congruence end);
    subst c1; apply exec_bind in H; destruct H as (? & m2 & _ & H);
    apply exec_bind in H; destruct H as (? & m3 & H & _); rewrite Ex in H; inversion H.
  destruct (user_dims F M N K p c s mcu kcu ncu x c' Hmr Hp Hm Hk Hn Hs Ex) as (Ed & Em & En & Emm & Enm).
  destruct (first_block s M N K p mcu kcu ncu (mr c) (nr c) x Hs HM HN HK Hp Hm Hk Hn Hmr Hnr Ed Hf)
    as (Es & P1 & P2 & P3 & P4 & P5 & P6).
  destruct (spot_ex (mr c) (nr c) _ _ Hmr Hnr P1 P2 P3) as (r0 & c0 & x0 & a0 & b0 & Hsp).
  exists r0, c0.
  assert (Hr : 0 <= r0 < M).
  { pose proof (sp_r _ _ _ _ _ _ _ _ _ Hsp). destruct (sp_r0 _ _ _ _ _ _ _ _ _ Hsp) as [->|D]; [lia|]. specialize (P4 D). lia. }
  assert (Hcn : 0 <= c0 < N).
  { pose proof (sp_c _ _ _ _ _ _ _ _ _ Hsp). destruct (sp_c0 _ _ _ _ _ _ _ _ _ Hsp) as [->|D]; [lia|]. specialize (P5 D). lia. }
  split; [exact Hr|split; [exact Hcn|]]. intros m0 r m' Ho H.
  assert (HI : minv (I2 S N r0 c0 m0) m'); [|exact (HI BufC (r0 * N + c0) (or_intror eq_refl) eq_refl)].
  set (I1' := I1 S N x0 r0 c0 m0) in *. set (I2' := I2 S N r0 c0 m0) in *.
  assert (H0 : minv I1' m0) by (apply I1_start; [intros; apply Ho; exact Logic.I|auto]).
  unfold cake_sgemm in H.
  apply exec_bind in H. destruct H as (c1 & m1 & Ha & H).
  assert (K1 : c1 = c /\ minv I1' m1).
  { refine (keep_exec _ _ _ _ Ha (fun r => r = c) _ H0). apply keep_get_ctx; [intros; exact Logic.I|]. destruct oc; congruence. }
  destruct K1 as (-> & K1). clear Ha.
  apply exec_bind in H. destruct H as (u & m2 & Ha & H).
  assert (K2 : minv I1' m2).
  { refine (proj2 (keep_exec _ _ _ _ Ha (fun _ => True) _ K1)). apply pkeep_alloc; [intros; exact Logic.I|auto]. }
  clear Ha. apply exec_bind in H. destruct H as (xc & m3 & Ha & H). rewrite Ex in Ha. cbn [lift] in Ha. inversion Ha; subst xc m3. clear Ha.
  cbn [fst snd] in H. rewrite Es in H.
  apply exec_bind in H. destruct H as (A_p & m4 & Ha & H).
  assert (K4 : minv I1' m4).
  { refine (proj2 (keep_exec _ _ _ _ Ha (fun _ => True) _ K2)). destruct pa; [exact Logic.I|]. apply pkeep_bind, keep_lift. intros sz _.
    apply pkeep_seq2; [apply pkeep_alloc; [intros; exact Logic.I|auto]|].
    apply pkeep_seq2; [apply keep_pack_A; now apply I1_any|exact Logic.I]. }
  clear Ha. apply exec_bind in H. destruct H as (B_p & m5 & Ha & H).
  assert (K5 : minv I1' m5).
  { refine (proj2 (keep_exec _ _ _ _ Ha (fun _ => True) _ K4)). destruct pb; [exact Logic.I|]. apply pkeep_bind, keep_lift. intros sz _.
    apply pkeep_seq2; [apply pkeep_alloc; [intros; exact Logic.I|auto]|].
    apply pkeep_seq2; [apply keep_pack_B; now apply I1_any|exact Logic.I]. }
  clear Ha. apply exec_bind in H. destruct H as (u' & m6 & Ha & H).
  assert (K6 : minv I2' m6).
  { clear H. destruct s; try congruence; cbn [mt0] in *.
    - apply exec_bind in Ha. destruct Ha as (u1 & m7 & Ha & H).
      assert (K7 : minv I1' m7).
      { refine (proj2 (keep_exec _ _ _ _ Ha (fun _ => True) _ K5)). unfold alloc_Cp, pfor_. apply pkeep_any; [|auto].
        intros i _ _. apply pkeep_alloc; [cbn; auto|auto]. }
      apply exec_bind in H. destruct H as (u2 & m8 & Hb' & H).
      destruct P6 as (R & D1 & D2). destruct Hc as (_ & _ & C1 & C2).
      assert (K8 : minv I2' m8).
      { apply (kmn_user S ar M N K p mcu ncu (mr c) (nr c) r0 c0 x0 a0 b0 x c' m0) with (1 := HM) (A_p := A_p) (B_p := B_p) (m := m7) (r := u2); auto.
        - now rewrite Emm.
        - now rewrite Enm. }
      refine (proj2 (keep_exec _ _ _ _ H (fun _ => True) _ K8)). unfold free_Cp, pfor_. apply pkeep_any; [|auto].
      intros i _ _. apply pkeep_free; [discriminate|auto].
    - apply I1_I2 with (x0 := x0); [exact Hcn|]. destruct P6 as (R & D1). destruct Hc as (C1 & C2).
      refine (proj2 (keep_exec _ _ _ _ Ha (fun _ => True) _ K5)). rewrite Hb by discriminate.
      apply pkeep_bind, keep_lift. intros sz _.
      apply pkeep_seq2; [apply pkeep_alloc; [cbn; auto|auto]|].
      destruct (mkn_user S ar M N K p mcu ncu (mr c) (nr c) r0 c0 x0 a0 b0 x c' m0 HM HN Hm Hn Hmr Hnr Em En Hcn A_p B_p R D1) as (W1 & W2);
        [congruence|exact Hsp|].
      apply pkeep_seq2; [exact W1|]. apply pkeep_seq2; [cbn [unpack_C]; rewrite Em, En; exact W2|].
      apply pkeep_free; [discriminate|auto].
    - apply I1_I2 with (x0 := x0); [exact Hcn|]. destruct P6 as (R & D1 & D2). destruct Hc as (C1 & C2).
      refine (proj2 (keep_exec _ _ _ _ Ha (fun _ => True) _ K5)). rewrite Hb by discriminate.
      apply pkeep_bind, keep_lift. intros sz _.
      apply pkeep_seq2; [apply pkeep_alloc; [cbn; auto|auto]|].
      destruct (nkm_user S ar M N K p mcu ncu (mr c) (nr c) r0 c0 x0 a0 b0 x c' m0 HM HN Hp Hm Hn Hmr Hnr Em En Hcn A_p B_p R D1 D2) as (W1 & W2);
        [congruence|exact Hsp|].
      apply pkeep_seq2; [exact W1|]. apply pkeep_seq2; [cbn [unpack_C]; rewrite Em, En; exact W2|].
      apply pkeep_free; [discriminate|auto]. }
  clear Ha. refine (proj2 (keep_exec _ _ _ _ H (fun _ => True) _ K6)).
  apply pkeep_seq2; [destruct pa; [exact Logic.I|apply pkeep_free; [discriminate|auto]]|].
  apply pkeep_seq2; [destruct pb; [exact Logic.I|apply pkeep_free; [discriminate|auto]]|].
  apply pkeep_seq2; [apply pkeep_free; [discriminate|auto]|exact Logic.I].
Qed.

End Calls.
