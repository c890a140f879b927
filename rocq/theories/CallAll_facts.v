(** * cake_sgemm as the user calls it, for every schedule. *)

From Coq Require Import ZArith List Bool Lia Permutation.
From Verif Require Import Lang Lang_facts Spec SpecTop ModelSizing ModelKernel ModelPack ModelSched ModelTop
     Kernel_facts Tile_facts Loop_facts Pack_facts Unpack_facts Sizing_facts SizingMN_facts PackMat_facts PackB_facts
     Order_facts Cphase_facts SchedK_facts Grid_facts PackMN_facts SchedMN_facts Frame_facts Init_facts TopK_facts TopMN_facts
     Call_facts.
Import ListNotations.
Open Scope Z_scope.

Lemma ceil_div_cdiv a b : 0 < b -> ceil_div a b = cdiv a b.
Proof.
  intros H. symmetry. apply cdiv_unique; [auto|]. unfold ceil_div.
  pose proof (Z.mul_div_le (a + b - 1) b H). pose proof (Z.mul_succ_div_gt (a + b - 1) b H). lia.
Qed.

Lemma roundup_uniq N nr np : 0 < nr -> (nr | np) -> N <= np < N + nr -> round_up N nr = np.
Proof.
  intros H [q ->] Hb. unfold round_up. rewrite ceil_div_cdiv by auto.
  rewrite (cdiv_unique N nr q); auto. lia.
Qed.

Lemma k_tail_nonneg K p kc : 0 <= K -> 0 < p -> 0 < kc -> 0 <= k_tail K p kc.
Proof.
  intros HK Hp Hkc. unfold k_tail. cbv zeta. assert (0 < p * kc) by nia.
  pose proof (Z.mod_pos_bound K (p * kc) H) as B. set (r := K mod (p * kc)) in *.
  destruct (Z.eqb_spec r 0); [lia|].
  rewrite (ceil_div_cdiv r p) by auto. assert (0 < cdiv r p) by (apply cdiv_pos; lia).
  rewrite ceil_div_cdiv by auto. pose proof (cdiv_spec r (cdiv r p) H0). lia.
Qed.

Lemma bf_Md M N K p m_r n_r tM mt x : bf M N K p m_r n_r tM mt x -> (m_r | M_padded x).
Proof.
  intros F. pose proof (bf_M _ _ _ _ _ _ _ _ _ F) as PM. pose proof (pt_nb _ _ _ _ PM) as Hn.
  destruct (Z.eq_dec (Mb x) 0) as [E|E].
  - rewrite (pt_0 _ _ _ _ PM E). apply Z.divide_0_r.
  - rewrite <- (pt_last _ _ _ _ PM) by lia. pose proof (bf_mcd _ _ _ _ _ _ _ _ _ F) as D.
    apply Z.divide_add_r; [apply Z.divide_mul_r, D|]. apply (bf_mr _ _ _ _ _ _ _ _ _ F); lia.
Qed.

Definition mn_dims (swap : bool) := if swap then dims_NKM else dims_MKN.

Lemma dims_guard swap M N K p mc kc nc m_r n_r x :
  0 <= M -> 0 <= N -> 0 <= K -> 0 < p -> 0 < mc -> 0 < kc -> 0 < nc -> 0 < m_r -> 0 < n_r ->
  mn_dims swap M N K p mc kc nc m_r n_r = CRet x -> kguard K x = K - k_tail K p kc.
Proof.
  intros HM HN HK Hp Hmc Hkc Hnc Hmr Hnr. unfold mn_dims, dims_MKN, dims_NKM.
  assert (Hpk : 0 < p * kc) by nia. assert (Hpm : 0 < p * mc) by nia.
  pose proof (Z.rem_bound_pos K (p * kc) HK Hpk) as Bk.
  assert (G : forall x, k_pad x = pad01 (Z.rem K (p * kc)) ->
    k_c1_last_core x = Z.rem K (p * kc) - cdiv (Z.rem K (p * kc)) p *
      ((if truthy (cdiv (Z.rem K (p * kc)) p) then cdiv (Z.rem K (p * kc)) (cdiv (Z.rem K (p * kc)) p) else 0) - 1) ->
    kguard K x = K - k_tail K p kc).
  { intros y Ep El. unfold kguard, k_tail. cbv zeta. rewrite Ep.
    rewrite <- Z.rem_mod_nonneg by lia. set (r := Z.rem K (p * kc)) in *.
    unfold pad01, truthy. destruct (Z.eqb_spec r 0) as [E|E]; cbn [negb Z.eqb]; [rewrite ?E; cbn; lia|].
    rewrite El, (ceil_div_cdiv r p) by auto. assert (0 < cdiv r p) by (apply cdiv_pos; lia).
    rewrite ceil_div_cdiv by auto. unfold truthy. destruct (Z.eqb_spec (cdiv r p) 0); [lia|]. cbn. lia. }
  destruct swap.
  - rewrite !imod_pos, !idiv_pos by lia. cbn [cbind].
    rewrite !(iceil_pos _ m_r), !(iceil_pos _ n_r) by lia. rewrite (iceil_pos _ p) by lia. cbn [cbind].
    rewrite pl_comp by lia. cbn [cbind]. intros E. injection E as <-. apply G; reflexivity.
  - rewrite !imod_pos, !idiv_pos by lia. cbn [cbind].
    rewrite !(iceil_pos _ m_r), !(iceil_pos _ n_r) by lia. rewrite (iceil_pos _ p) by lia. cbn [cbind].
    rewrite pl_comp by lia. cbn [cbind]. intros E. injection E as <-. apply G; reflexivity.
Qed.

Section CallAll.

Variable S : scalar.
Notation T := (elt S).

(** what the packing of B produces from the caller's memory *)
Definition fB_of (N g : Z) (m : mem T) (kk col : Z) : T :=
  if (g <=? kk) && (N <=? col) then zero S
  else match dat m BufB (kk * N + col) with Some v => v | None => zero S end.

Definition swap_of (s : sched) : bool := match s with NKM => true | _ => false end.

(** the blocking is the one of schedule [s] *)
Definition plan (M N K p : Z) (c : cntx) (s : sched) (x : blk_dims) : Prop :=
  match s with
  | KMN => kmn_facts M N K p (mr c) (nr c) x /\ sch x = KMN
  | NA => False
  | _ => bf M N K p (mr c) (nr c) (tM_s p x (swap_of s)) (mt_s p x (swap_of s)) x /\
         sch x = sch_s (swap_of s) /\
         packed_A_size M K p x (mr c) (sch_s (swap_of s)) = CRet (M_padded x * K) /\
         packed_B_size K N x (nr c) = CRet (K * N_padded x) /\
         packed_C_size M N p x (mr c) (nr c) (sch_s (swap_of s)) = CRet (M_padded x * N_padded x)
  end.

Definition ords (s : sched) (p : Z) (x : blk_dims) : Z -> Z -> list Z :=
  match s with
  | KMN => kmn_ord p x
  | _ => mn_ord p (tM_s p x (swap_of s)) x (swap_of s)
  end.

Lemma ords_perm M N K p c s x : 0 <= K -> 0 < p -> plan M N K p c s x -> orders K (ords s p x).
Proof.
  intros HK Hp P i j. destruct s; cbn in P |- *.
  - destruct P as (F & _). apply (kmn_ord_perm M N K p x c F).
  - destruct P as (F & _). eapply mn_ord_perm; eauto.
  - destruct P as (F & _). eapply mn_ord_perm; eauto.
  - destruct P.
Qed.

Lemma ctx_for_pos ar s c : arch_ok ar -> ctx_for ar s c -> 0 < mr c /\ 0 < nr c.
Proof.
  intros Har Hc. destruct s; cbn in Hc.
  - destruct (ctx_pos ar c Har Hc); tauto.
  - destruct (ctx_pos_min ar c Har Hc); tauto.
  - destruct (ctx_pos_min ar c Har Hc); tauto.
  - destruct Hc as (Hc & _). destruct (ctx_pos ar c Har Hc); tauto.
Qed.

Lemma plan_ok F ar M N K p c s mcu kcu ncu :
  arch_ok ar -> ctx_for ar s c -> 0 <= M -> 0 <= N -> 0 <= K -> 0 < p ->
  tiles_ok F M p c mcu kcu ncu ->
  exists s' x c', s' <> NA /\ (s <> NA -> s' = s) /\ ctx_for ar s' c' /\
    init_block_dims F M N K p c s mcu kcu ncu = CRet (x, c') /\ same_ctx c c' /\
    plan M N K p c' s' x /\
    (user_tiles c mcu kcu ncu -> m_c x = mcu /\ k_c x = kcu /\ n_c x = ncu) /\
    (s' <> KMN -> kguard K x <= K /\ (user_tiles c mcu kcu ncu -> kguard K x = K - k_tail K p kcu)) /\
    (s' <> KMN -> kguard K x = K - k_tail K p (k_c x)).
Proof.
  intros Har Hc HM HN HK Hp Ht.
  destruct (ctx_for_pos ar s c Har Hc) as (Hmr & Hnr).
  destruct (init_ok F M N K p c s mcu kcu ncu HM Hp Hmr Hnr Ht)
    as (mc & kc & nc & al' & s' & E & H1 & H2 & H3 & H4 & H5 & Hna & H6 & Hu).
  set (c' := Cntx al' (mr c) (nr c) (m_map c) (n_map c) (L1 c) (L2 c) (L3 c) (ncores c)) in *.
  assert (Hc' : ctx_for ar s' c').
  { destruct s; try (rewrite H6 by discriminate; exact Hc).
    cbn in Hc. destruct Hc as (Q1 & Q2). destruct s'; [exact Q1|exact Q2|exact Q2|congruence]. }
  assert (D : exists x, dims_of s' M N K p mc kc nc (mr c) (nr c) = CRet x /\ plan M N K p c' s' x /\
     m_c x = mc /\ k_c x = kc /\ n_c x = nc).
  { destruct s'; cbn [dims_of plan swap_of]; [| | |congruence].
    - destruct (dims_KMN_total M N K p mc kc nc (mr c) (nr c)) as (x & Ex); try lia.
      destruct (dims_KMN_facts M N K p mc kc nc (mr c) (nr c) x) as (F' & E1 & E2 & E3 & Hsch); auto.
      exists x. auto 10.
    - unfold sch_s, tM_s, mt_s.
      destruct (dims_MKN_facts M N K p mc kc nc (mr c) (nr c)) as (x & Ex & F' & Em & Ek & En & Es & S1 & S2 & S3); auto.
      exists x. split; [exact Ex|]. rewrite Em. auto 10.
    - unfold sch_s, tM_s, mt_s.
      destruct (dims_NKM_facts M N K p mc kc nc (mr c) (nr c)) as (x & Ex & F' & Em & Ek & En & Es & S1 & S2 & S3); auto.
      exists x. split; [exact Ex|]. rewrite Em. auto 10. }
  destruct D as (x & Ex & P & Em & Ek & En). rewrite Ex in E. cbn [cbind] in E.
  assert (G : s' <> KMN -> kguard K x = K - k_tail K p kc).
  { intros Hk. apply (dims_guard (swap_of s') M N K p mc kc nc (mr c) (nr c) x); auto.
    rewrite <- Ex. destruct s'; try congruence; reflexivity. }
  exists s', x, c'. split; [auto|split; [auto|split; [auto|split; [exact E|split; [repeat split|split; [exact P|split; [|split]]]]]]].
  - intros U. rewrite Em, Ek, En. auto.
  - intros Hk. rewrite (G Hk). split.
    + pose proof (k_tail_nonneg K p kc HK Hp H2). lia.
    + intros U. destruct (Hu U) as (_ & -> & _). auto.
  - intros Hk. rewrite Ek. auto.
Qed.

(** The operands, plain or packed. *)
Definition opA_s (M K p : Z) (c : cntx) (x : blk_dims) (s : sched) (pa : bool) (A : Z -> Z -> T) (m : mem T) : Prop :=
  match s with
  | KMN => opA S M K p x c pa A m
  | _ => opA_MN S M K p x c (swap_of s) pa A m
  end.
Definition opB_s (N K p : Z) (c : cntx) (x : blk_dims) (s : sched) (t : Z) (pb : bool) (B : Z -> Z -> T) (m : mem T) : Prop :=
  match s with
  | KMN => opB S N K x c pb B m
  | _ => if pb then exists fB bb, live m BufB = Some bb /\ K * N_padded x <= blen bb /\ b64 bb = true /\
                      packedB_MN S p (nr c) x (bbase_s K p x (swap_of s)) BufB fB m /\
                      (forall k j, 0 <= k < K -> 0 <= j < N -> fB k j = B k j)
         else at_least m BufB (K * N) /\ holds m BufB K N B /\ B_rim m N K (nr c) t
  end.

(** The value the sums start from *)
Definition acc0 (s : sched) (b : bool) (C0 : Z -> Z -> T) (i j : Z) : T :=
  match s with KMN => zero S | _ => if b then C0 i j else zero S end.

(** When pack_C and the schedule agree on the place of C's elements *)
Definition c_agrees (s : sched) (M N p : Z) (x : blk_dims) : Prop :=
  s = NKM -> C_fits (M_padded x) (N_padded x) (p * m_c x) (n_c x).

Lemma after_ok ar nz M N K p c s x t pa pb be A B C0 m0 :
  arch_ok ar -> ctx_for ar s c -> 0 <= M -> 0 <= N -> 0 <= K -> 0 < p ->
  plan M N K p c s x -> (s <> KMN -> kguard K x <= K - t) ->
  (nz be = true -> c_agrees s M N p x) ->
  opA_s M K p c x s pa A m0 -> opB_s N K p c x s t pb B m0 -> at_least m0 BufC (M * N) ->
  (nz be = true -> s <> KMN -> holds m0 BufC M N C0) ->
  (forall b, used p b -> b <> BufX 0 -> live m0 b = None) -> live m0 (BufX 0) <> None ->
  pok (sgemm_after S ar nz M N K p pa pb be (x, c)) m0
      (fun r m' => r = c /\
         holds m' BufC M N (product_plus S A B (acc0 s (nz be) C0) (ords s p x)) /\
         (forall b, live m' b = if buf_eqb (BufX 0) b then None else live m0 b) /\
         (forall b i, ~ used p b -> ~ (b = BufC /\ 0 <= i < M * N) -> dat m' b i = dat m0 b i)).
Proof.
  intros Har Hc HM HN HK Hp HP Hg Hag HA HB HC HC0 Hfr HX.
  destruct (ctx_for_pos ar s c Har Hc) as (Hmr & Hnr).
  assert (MN : s <> KMN -> ctx_min ar c -> bf M N K p (mr c) (nr c) (tM_s p x (swap_of s)) (mt_s p x (swap_of s)) x ->
         sch x = sch_s (swap_of s) ->
         packed_A_size M K p x (mr c) (sch_s (swap_of s)) = CRet (M_padded x * K) ->
         packed_B_size K N x (nr c) = CRet (K * N_padded x) ->
         packed_C_size M N p x (mr c) (nr c) (sch_s (swap_of s)) = CRet (M_padded x * N_padded x) ->
         opA_MN S M K p x c (swap_of s) pa A m0 ->
         (if pb then exists fB bb, live m0 BufB = Some bb /\ K * N_padded x <= blen bb /\ b64 bb = true /\
                      packedB_MN S p (nr c) x (bbase_s K p x (swap_of s)) BufB fB m0 /\
                      (forall k j, 0 <= k < K -> 0 <= j < N -> fB k j = B k j)
          else at_least m0 BufB (K * N) /\ holds m0 BufB K N B /\ B_rim m0 N K (nr c) t) ->
         orders K (mn_ord p (tM_s p x (swap_of s)) x (swap_of s)) ->
         pok (sgemm_after S ar nz M N K p pa pb be (x, c)) m0
          (fun r m' => r = c /\
             holds m' BufC M N (fun i j => dot S (A i) (fun k => B k j) (mn_ord p (tM_s p x (swap_of s)) x (swap_of s) i j)
                                   (if nz be then C0 i j else zero S)) /\
             (forall b, live m' b = if buf_eqb (BufX 0) b then None else live m0 b) /\
             (forall b i, ~ used p b -> ~ (b = BufC /\ 0 <= i < M * N) -> dat m' b i = dat m0 b i))).
  { intros Hs Hmin F' Es S1 S2 S3 HA' HB' Hperm.
    assert (X : exists fB LB, opB_MN S N K p x c (swap_of s) pb LB fB m0 /\
               (forall k j, 0 <= k < K -> 0 <= j < N -> fB k j = B k j)).
    { destruct pb.
      - destruct HB' as (fB & bb & HB'). exists fB, 0. split; [|apply HB']. exists bb. tauto.
      - destruct HB' as ((bb & LB1 & LB2) & HBh & Hrim).
        exists (fB_of N (kguard K x) m0), (blen bb). split.
        + exists bb. split; [auto|split; [lia|]].
          pose proof (bf_Np _ _ _ _ _ _ _ _ _ F') as HNp. pose proof (bf_Npd _ _ _ _ _ _ _ _ _ F') as HNd.
          pose proof (roundup_uniq N (nr c) (N_padded x) Hnr HNd HNp) as Eru. specialize (Hg Hs).
          intros kk col Hkk Hcol. unfold fB_of.
          destruct ((kguard K x <=? kk) && (N <=? col)) eqn:Eg; [auto|].
          destruct (Z_lt_le_dec col N) as [L|L].
          * rewrite (HBh kk col) by lia. split; auto. nia.
          * assert (kk < kguard K x) by lia.
            destruct (Hrim kk col ltac:(lia) ltac:(rewrite Eru; lia)) as (bi & v & Hl & Hlen & Hd).
            rewrite LB1 in Hl. injection Hl as <-. rewrite Hd. auto.
        + intros k j Hk Hj. unfold fB_of. replace (N <=? j) with false by lia. rewrite andb_false_r. now rewrite (HBh k j) by lia. }
    destruct X as (fB & LB & HB2 & Hfb).
    eapply pok_mono.
    - eapply (sgemm_after_MN S ar nz M N K p x c HM HN HK Hp Har Hmin (swap_of s) F' Es S1 S2 S3 pa pb be LB A fB C0); auto.
      intros Enz. specialize (Hag Enz). unfold c_agrees in Hag. pose proof (fits_agrees M N K p x c (swap_of s) F') as Hf.
      destruct s; cbn [swap_of] in *; try exact I. apply Hf, Hag. reflexivity.
    - cbv beta. intros r m' (E1 & E2 & E3 & E4). split; [auto|split; [|split; [exact E3|exact E4]]].
      intros i j Hi Hj. rewrite (E2 i j Hi Hj). f_equal. apply dot_ext. intros k Hk. split; [auto|].
      apply Hfb; [|lia].
      assert (HP' : In k (zrange 0 K)) by (eapply Permutation_in; [apply Hperm|exact Hk]).
      rewrite in_zrange in HP'. lia. }
  pose proof (ords_perm M N K p c s x HK Hp HP) as Hperm.
  destruct s; cbn [plan ctx_for opA_s opB_s ords acc0 swap_of] in *.
  - destruct HP as (F' & Es).
    eapply pok_mono; [apply (sgemm_after_KMN S ar nz M N K p x c HM HN HK Hp Har Hc F' Es) with (A := A) (B := B); auto|]. cbv beta.
    intros r m' (E1 & E2 & E3 & E4). auto.
  - destruct HP as (F' & Es & S1 & S2 & S3). apply MN; auto; discriminate.
  - destruct HP as (F' & Es & S1 & S2 & S3). apply MN; auto; discriminate.
  - destruct HP.
Qed.

(** ** The plain call *)
Definition start (m0 : mem T) (oc : option cntx) : mem T :=
  match oc with Some _ => m0 | None => do_alloc m0 cbuf 1 false None end.

Theorem cake_sgemm_ok_gen F ar q nz M N K p oc al be s mcu kcu ncu t :
  let c := match oc with Some c => c | None => q end in
  arch_ok ar -> ctx_for ar s c -> 0 <= M -> 0 <= N -> 0 <= K -> 0 < p ->
  tiles_ok F M p c mcu kcu ncu ->
  (nz be = true -> s <> NA) ->
  (nz be = true -> s = NKM ->
     forall x c', init_block_dims F M N K p c s mcu kcu ncu = CRet (x, c') ->
     n_first_C_fits M N p (mr c) (nr c) (m_c x) (n_c x)) ->
  (forall x c', init_block_dims F M N K p c s mcu kcu ncu = CRet (x, c') -> 0 <= t <= k_tail K p (k_c x) \/ t = 0) ->
  exists ord c', orders K ord /\ same_ctx c c' /\
    (s = KMN -> exists x, init_block_dims F M N K p c KMN mcu kcu ncu = CRet (x, c') /\ ord = kmn_ord p x) /\
    forall A B C0 m0, caller m0 M N K A B -> (s <> KMN -> B_rim m0 N K (nr c) t) ->
      (nz be = true -> s <> KMN -> holds m0 BufC M N C0) ->
      pok (cake_sgemm S F ar q nz M N K p oc false false al be s mcu kcu ncu) m0
          (fun r m' => r = c' /\
             holds m' BufC M N (product_plus S A B (acc0 s (nz be) C0) ord) /\
             only_C_changed (start m0 oc) m' M N).
Proof.
  intros c Har Hc HM HN HK Hp Ht Hna Hbe Htail.
  destruct (plan_ok F ar M N K p c s mcu kcu ncu) as (s' & x & c' & N1 & N2 & Hc' & Hi & Hsame & HP & Hu & Hg & Hg2); auto.
  exists (ords s' p x), c'. split; [eapply ords_perm; eauto|split; [auto|split]].
  { intros Es. assert (E' : s' = KMN) by (rewrite N2 by congruence; exact Es). rewrite E', Es in *. exists x. auto. }
  intros A B C0 m0 Hcl Hrim HC0. pose proof (caller_ops S m0 M N K A B p Hcl) as Hfr.
  assert (Hown : live m0 cbuf = None) by (destruct Hcl as (_ & _ & _ & _ & _ & Ho); apply Ho; cbn; lia).
  destruct Hcl as ((ba & LA1 & LA2) & HA & (bb & LB1 & LB2) & HB & (bc & LC1 & LC2) & _).
  assert (Enr : nr c' = nr c) by apply Hsame.
  assert (Body : pok (sgemm_after S ar nz M N K p false false be (x, c')) (do_alloc (start m0 oc) (BufX 0) 1 false None)
      (fun r m' => r = c' /\
         holds m' BufC M N (product_plus S A B (acc0 s (nz be) C0) (ords s' p x)) /\
         (forall b, live m' b = if buf_eqb (BufX 0) b then None
                                else live (do_alloc (start m0 oc) (BufX 0) 1 false None) b) /\
         (forall b i, ~ used p b -> ~ (b = BufC /\ 0 <= i < M * N) ->
                      dat m' b i = dat (do_alloc (start m0 oc) (BufX 0) 1 false None) b i))).
  { set (m1 := do_alloc (start m0 oc) (BufX 0) 1 false None).
    assert (Lv : forall b, b <> BufX 0 -> b <> cbuf -> live m1 b = live m0 b).
    { intros b Hb1 Hb2. unfold m1, start. rewrite live_alloc, buf_eqb_neq by auto.
      destruct oc; [auto|]. now rewrite live_alloc, buf_eqb_neq by auto. }
    assert (Dt : forall b i, b <> BufX 0 -> b <> cbuf -> dat m1 b i = dat m0 b i).
    { intros b i Hb1 Hb2. unfold m1, start. rewrite dat_alloc, buf_eqb_neq by auto.
      destruct oc; [auto|]. now rewrite dat_alloc, buf_eqb_neq by auto. }
    assert (Eacc : forall i j, acc0 s (nz be) C0 i j = acc0 s' (nz be) C0 i j).
    { intros i j. destruct s; try (rewrite N2 by discriminate; reflexivity).
      destruct (nz be); [specialize (Hna eq_refl); congruence|]. destruct s'; reflexivity. }
    assert (HA1 : holds m1 BufA M K A) by (eapply holds_local; [intros; apply Dt; discriminate|exact HA]).
    assert (HB1 : holds m1 BufB K N B) by (eapply holds_local; [intros; apply Dt; discriminate|exact HB]).
    assert (LA : live m1 BufA = Some ba) by (rewrite Lv by discriminate; auto).
    assert (LB : live m1 BufB = Some bb) by (rewrite Lv by discriminate; auto).
    assert (K1 : s' <> KMN -> s <> KMN) by (intros Hk ->; apply Hk, N2; discriminate).
    eapply pok_mono.
    - eapply (after_ok ar nz M N K p c' s' x t false false be A B C0); auto.
      + intros Hk. destruct (Hg Hk) as (G1 & _). specialize (Hg2 Hk). destruct (Htail _ _ Hi) as [G| ->]; lia.
      + intros Enz Es. assert (s = NKM) by (rewrite <- Es; symmetry; auto).
        specialize (Hbe Enz ltac:(auto) _ _ Hi). unfold n_first_C_fits in Hbe. rewrite Es in HP, Hc'. cbn [plan] in HP. destruct HP as (F' & _).
        destruct (ctx_for_pos ar NKM c' Har Hc') as (Hmr & Hnr).
        assert (Emr : mr c' = mr c) by apply Hsame. rewrite <- Emr, <- Enr in Hbe.
        pose proof (bf_Np _ _ _ _ _ _ _ _ _ F') as HNp. pose proof (bf_Npd _ _ _ _ _ _ _ _ _ F') as HNd.
        rewrite (roundup_uniq N (nr c') (N_padded x) Hnr HNd HNp) in Hbe.
        rewrite (roundup_uniq M (mr c') (M_padded x) Hmr (bf_Md _ _ _ _ _ _ _ _ _ F') (bf_Mp _ _ _ _ _ _ _ _ _ F')) in Hbe. exact Hbe.
      + destruct s'; cbn [opA_s]; exists ba; auto.
      + assert (R : s' <> KMN -> at_least m1 BufB (K * N) /\ holds m1 BufB K N B /\ B_rim m1 N K (nr c') t).
        { intros Hk. split; [exists bb; auto|split; [auto|]]. rewrite Enr. intros k j Hk' Hj.
          destruct (Hrim (K1 Hk) k j Hk' Hj) as (bi & v & R1 & R2 & R3). exists bi, v.
          rewrite Lv, Dt by discriminate. auto. }
        destruct s'; cbn [opB_s]; [exists bb; auto|apply R; discriminate|apply R; discriminate|congruence].
      + exists bc. rewrite Lv by discriminate. auto.
      + intros Enz Hk. eapply holds_local; [intros; apply Dt; discriminate|exact (HC0 Enz (K1 Hk))].
      + intros b Hu' Hb. rewrite Lv; auto. intros ->. destruct Hu' as [E'|[E'|[E'|(k & _ & E')]]]; discriminate.
      + unfold m1. rewrite live_alloc. cbn. discriminate.
    - cbv beta. intros r m' (E1 & E2 & E3 & E4). split; [auto|split; [|auto]].
      intros i j Hi' Hj. rewrite (E2 i j Hi' Hj). unfold product_plus. now rewrite Eacc. }
  destruct oc as [c0|].
  - exact (sgemm_call S F ar q nz M N K p c0 false false al be s mcu kcu ncu x c' _ m0 Hi Hfr Body).
  - exact (sgemm_call_null S F ar q nz M N K p false false al be s mcu kcu ncu x c' _ m0 Hi Hfr Hown Body).
Qed.

Theorem cake_sgemm_ok_at F ar q nz M N K p oc al be s mcu kcu ncu t :
  let c := match oc with Some c => c | None => q end in
  arch_ok ar -> ctx_for ar s c -> 0 <= M -> 0 <= N -> 0 <= K -> 0 < p ->
  tiles_ok F M p c mcu kcu ncu ->
  (nz be = true -> s <> NA) ->
  (nz be = true -> s = NKM ->
     user_tiles c mcu kcu ncu /\ n_first_C_fits M N p (mr c) (nr c) mcu ncu) ->
  (t = 0 \/ (user_tiles c mcu kcu ncu /\ t = k_tail K p kcu)) ->
  exists ord c', orders K ord /\ same_ctx c c' /\
    (s = KMN -> exists x, init_block_dims F M N K p c KMN mcu kcu ncu = CRet (x, c') /\ ord = kmn_ord p x) /\
    forall A B C0 m0, caller m0 M N K A B -> (s <> KMN -> B_rim m0 N K (nr c) t) ->
      (nz be = true -> s <> KMN -> holds m0 BufC M N C0) ->
      pok (cake_sgemm S F ar q nz M N K p oc false false al be s mcu kcu ncu) m0
          (fun r m' => r = c' /\
             holds m' BufC M N (product_plus S A B (acc0 s (nz be) C0) ord) /\
             only_C_changed (start m0 oc) m' M N).
Proof.
  intros c Har Hc HM HN HK Hp Ht Hna Hbe Htail.
  apply cake_sgemm_ok_gen; auto.
  { intros Enz Es x c' E. destruct (Hbe Enz Es) as (U & Q).
    destruct (plan_ok F ar M N K p c s mcu kcu ncu) as (s' & x' & c2 & _ & _ & _ & Hi & _ & _ & Hu & _); auto.
    change (init_block_dims F M N K p c s mcu kcu ncu = CRet (x, c')) in E. rewrite E in Hi. injection Hi as -> ->.
    destruct (Hu U) as (-> & _ & ->). exact Q. }
  intros x c' E. destruct Htail as [Et|(U & Et)]; [auto|left].
  destruct (plan_ok F ar M N K p c s mcu kcu ncu) as (s' & x' & c2 & _ & _ & _ & Hi & _ & _ & Hu & _); auto.
  change (init_block_dims F M N K p c s mcu kcu ncu = CRet (x, c')) in E. rewrite E in Hi. injection Hi as -> ->. destruct (Hu U) as (_ & -> & _). rewrite Et.
  destruct U as (_ & U & _). pose proof (k_tail_nonneg K p kcu HK Hp U). lia.
Qed.

Theorem cake_sgemm_ok F ar q nz M N K p oc al be s mcu kcu ncu t :
  let c := match oc with Some c => c | None => q end in
  arch_ok ar -> ctx_for ar s c -> 0 <= M -> 0 <= N -> 0 <= K -> 0 < p ->
  tiles_ok F M p c mcu kcu ncu ->
  (nz be = true -> s <> NA) ->
  (nz be = true -> s = NKM ->
     user_tiles c mcu kcu ncu /\ n_first_C_fits M N p (mr c) (nr c) mcu ncu) ->
  (t = 0 \/ (user_tiles c mcu kcu ncu /\ t = k_tail K p kcu)) ->
  exists ord c', orders K ord /\ same_ctx c c' /\
    forall A B C0 m0, caller m0 M N K A B -> (s <> KMN -> B_rim m0 N K (nr c) t) ->
      (nz be = true -> s <> KMN -> holds m0 BufC M N C0) ->
      pok (cake_sgemm S F ar q nz M N K p oc false false al be s mcu kcu ncu) m0
          (fun r m' => r = c' /\
             holds m' BufC M N (product_plus S A B (acc0 s (nz be) C0) ord) /\
             only_C_changed (start m0 oc) m' M N).
Proof.
  intros c Har Hc HM HN HK Hp Ht Hna Hbe Htail.
  destruct (cake_sgemm_ok_at F ar q nz M N K p oc al be s mcu kcu ncu t Har Hc HM HN HK Hp Ht Hna Hbe Htail)
    as (ord & c' & H1 & H2 & _ & H3). exists ord, c'. auto.
Qed.

End CallAll.
