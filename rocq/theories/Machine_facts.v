(** * Tile sizes on a machine with IEEE arithmetic. *)

From Coq Require Import ZArith Bool Lia.
From Flocq Require Import BinarySingleNaN.
From Verif Require Import Lang Spec SpecTop SpecSizing SpecOnline SpecTile ModelSizing ModelDouble ModelIEEE Double_facts
     IEEE_facts IEEE32_facts Sched_facts Pn_facts Sizing_facts Init_facts Cover_facts.
Open Scope Z_scope.

Lemma round_down_rem x r : 0 <= x -> 0 < r -> x - Z.rem x r = round_down x r.
Proof.
  intros Hx Hr. unfold round_down. rewrite Z.rem_mod_nonneg by lia. pose proof (Z.div_mod x r ltac:(lia)). lia.
Qed.

Lemma round_down_facts x r : 0 <= x -> 0 < r -> 0 <= round_down x r <= x /\ x < round_down x r + r /\ (r | round_down x r).
Proof.
  intros Hx Hr. unfold round_down. pose proof (Z.div_mod x r ltac:(lia)). pose proof (Z.mod_pos_bound x r Hr).
  pose proof (Z.div_pos x r Hx Hr). split; [nia|split; [nia|apply Z.divide_factor_r]].
Qed.

(** the two sides *)
Lemma L2_side_ex c : machine c -> exists n, fp_mcL2 ieee (nr c) (L2 c) = n /\ L2_side c n /\ n < 2 ^ 15.
Proof.
  intros (Hmr & Hnr & Ht & H1 & H2 & H3). destruct (mcL2_greatest (nr c) (L2 c) ltac:(lia) H2) as (n & E & Hn & B).
  exists n. cbn. rewrite E. split; [reflexivity|]. split; [|nia]. unfold L2_side, greatest, bytes. repeat split; nia.
Qed.

Lemma L3_side_ex c : machine c -> exists n, fp_mcL3 ieee (L3 c) (ncores c) = n /\ L3_side c n /\ n < 2 ^ 14.
Proof.
  intros (Hmr & Hnr & Ht & H1 & H2 & H3). destruct (mcL3_greatest (L3 c) (ncores c) Ht H3) as (n & E & Hn & B).
  exists n. cbn. rewrite E. split; [reflexivity|]. split.
  - unfold L3_side, greatest, bytes. repeat split; nia.
  - set (d := ncores c * (ncores c + 2)) in *. assert (3 <= d) by (unfold d; nia). nia.
Qed.

Lemma greatest_unique (P : Z -> Prop) a b : (forall x y, 0 <= x <= y -> P y -> P x) -> greatest P a -> greatest P b -> a = b.
Proof.
  intros HP (Ha & Pa & Na) (Hb & Pb & Nb). destruct (Z.lt_trichotomy a b) as [L|[E|L]]; [exfalso|auto|exfalso].
  - apply Na. apply (HP (a + 1) b); [lia|auto].
  - apply Nb. apply (HP (b + 1) a); [lia|auto].
Qed.

Lemma L2_side_unique c a b : machine c -> L2_side c a -> L2_side c b -> a = b.
Proof.
  intros (Hmr & Hnr & _). apply greatest_unique. intros x y H. unfold bytes. intros. nia.
Qed.

Lemma L3_side_unique c a b : machine c -> L3_side c a -> L3_side c b -> a = b.
Proof.
  intros (Hmr & Hnr & Ht & _). apply greatest_unique. intros x y H. unfold bytes. intros.
  assert (x * x <= y * y) by nia. assert (0 <= ncores c * ncores c) by nia. nia.
Qed.

Lemma mcL2_is c n : machine c -> L2_side c n -> fp_mcL2 ieee (nr c) (L2 c) = n /\ n < 2 ^ 15.
Proof.
  intros Hm H. destruct (L2_side_ex c Hm) as (n' & E & H' & B). rewrite (L2_side_unique c n n' Hm H H'). auto.
Qed.

Lemma mcL3_is c n : machine c -> L3_side c n -> fp_mcL3 ieee (L3 c) (ncores c) = n /\ n < 2 ^ 14.
Proof.
  intros Hm H. destruct (L3_side_ex c Hm) as (n' & E & H' & B). rewrite (L3_side_unique c n n' Hm H H'). auto.
Qed.

Lemma alpha_is c n2 n3 : machine c -> L2_side c n2 -> L3_side c n3 ->
  alpha_of ieee c = (round_down n3 (mr c), round_down n2 (mr c)).
Proof.
  intros Hm H2 H3. unfold alpha_of. rewrite (proj1 (mcL2_is c n2 Hm H2)), (proj1 (mcL3_is c n3 Hm H3)).
  destruct Hm as (Hmr & _). destruct H2 as (? & _). destruct H3 as (? & _). now rewrite !round_down_rem by lia.
Qed.

(** ** Legal tiles *)

Theorem ieee_auto c M p mcu kcu ncu : machine c -> 2 * bytes (mr c) (mr c) (nr c) <= L2 c -> 0 <= M -> 0 < p -> fits_int c M p ->
  mcu = 0 \/ kcu = 0 \/ ncu = 0 -> auto_tiles ieee M p c mcu kcu ncu.
Proof.
  intros Hm HL HM Hp (HB & HF) Hu. split; [auto|].
  destruct (L2_side_ex c Hm) as (n2 & E2 & H2 & B2). destruct (L3_side_ex c Hm) as (n3 & E3 & H3 & B3).
  rewrite (alpha_is c n2 n3 Hm H2 H3), E2. destruct Hm as (Hmr & Hnr & _).
  assert (Hn2 : mr c <= n2).
  { destruct H2 as (N0 & N1 & N2). apply Z.nlt_ge. intros C. apply N2. unfold bytes in *. nia. }
  split; [auto|]. intros q x Hq Hx Hqx.
  destruct (round_down_facts n2 (mr c) ltac:(lia) Hmr) as (R1 & R2 & R3).
  assert (N30 : 0 <= n3) by apply H3. destruct (round_down_facts n3 (mr c) N30 Hmr) as (R4 & R5 & _).
  specialize (HF n2 n3 H2 H3). set (a := round_down n3 (mr c)) in *. set (b := round_down n2 (mr c)) in *.
  assert (Hb : 0 < b).
  { destruct R3 as (u & Hu'). nia. }
  assert (Q : a * q * x <= a * (M + p * mr c)) by (rewrite <- Z.mul_assoc; apply Z.mul_le_mono_nonneg_l; lia).
  assert (q <= M + p * mr c) by nia. assert (x <= M + p * mr c) by nia.
  destruct (scaled_int a b q x) as (v & Ev & V0 & _); try lia. eauto.
Qed.

Lemma round_down_ge x r : 0 < r <= x -> r <= round_down x r.
Proof. intros H. unfold round_down. assert (1 <= x / r) by (apply Z.div_le_lower_bound; lia). nia. Qed.

(** ** What get_cache_dims returns *)

Lemma clip_is M p m_r m : 0 <= M -> 0 < p -> 0 < m_r -> clip_mc M p m_r m = CRet (tile_for M p m_r m).
Proof.
  intros HM Hp Hmr. unfold clip_mc, tile_for. destruct (Z.ltb_spec M (p * m_r)); [reflexivity|].
  destruct (Z.ltb_spec M (p * m)); [|reflexivity]. rewrite idiv_pos by lia. cbn [cbind].
  rewrite Z.quot_div_nonneg by lia.
  assert (Ha : m_r <= M / p) by (apply Z.div_le_lower_bound; lia).
  destruct (Z.ltb_spec (M / p) m_r); [lia|]. rewrite imod_pos by lia. cbn [cbind]. f_equal.
  rewrite Z.rem_mod_nonneg by lia. pose proof (Z.div_mod (M / p) m_r ltac:(lia)). lia.
Qed.

Lemma tile_for_le M p m_r m : 0 <= M -> 0 < p -> 0 < m_r -> m_r <= m -> (m_r | m) ->
  m_r <= tile_for M p m_r m <= m /\ (m_r | tile_for M p m_r m) /\ (p * m <= M -> tile_for M p m_r m = m).
Proof.
  intros HM Hp Hmr Hm Hd. unfold tile_for. destruct (Z.ltb_spec M (p * m_r)).
  { repeat split; try lia; [apply Z.divide_refl|nia]. }
  destruct (Z.ltb_spec M (p * m)); [|repeat split; auto; lia].
  assert (Ha : m_r <= M / p) by (apply Z.div_le_lower_bound; lia).
  assert (Hb : M / p < m) by (apply Z.div_lt_upper_bound; lia).
  pose proof (Z.div_mod (M / p) m_r ltac:(lia)). pose proof (Z.mod_pos_bound (M / p) m_r ltac:(lia)).
  destruct Hd as (u & ->). set (a := M / p / m_r) in *.
  assert (a < u) by nia. assert (1 <= a) by nia.
  repeat split; [nia|nia|exists (a + 1); reflexivity|lia].
Qed.

Section Cache.

Variables (F : fpenv) (c : cntx) (s : sched) (M N K p mcu kcu ncu : Z).
Hypothesis HM : 0 <= M.
Hypothesis Hp : 0 < p.
Hypothesis Hmr : 0 < mr c.
Hypothesis Hnr : 0 < nr c.
Hypothesis Hu : mcu = 0 \/ kcu = 0 \/ ncu = 0.

Let m := snd (alpha_of F c).
Let mc := tile_for M p (mr c) m.
Let s' := match s with NA => derive_schedule F M N K p mc (alpha_of F c) | _ => s end.
Definition round_n (v r : Z) : Z := if v - Z.rem v r =? 0 then r else v - Z.rem v r.

Lemma init_inv x c' : init_block_dims F M N K p c s mcu kcu ncu = CRet (x, c') ->
  sch x = s' /\
  match s' with
  | NKM => exists v, fp_mul F (alpha_of F c) 1 mc = Some v /\ m_c x = round_n v (mr c) /\ k_c x = m_c x /\ n_c x = round_n mc (nr c)
  | NA => False
  | _ => exists v, fp_mul F (alpha_of F c) p mc = Some v /\ m_c x = mc /\ k_c x = mc /\ n_c x = round_n v (nr c)
  end.
Proof.
  unfold init_block_dims, get_cache_dims. rewrite !imod_pos by lia. cbn [cbind].
  fold (alpha_of F c). change (fp_mcL2 F (nr c) (L2 c) - Z.rem (fp_mcL2 F (nr c) (L2 c)) (mr c)) with m.
  change (fp_mcL3 F (L3 c) (ncores c) - Z.rem (fp_mcL3 F (L3 c) (ncores c)) (mr c)) with (fst (alpha_of F c)).
  change (fst (alpha_of F c), m) with (alpha_of F c).
  rewrite clip_is by lia. cbn [cbind]. fold mc s'.
  replace (truthy mcu && truthy ncu && truthy kcu) with false.
  2:{ unfold truthy. destruct (Z.eqb_spec mcu 0), (Z.eqb_spec ncu 0), (Z.eqb_spec kcu 0); (reflexivity || lia). }
  clearbody s'. destruct s'; try discriminate.
  1,2: destruct (fp_mul F (alpha_of F c) p mc) as [v|] eqn:Ev; [|discriminate]; cbn [ofopt cbind];
    rewrite imod_pos by lia; cbn [cbind fst cd_sch cd_m_c cd_k_c cd_n_c]; intros E;
    match type of E with cbind ?d _ = _ => destruct d as [y| |] eqn:Ed; try discriminate end;
    cbn [cbind] in E; injection E as -> _;
    (destruct (dims_fields KMN _ _ _ _ _ _ _ _ _ _ Ed) as (X1 & X2 & X3 & X4) ||
     destruct (dims_fields MKN _ _ _ _ _ _ _ _ _ _ Ed) as (X1 & X2 & X3 & X4));
    rewrite X1, X2, X3, X4; split; [reflexivity|exists v; repeat split; reflexivity].
  rewrite imod_pos by lia; cbn [cbind].
  destruct (fp_mul F (alpha_of F c) 1 mc) as [v|] eqn:Ev; [|discriminate]. cbn [ofopt cbind].
  rewrite imod_pos by lia; cbn [cbind fst cd_sch cd_m_c cd_k_c cd_n_c]; intros E;
    match type of E with cbind ?d _ = _ => destruct d as [y| |] eqn:Ed; try discriminate end;
    cbn [cbind] in E; injection E as -> _.
  destruct (dims_fields NKM _ _ _ _ _ _ _ _ _ _ Ed) as (X1 & X2 & X3 & X4).
  rewrite X1, X2, X3, X4. split; [reflexivity|exists v; repeat split; reflexivity].
Qed.

End Cache.

(** ** The tiles fit the caches *)

Lemma fit_arith p t x n n3 : 0 < p <= t -> 0 < x <= n3 -> 0 < n <= p * n3 ->
  bytes (p * x) x n <= bytes (t * n3) n3 (t * n3) /\ bytes x (p * x) n <= bytes (t * n3) n3 (t * n3).
Proof.
  intros Hp Hx Hn. unfold bytes. assert (B : n <= t * n3) by nia. assert (B2 : p * x <= t * n3) by nia.
  assert (A1 : p * x * x <= t * n3 * n3) by (apply Z.mul_le_mono_nonneg; nia).
  assert (A2 : x * n <= n3 * (t * n3)) by (apply Z.mul_le_mono_nonneg; lia).
  assert (A3 : p * x * n <= t * n3 * (t * n3)) by (apply Z.mul_le_mono_nonneg; nia).
  replace (x * (p * x)) with (p * x * x) by ring. lia.
Qed.

Section Fits.

Variables (c : cntx) (s : sched) (M N K p mcu kcu ncu : Z) (x : blk_dims) (c' : cntx).
Hypothesis Hm : machine c.
Hypothesis HL : 2 * bytes (mr c) (mr c) (nr c) <= L2 c.
Hypothesis HM : 0 <= M.
Hypothesis Hp : 0 < p.
Hypothesis Hu : mcu = 0 \/ kcu = 0 \/ ncu = 0.
Hypothesis HI : init_block_dims ieee M N K p c s mcu kcu ncu = CRet (x, c').

Lemma side2_ge n2 : L2_side c n2 -> mr c <= n2.
Proof.
  intros (N0 & N1 & N2). destruct Hm as (? & ? & _). apply Z.nlt_ge. intros C. apply N2. unfold bytes in *. nia.
Qed.

Lemma fits_L2 : sch x <> NKM ->
  2 * bytes (m_c x) (k_c x) (nr c) <= L2 c /\ m_c x = k_c x /\
  (forall n2, L2_side c n2 -> p * round_down n2 (mr c) <= M -> m_c x = round_down n2 (mr c)).
Proof.
  intros Hs. destruct (L2_side_ex c Hm) as (n2 & E2 & H2 & B2). destruct (L3_side_ex c Hm) as (n3 & E3 & H3 & B3).
  pose proof (side2_ge n2 H2) as G. assert (Hmr : 0 < mr c) by apply Hm. assert (Hnr : 0 < nr c) by apply Hm.
  destruct (init_inv ieee c s M N K p mcu kcu ncu HM Hp Hmr Hnr Hu x c' HI) as (Es & R).
  rewrite (alpha_is c n2 n3 Hm H2 H3) in *. cbn [snd] in *.
  assert (N0 : 0 <= n2) by apply H2. destruct (round_down_facts n2 (mr c) N0 Hmr) as (R1 & R2 & R3).
  set (m := round_down n2 (mr c)) in *. set (mc := tile_for M p (mr c) m) in *. set (s' := match s with NA => _ | _ => _ end) in *.
  assert (Gm : mr c <= m) by (apply round_down_ge; lia).
  destruct (tile_for_le M p (mr c) m HM Hp Hmr Gm R3) as (T1 & T2 & T3). fold mc in T1, T2, T3.
  assert (E : m_c x = mc /\ k_c x = mc).
  { rewrite Es in Hs. destruct s'; [destruct R as (v & _ & ? & ? & _); auto|destruct R as (v & _ & ? & ? & _); auto|congruence|easy]. }
  destruct E as (-> & ->). split; [|split; [auto|]].
  - destruct H2 as (_ & W & _). unfold bytes in *. nia.
  - intros n2' H2' Hbig. rewrite (L2_side_unique c n2' n2 Hm H2' H2) in *. fold m in Hbig |- *. auto.
Qed.

Lemma fits_L3 n2 n3 : sch x <> NKM -> L2_side c n2 -> L3_side c n3 -> p <= ncores c ->
  round_down n2 (mr c) <= round_down n3 (mr c) -> nr c <= p * round_down n3 (mr c) ->
  (sch x = KMN -> 2 * bytes (p * m_c x) (k_c x) (n_c x) <= L3 c) /\
  (sch x = MKN -> 2 * bytes (m_c x) (p * k_c x) (n_c x) <= L3 c).
Proof.
  intros Hs H2 H3 Hpt H23 Hn.
  pose proof (side2_ge n2 H2) as G. assert (Hmr : 0 < mr c) by apply Hm. assert (Hnr : 0 < nr c) by apply Hm.
  destruct (mcL2_is c n2 Hm H2) as (E2 & B2). destruct (mcL3_is c n3 Hm H3) as (E3 & B3).
  destruct (init_inv ieee c s M N K p mcu kcu ncu HM Hp Hmr Hnr Hu x c' HI) as (Es & R).
  rewrite (alpha_is c n2 n3 Hm H2 H3) in *. cbn [snd] in *.
  assert (N0 : 0 <= n2) by apply H2. destruct (round_down_facts n2 (mr c) N0 Hmr) as (R1 & R2 & R3).
  assert (N3 : 0 <= n3) by apply H3. destruct (round_down_facts n3 (mr c) N3 Hmr) as (R4 & R5 & _).
  set (m := round_down n2 (mr c)) in *. set (a := round_down n3 (mr c)) in *.
  set (mc := tile_for M p (mr c) m) in *. set (s' := match s with NA => _ | _ => _ end) in *.
  assert (Gm : mr c <= m) by (apply round_down_ge; lia).
  destruct (tile_for_le M p (mr c) m HM Hp Hmr Gm R3) as (T1 & T2 & T3). fold mc in T1, T2, T3.
  assert (E : exists v, fp_mul ieee (a, m) p mc = Some v /\ m_c x = mc /\ k_c x = mc /\ n_c x = round_n v (nr c)).
  { rewrite Es in Hs. destruct s'; auto; [congruence|easy]. }
  destruct E as (v & Ev & -> & -> & ->).
  assert (Ht : 0 < ncores c <= 2 ^ 10) by apply Hm.
  assert (Bpm : p * mc <= 2 ^ 25) by nia.
  assert (Hv : 0 <= v <= p * a).
  { destruct (scaled_int a m p mc) as (v' & Ev' & V0 & V1 & V2); try lia.
    - assert (a * p * mc <= 2 ^ 14 * 2 ^ 10 * m) by nia. nia.
    - change (to_int (ieee_scaled (a, m) p mc) = Some v) in Ev. rewrite Ev' in Ev. injection Ev as <-.
      split; [auto|]. assert (m * v' <= m * (p * a)) by nia. nia. }
  assert (Hr : 0 < round_n v (nr c) <= p * a).
  { pose proof (div_round v (nr c) _ Hnr (proj1 Hv) eq_refl) as (W1 & _ & W2). unfold round_n. lia. }
  set (n := round_n v (nr c)) in *.
  assert (n <= p * n3) by nia.
  destruct (fit_arith p (ncores c) mc n n3) as (F1 & F2); try lia.
  destruct H3 as (_ & W & _). split; intros _; lia.
Qed.

End Fits.

(** ** The schedule chosen *)

Theorem ieee_schedule c M N K p n2 n3 mcu kcu ncu x c' :
  machine c -> L2_side c n2 -> L3_side c n3 -> mr c <= n2 -> mr c <= n3 ->
  0 < M < 2 ^ 24 -> 0 < N < 2 ^ 24 -> 0 <= K <= 2 ^ 24 -> 0 < p ->
  mcu = 0 \/ kcu = 0 \/ ncu = 0 ->
  let k := p * tile_for M p (mr c) (round_down n2 (mr c)) in
  k <= 2 ^ 24 -> M * k <= 2 ^ 22 -> N * k <= 2 ^ 22 ->
  init_block_dims ieee M N K p c NA mcu kcu ncu = CRet (x, c') -> sch x = choice M N K k.
Proof.
  intros Hm H2 H3 G2 G3 HM HN HK Hp Hu k Hk HMk HNk HI.
  assert (Hmr : 0 < mr c) by apply Hm. assert (Hnr : 0 < nr c) by apply Hm.
  destruct (mcL2_is c n2 Hm H2) as (E2 & B2). destruct (mcL3_is c n3 Hm H3) as (E3 & B3).
  destruct (init_inv ieee c NA M N K p mcu kcu ncu ltac:(lia) Hp Hmr Hnr Hu x c' HI) as (Es & _).
  rewrite (alpha_is c n2 n3 Hm H2 H3) in *. cbn [snd] in *.
  assert (N0 : 0 <= n2) by apply H2. destruct (round_down_facts n2 (mr c) N0 Hmr) as (R1 & R2 & R3).
  assert (N3 : 0 <= n3) by apply H3. destruct (round_down_facts n3 (mr c) N3 Hmr) as (R4 & R5 & R6).
  set (m := round_down n2 (mr c)) in *. set (a := round_down n3 (mr c)) in *.
  assert (Gm : mr c <= m) by (apply round_down_ge; lia).
  assert (Ga : mr c <= a) by (apply round_down_ge; lia).
  destruct (tile_for_le M p (mr c) m ltac:(lia) Hp Hmr Gm R3) as (T1 & T2 & T3).
  set (mc := tile_for M p (mr c) m) in *. rewrite Es. unfold derive_schedule, choice. cbn [fp_mkn fp_nkm ieee].
  assert (p <= k) by (unfold k; nia).
  rewrite !first_exact by (unfold k in *; lia). unfold k_small. fold k.
  now rewrite !(Z.add_comm k).
Qed.

(** when N <= M and K is small the M-first schedule is chosen whatever the size *)
Theorem ieee_schedule_M c M N K p n2 n3 mcu kcu ncu x c' :
  machine c -> L2_side c n2 -> L3_side c n3 -> mr c <= n2 -> mr c <= n3 ->
  0 < M < 2 ^ 24 -> 0 < N < 2 ^ 24 -> 0 <= K <= 2 ^ 24 -> 0 < p ->
  mcu = 0 \/ kcu = 0 \/ ncu = 0 ->
  let k := p * tile_for M p (mr c) (round_down n2 (mr c)) in
  k <= 2 ^ 24 -> 
  init_block_dims ieee M N K p c NA mcu kcu ncu = CRet (x, c') ->
  (choice M N K k = MKN -> sch x = MKN) /\ (M < N -> choice M N K k = NKM -> sch x = NKM) /\
  (sch x = MKN -> N <= M) /\ (sch x = NKM -> M <= N).
Proof.
  intros Hm H2 H3 G2 G3 HM HN HK Hp Hu k Hk HI.
  assert (Hmr : 0 < mr c) by apply Hm. assert (Hnr : 0 < nr c) by apply Hm.
  destruct (mcL2_is c n2 Hm H2) as (E2 & B2). destruct (mcL3_is c n3 Hm H3) as (E3 & B3).
  destruct (init_inv ieee c NA M N K p mcu kcu ncu ltac:(lia) Hp Hmr Hnr Hu x c' HI) as (Es & _).
  rewrite (alpha_is c n2 n3 Hm H2 H3) in *. cbn [snd] in *.
  assert (N0 : 0 <= n2) by apply H2. destruct (round_down_facts n2 (mr c) N0 Hmr) as (R1 & R2 & R3).
  assert (N3 : 0 <= n3) by apply H3. destruct (round_down_facts n3 (mr c) N3 Hmr) as (R4 & R5 & R6).
  set (m := round_down n2 (mr c)) in *. set (a := round_down n3 (mr c)) in *.
  assert (Gm : mr c <= m) by (apply round_down_ge; lia).
  assert (Ga : mr c <= a) by (apply round_down_ge; lia).
  destruct (tile_for_le M p (mr c) m ltac:(lia) Hp Hmr Gm R3) as (T1 & T2 & T3).
  set (mc := tile_for M p (mr c) m) in *. rewrite Es. unfold derive_schedule, choice. cbn [fp_mkn fp_nkm ieee].
  assert (p <= k) by (unfold k; nia).
  assert (DM : forall D E, 0 < D < 2 ^ 24 -> 0 < E < 2 ^ 24 ->
    ieee_first D E K p mc (a, m) = (E <=? D) && Bleb (single_of_int K) (ieee_K_cut D p mc)).
  { intros D E HD HE. unfold ieee_first. now rewrite D_cut_cmp by (unfold k in *; lia). }
  assert (KL : forall D, 0 < D < 2 ^ 24 -> K * (D + k) <= 2 * D * k -> Bleb (single_of_int K) (ieee_K_cut D p mc) = true).
  { intros D HD L. apply K_cut_le; try (fold k; lia). }
  rewrite !DM by lia.
  destruct (Z.leb_spec N M), (Z.leb_spec M N); cbn [andb];
    destruct (Z.leb_spec (K * (M + k)) (2 * M * k)) as [LM|LM]; destruct (Z.leb_spec (K * (N + k)) (2 * N * k)) as [LN|LN];
    rewrite ?(KL M) by lia; rewrite ?(KL N) by lia;
    repeat match goal with |- context[if ?b then _ else _] => destruct b end; repeat split; intros; try congruence; try lia.
Qed.

(** no room for an L3 tile: always K-first *)
Theorem ieee_schedule_no_L3 c M N K p n2 n3 mcu kcu ncu x c' :
  machine c -> L2_side c n2 -> L3_side c n3 -> mr c <= n2 -> n3 < mr c ->
  0 <= M < 2 ^ 31 -> 0 <= N < 2 ^ 31 -> 0 < p <= 2 ^ 31 ->
  mcu = 0 \/ kcu = 0 \/ ncu = 0 ->
  init_block_dims ieee M N K p c NA mcu kcu ncu = CRet (x, c') -> sch x = KMN.
Proof.
  intros Hm H2 H3 G2 G3 HM HN Hp Hu HI.
  assert (Hmr : 0 < mr c) by apply Hm. assert (Hnr : 0 < nr c) by apply Hm.
  destruct (mcL2_is c n2 Hm H2) as (E2 & B2). destruct (mcL3_is c n3 Hm H3) as (E3 & B3).
  destruct (init_inv ieee c NA M N K p mcu kcu ncu ltac:(lia) ltac:(lia) Hmr Hnr Hu x c' HI) as (Es & _).
  rewrite (alpha_is c n2 n3 Hm H2 H3) in *. cbn [snd] in *.
  assert (N0 : 0 <= n2) by apply H2. destruct (round_down_facts n2 (mr c) N0 Hmr) as (R1 & R2 & R3).
  assert (N3 : 0 <= n3) by apply H3.
  replace (round_down n3 (mr c)) with 0 in Es by (unfold round_down; rewrite Z.div_small; lia).
  set (m := round_down n2 (mr c)) in *.
  assert (Gm : mr c <= m) by (apply round_down_ge; lia).
  destruct (tile_for_le M p (mr c) m ltac:(lia) ltac:(lia) Hmr Gm R3) as (T1 & T2 & T3).
  rewrite Es. unfold derive_schedule. cbn [fp_mkn fp_nkm ieee]. now rewrite !first_zero by lia.
Qed.

(** an L2 too small for a register tile: the cast of alpha_n * ... is undefined *)
Lemma ieee_mul_zero a q x : fp_mul ieee (a, 0) q x = None.
Proof.
  cbn [fp_mul ieee]. unfold ieee_scaled, ieee_alpha. cbn [fst snd].
  assert (E : is_finite (ddiv (of_int a) (of_int 0)) = false).
  { change (of_int 0) with (B754_zero false : double). destruct (of_int a) as [[]|[]| |[] ? ? ?]; reflexivity. }
  assert (P : forall y z : double, is_finite y = false -> is_finite (dmul y z) = false).
  { intros y z. destruct y as [[]|[]| |[] ? ? ?]; try discriminate; intros _; destruct z as [[]|[]| |[] ? ? ?]; reflexivity. }
  unfold to_int. now rewrite (P _ _ (P _ _ E)).
Qed.

Theorem ieee_small_L2 c s M N K p n2 mcu kcu ncu : machine c -> L2_side c n2 -> n2 < mr c -> 0 <= M -> 0 < p ->
  mcu = 0 \/ kcu = 0 \/ ncu = 0 -> init_block_dims ieee M N K p c s mcu kcu ncu = CUB.
Proof.
  intros Hm H2 G HM Hp Hu. apply small_L2_UB; auto; try apply Hm.
  - rewrite (proj1 (mcL2_is c n2 Hm H2)). split; [apply H2|auto].
  - intros. apply ieee_mul_zero.
Qed.

(** ** The two-dimensional variants *)

Theorem ieee_2d c : machine c -> 4 * (mr c * nr c) <= L1 c ->
  exists k m, fp_kcmax ieee (L1 c) (mr c) (nr c) = k /\ greatest (fun k => bytes (mr c) k (nr c) <= L1 c) k /\
    fp_mc2d ieee (nr c) (L2 c) = m /\ greatest (fun m => 4 * (m * m + m * nr c + m * m) <= L2 c) m.
Proof.
  intros (Hmr & Hnr & Ht & H1 & H2 & H3) HL.
  destruct (kcmax_greatest (L1 c) (mr c) (nr c) Hmr ltac:(lia) ltac:(lia)) as (k & Ek & K0 & KB).
  destruct (mc2d_greatest (nr c) (L2 c) ltac:(lia) H2) as (m & Em & M0 & MB).
  exists k, m. cbn [fp_kcmax fp_mc2d ieee]. rewrite Ek, Em. cbn [or0]. unfold greatest, bytes. clear Ek Em.
  replace (4 * (m * m + m * nr c + m * m)) with (8 * m * m + 4 * nr c * m) by ring.
  replace (4 * ((m + 1) * (m + 1) + (m + 1) * nr c + (m + 1) * (m + 1))) with (8 * (m + 1) * (m + 1) + 4 * nr c * (m + 1)) by ring.
  replace (4 * (mr c * k + k * nr c + mr c * nr c)) with (4 * (k * (mr c + nr c) + mr c * nr c)) by ring.
  replace (4 * (mr c * (k + 1) + (k + 1) * nr c + mr c * nr c)) with (4 * ((k + 1) * (mr c + nr c) + mr c * nr c)) by ring.
  split; [reflexivity|]. split; [split; [exact K0|split; [apply KB|apply Z.lt_nge, KB]]|].
  split; [reflexivity|]. split; [exact M0|split; [apply MB|apply Z.lt_nge, MB]].
Qed.

Theorem ieee_grid p N M : 0 < M < 2 ^ 31 -> 0 < p < 2 ^ 31 -> 0 <= N < 2 ^ 31 -> p * N <= 2 ^ 19 ->
  nearest_root (p * N) M (fp_pn ieee p N M).
Proof.
  intros HM Hp HN HB. destruct (pn_nearest p N M HM Hp HN HB) as (v & E & V). cbn. rewrite E. exact V.
Qed.

Theorem ieee_2d_tiles c : machine c -> bytes (mr c) 1 (nr c) <= L1 c -> 4 * (mr c * mr c + mr c * nr c + mr c * mr c) <= L2 c ->
  forall mcu kcu ncu, mcu = 0 \/ kcu = 0 \/ ncu = 0 -> tiles_2d ieee c mcu kcu ncu.
Proof.
  intros Hm H1 H2 mcu kcu ncu Hu. right. split; [auto|]. assert (Hmr : 0 < mr c) by apply Hm. assert (Hnr : 0 < nr c) by apply Hm.
  destruct (ieee_2d c Hm) as (k & m & -> & (K0 & _ & KB) & -> & (M0 & _ & MB)).
  { unfold bytes in H1. nia. }
  split.
  - apply Z.nlt_ge. intros C. apply MB. assert (m + 1 <= mr c) by lia. nia.
  - apply Z.nle_gt. intros C. apply KB. replace (k + 1) with 1 by lia. auto.
Qed.
