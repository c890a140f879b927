(** * Tiles so large that no full block occurs: the program does not depend on them. *)

From Coq Require Import ZArith List Bool Lia FunctionalExtensionality.
From Verif Require Import Lang Lang_facts Spec SpecTop SpecMisfit ModelSizing ModelKernel ModelPack ModelSched ModelTop
     Sizing_facts Init_facts Frame_facts TopK_facts Small2d_facts.
Import ListNotations.
Open Scope Z_scope.

Section Ext.
Context {V : Type}.

Lemma piter_in {R} n i st (f g : Z -> R -> prog V R) s :
  (forall j s, (j < n)%nat -> f (i + Z.of_nat j * st) s = g (i + Z.of_nat j * st) s) -> piter n i st f s = piter n i st g s.
Proof.
  revert i s. induction n as [|n IH]; intros i s E; cbn [piter]; [auto|].
  rewrite <- (Z.add_0_r i) at 1. rewrite <- (Z.add_0_r i) at 2. pose proof (E 0%nat s ltac:(lia)) as E0.
  replace (i + Z.of_nat 0 * st) with (i + 0) in E0 by lia. rewrite E0.
  apply pbind_ext. intros r. apply IH. intros j s' Hj. specialize (E (Datatypes.S j) s' ltac:(lia)).
  replace (i + st + Z.of_nat j * st) with (i + Z.of_nat (Datatypes.S j) * st) by lia. exact E.
Qed.

Lemma count_in lo hi st j : 0 < st -> (j < loop_count lo hi st)%nat -> lo <= lo + Z.of_nat j * st < hi.
Proof.
  unfold loop_count. intros Hs Hj. assert (Z.of_nat j < (hi - lo + st - 1) / st) by lia.
  pose proof (Z.mul_div_le (hi - lo + st - 1) st Hs). nia.
Qed.

Lemma pfor_in {R} lo hi st (s : R) (f g : Z -> R -> prog V R) :
  (forall i s, lo <= i < hi -> f i s = g i s) -> pfor lo hi st s f = pfor lo hi st s g.
Proof.
  intros E. unfold pfor. destruct (Z.ltb_spec 0 st); [|reflexivity]. apply piter_in. intros j s' Hj. apply E.
  now apply count_in.
Qed.

Lemma ppar_in lo hi st (f g : Z -> thr V unit) :
  (forall i, lo <= i < hi -> f i = g i) -> ppar_for lo hi st f = ppar_for lo hi st g.
Proof.
  intros E. unfold ppar_for. destruct (Z.ltb_spec 0 st); [|reflexivity]. f_equal. apply map_ext_in.
  intros a Ha. apply E. apply In_nth_error in Ha. destruct Ha as (j & Hj).
  assert (L : (j < loop_count lo hi st)%nat).
  { rewrite <- (zseq_length (loop_count lo hi st) lo st). apply nth_error_Some. congruence. }
  rewrite zseq_nth in Hj by auto. injection Hj as <-. now apply count_in.
Qed.

Lemma psnake_in rev nb (f g : Z -> prog V unit) :
  (forall i, 0 <= i < nb -> f i = g i) ->
  let s := snake rev nb in pfor_ne_ (sn_start s) (sn_end s) (sn_inc s) f = pfor_ne_ (sn_start s) (sn_end s) (sn_inc s) g.
Proof.
  intros E. cbv zeta. unfold pfor_ne_, pfor_ne. destruct (_ && _); [|reflexivity]. apply piter_in. intros j _ Hj. apply E.
  destruct rev; cbn [snake sn_start sn_end sn_inc fst snd] in *; lia.
Qed.

End Ext.

(** The record with other tile sizes. *)
Definition setm (x : blk_dims) (mc : Z) : blk_dims :=
  BD mc (k_c x) (n_c x) (m_c1 x) (k_c1 x) (n_c1 x) (m_c1_last_core x) (n_c1_last_core x) (k_c1_last_core x)
     (mr_rem x) (nr_rem x) (k_rem x) (p_l x) (pm_l x) (pn_l x) (pm x) (pn x) (m_pad x) (k_pad x) (n_pad x)
     (Mb x) (Kb x) (Nb x) (M_padded x) (N_padded x) (sch x).
Definition setn (x : blk_dims) (nc : Z) : blk_dims :=
  BD (m_c x) (k_c x) nc (m_c1 x) (k_c1 x) (n_c1 x) (m_c1_last_core x) (n_c1_last_core x) (k_c1_last_core x)
     (mr_rem x) (nr_rem x) (k_rem x) (p_l x) (pm_l x) (pn_l x) (pm x) (pn x) (m_pad x) (k_pad x) (n_pad x)
     (Mb x) (Kb x) (Nb x) (M_padded x) (N_padded x) (sch x).

(** At most one block, and that one is the short one. *)
Definition single (nb pad : Z) : Prop := forall b, 0 <= b < nb -> b = 0 /\ is_last b nb pad = true.

Lemma single_pad D t : 0 <= D < t -> single (Z.quot D t + pad01 (Z.rem D t)) (pad01 (Z.rem D t)).
Proof.
  intros H b Hb. rewrite Z.quot_small, Z.rem_small in * by lia. unfold pad01, truthy, is_last in *.
  destruct (Z.eqb_spec D 0); cbn [negb] in *; [lia|]. assert (b = 0) as -> by lia. auto.
Qed.

Lemma rem_large D t t' : 0 <= D < t -> 0 <= D < t' -> Z.rem D t = Z.rem D t' /\ Z.quot D t = Z.quot D t'.
Proof. intros H H'. rewrite !Z.rem_small, !Z.quot_small by lia. auto. Qed.

(** ** The K-first program with an accumulator of [L] elements per core *)

Section Prog.

Variable S : scalar.
Notation T := (elt S).

Definition kmn_unpack_L (L : Z) (C : ptr) (M N p : Z) (c : cntx) (x : blk_dims) (n m core : Z) : thr T unit :=
  let mx := core_mx x m in
  let C_offset := m * p * m_c x * N + n * n_c x in
  (unpack_ob_C_single_buf S (padd C (C_offset + core * mx * N)) (BufCp core, 0)
     M N (blk_m1 x M p m) (blk_n1 x N n) (core * mx) (core_mt x m core) (blk_nt x n) (mr c) (nr c) ;;+
   memset0 S (BufCp core, 0) L)%thr.

Definition schedule_L (L : Z) (ar : arch) (A_p B_p C : ptr) (M N K p : Z) (c : cntx) (x : blk_dims) : prog T unit :=
  pfor_ 0 (Nb x) 1 (fun n =>
    let ms := snake (odd2 n) (Mb x) in
    pfor_ne_ (sn_start ms) (sn_end ms) (sn_inc ms) (fun m =>
      (ppar_for 0 (blk_pu x p m) 1 (kmn_core S ar A_p B_p K p c x n m) ;;;
       ppar_for 0 (blk_pu x p m) 1 (kmn_unpack_L L C M N p c x n m))%prog)).

Definition mid_L (L : Z) (ar : arch) (nz : T -> bool) (M N K p : Z) (beta : T) (x : blk_dims) (c : cntx)
           (A_p B_p : ptr) : prog T unit :=
  (match sch x with
   | KMN =>
       alloc_Cp S p L ;;;
       schedule_L L ar A_p B_p (BufC, 0) M N K p c x ;;;
       free_Cp S p
   | _ =>
       let* sz := lift S (packed_C_size M N p x (mr c) (nr c) (sch x)) in
       (if nz beta then
          palloc (BufCp 0) sz true None ;;;
          pack_C S (BufC, 0) (BufCp 0, 0) M N p x c (sch x)
        else palloc (BufCp 0) sz false (Some (zero S))) ;;;
       schedule S ar A_p B_p (BufCp 0, 0) M N K p c x (sch x) ;;;
       unpack_C S (BufC, 0) (BufCp 0, 0) M N p x c (sch x) ;;;
       pfree (BufCp 0)
   end)%prog.

Definition after_L (L : Z) (ar : arch) (nz : T -> bool) (M N K p : Z) (pa pb : bool) (beta : T)
           (xc : blk_dims * cntx) : prog T cntx :=
  let x := fst xc in
  let c := snd xc in
  sgemm_rest S pa pb (packed_A_size M K p x (mr c) (sch x)) (packed_B_size K N x (nr c))
    (pack_A S (BufA, 0) (BufAp 0, 0) M K p x c (sch x))
    (pack_B S (BufB, 0) (BufBp, 0) K N p x c (sch x))
    (mid_L L ar nz M N K p beta x c) c.

Lemma after_is_L ar nz M N K p pa pb be x c :
  sgemm_after S ar nz M N K p pa pb be (x, c) = after_L (m_c x * n_c x) ar nz M N K p pa pb be (x, c).
Proof. reflexivity. Qed.

Variables (ar : arch) (nz : T -> bool) (M N K p : Z) (pa pb : bool) (be : T).

Section Rows.

Variables (L : Z) (x : blk_dims) (c : cntx) (mc : Z).
Hypothesis Hbe : sch x <> KMN -> nz be = false.
Hypothesis HM : single (Mb x) (m_pad x).
Let tM (s : sched) (t : Z) := match s with MKN => t | _ => p * t end.
Hypothesis Hr : 0 <= M < tM (sch x) (m_c x).
Hypothesis Hr' : 0 <= M < tM (sch x) mc.

Ltac single_m m := match goal with H : 0 <= m < Mb _ |- _ => destruct (HM m H) as (? & ?) end.

(** terms depending on the block of rows *)
Lemma mt_set m core : 0 <= m < Mb x -> core_mt (setm x mc) m core = core_mt x m core.
Proof. intros H. destruct (HM m H) as (_ & E). unfold core_mt, setm. cbn. now rewrite E. Qed.
Lemma mx_set m : 0 <= m < Mb x -> core_mx (setm x mc) m = core_mx x m.
Proof. intros H. destruct (HM m H) as (_ & E). unfold core_mx, setm. cbn. now rewrite E. Qed.
Lemma mcb_set r m : 0 <= m < Mb x -> blk_mcb (setm x mc) p r m = blk_mcb x p r m.
Proof. intros H. destruct (HM m H) as (_ & E). unfold blk_mcb, setm. cbn. now rewrite E. Qed.
Lemma mfmt_set m : 0 <= m < Mb x -> mf_mt (setm x mc) m = mf_mt x m.
Proof. intros H. destruct (HM m H) as (_ & E). unfold mf_mt, setm. cbn. now rewrite E. Qed.
Lemma nfmt_set m : 0 <= m < Mb x -> nf_mt (setm x mc) p m = nf_mt x p m.
Proof. intros H. destruct (HM m H) as (_ & E). unfold nf_mt, setm. cbn. now rewrite E. Qed.
Lemma m1_set m : sch x <> MKN -> 0 <= m < Mb x -> blk_m1 (setm x mc) M p m = blk_m1 x M p m.
Proof.
  intros Hs H. destruct (HM m H) as (_ & E). unfold blk_m1, setm. cbn. rewrite E.
  assert (0 <= M < p * m_c x /\ 0 <= M < p * mc) as (Q1 & Q2) by (destruct (sch x); try congruence; auto).
  now rewrite !Z.rem_small.
Qed.
Lemma mfm1_set m : sch x = MKN -> 0 <= m < Mb x -> mf_m1 (setm x mc) M m = mf_m1 x M m.
Proof. intros Hs H. destruct (HM m H) as (_ & E). unfold mf_m1, setm. cbn. rewrite E. rewrite Hs in *. cbn [tM] in *. now rewrite !Z.rem_small. Qed.
Lemma zero_set m : 0 <= m < Mb x -> m = 0.
Proof. intros H. apply (HM m H). Qed.

Lemma sizes_set : packed_A_size M K p (setm x mc) (mr c) (sch x) = packed_A_size M K p x (mr c) (sch x) /\
  packed_C_size M N p (setm x mc) (mr c) (nr c) (sch x) = packed_C_size M N p x (mr c) (nr c) (sch x).
Proof.
  unfold packed_A_size, packed_C_size, setm. destruct (sch x); cbn [m_c n_c tM] in *; auto;
    rewrite !imod_pos, !idiv_pos by lia; cbn [cbind];
    rewrite !Z.rem_small, !Z.quot_small by lia; auto.
Qed.

Lemma kmn_core_set A_p B_p n m core : 0 <= m < Mb x ->
  kmn_core S ar A_p B_p K p c (setm x mc) n m core = kmn_core S ar A_p B_p K p c x n m core.
Proof.
  intros H. unfold kmn_core. cbv zeta. rewrite mt_set, mx_set, mcb_set by auto. rewrite (zero_set m H). reflexivity.
Qed.
Lemma kmn_unpack_set C n m core : sch x <> MKN -> 0 <= m < Mb x ->
  kmn_unpack_L L C M N p c (setm x mc) n m core = kmn_unpack_L L C M N p c x n m core.
Proof.
  intros Hs H. unfold kmn_unpack_L. cbv zeta. rewrite mt_set, mx_set, m1_set by auto. rewrite (zero_set m H). reflexivity.
Qed.

Lemma rows_L : after_L L ar nz M N K p pa pb be (setm x mc, c) = after_L L ar nz M N K p pa pb be (x, c).
Proof.
  unfold after_L. cbn [fst snd]. change (sch (setm x mc)) with (sch x). destruct sizes_set as (E1 & E2).
  rewrite E1. change (packed_B_size K N (setm x mc) (nr c)) with (packed_B_size K N x (nr c)).
  assert (PA : pack_A S (BufA, 0) (BufAp 0, 0) M K p (setm x mc) c (sch x) = pack_A S (BufA, 0) (BufAp 0, 0) M K p x c (sch x)).
  { destruct (sch x) eqn:Es; [| | |reflexivity].
    - cbn [pack_A]. unfold pack_A_single_buf_k_first. change (Mb (setm x mc)) with (Mb x). change (Kb (setm x mc)) with (Kb x). f_equal.
      apply pfor_in. intros m off Hm. apply pfor_in. intros k off' Hk. cbv zeta.
      rewrite mcb_set by auto. f_equal. apply ppar_in. intros core Hcore. rewrite mt_set, mx_set by auto.
      rewrite (zero_set m Hm). reflexivity.
    - cbn [pack_A]. unfold pack_A_single_buf_m_first. f_equal. apply pfor_in. intros k off Hk.
      apply pfor_in. intros m off' Hm. cbv zeta. rewrite mfmt_set by auto. f_equal. apply ppar_in. intros core Hcore.
      rewrite (zero_set m Hm). reflexivity.
    - cbn [pack_A]. unfold pack_A_single_buf_n_first. f_equal. apply pfor_in. intros m off Hm.
      apply pfor_in. intros k off' Hk. cbv zeta. rewrite nfmt_set by auto. f_equal. apply ppar_in. intros core Hcore.
      rewrite (zero_set m Hm). reflexivity. }
  rewrite PA.
  assert (PB : pack_B S (BufB, 0) (BufBp, 0) K N p (setm x mc) c (sch x) = pack_B S (BufB, 0) (BufBp, 0) K N p x c (sch x))
    by (destruct (sch x); reflexivity).
  rewrite PB. f_equal. apply functional_extensionality. intros A_p. apply functional_extensionality. intros B_p.
  unfold mid_L. change (sch (setm x mc)) with (sch x). rewrite E2. pose proof Hbe as Hb.
  pose proof (fun n m core => kmn_unpack_set (BufC, 0) n m core) as KU. pose proof m1_set as M1. pose proof mfm1_set as MF.
  destruct (sch x) eqn:Es; [| | |reflexivity].
  - f_equal. apply functional_extensionality. intros _. f_equal. unfold schedule_L, pfor_. apply pfor_in. intros n _ Hn.
    change (Mb (setm x mc)) with (Mb x). apply psnake_in. intros m Hm. change (blk_pu (setm x mc) p m) with (blk_pu x p m).
    rewrite (ppar_in _ _ _ (kmn_core S ar A_p B_p K p c (setm x mc) n m) (kmn_core S ar A_p B_p K p c x n m))
      by (intros; now apply kmn_core_set).
    f_equal. apply functional_extensionality. intros _. apply ppar_in. intros. apply KU; [congruence|auto].
  - rewrite Hb by discriminate. apply pbind_ext. intros sz. apply pbind_ext. intros _. cbn [schedule unpack_C].
    replace (schedule_MKN S ar A_p B_p (BufCp 0, 0) M N K p c (setm x mc)) with (schedule_MKN S ar A_p B_p (BufCp 0, 0) M N K p c x).
    2:{ unfold schedule_MKN, pfor_. apply pfor_in. intros n _ Hn. apply psnake_in. intros k Hk. cbv zeta.
        apply ppar_in. intros mi Hmi. change (Mb (setm x mc)) with (Mb x) in Hmi.
        assert (Hm : 0 <= sn_start (snake (inner_rev n k) (Mb x)) + mi * sn_inc (snake (inner_rev n k) (Mb x)) < Mb x)
          by (destruct (inner_rev n k); cbn [snake sn_start sn_inc fst snd]; lia).
        unfold mkn_row. change (Mb (setm x mc)) with (Mb x). cbv zeta. rewrite mfmt_set by auto. rewrite (zero_set _ Hm). reflexivity. }
    f_equal. apply functional_extensionality. intros _. f_equal. unfold unpack_C_single_buf_m_first, pfor_. apply pfor_in.
    intros n _ Hn. cbv zeta. apply ppar_in. intros m Hm. rewrite mfmt_set, MF by auto. rewrite (zero_set m Hm). reflexivity.
  - rewrite Hb by discriminate. apply pbind_ext. intros sz. apply pbind_ext. intros _. cbn [schedule unpack_C].
    replace (schedule_NKM S ar A_p B_p (BufCp 0, 0) M N K p c (setm x mc)) with (schedule_NKM S ar A_p B_p (BufCp 0, 0) M N K p c x).
    2:{ unfold schedule_NKM, pfor_. apply pfor_in. intros m _ Hm. apply psnake_in. intros k Hk. cbv zeta.
        apply ppar_in. intros n Hn. unfold nkm_col. cbv zeta. rewrite nfmt_set by auto. rewrite (zero_set m Hm). reflexivity. }
    f_equal. apply functional_extensionality. intros _. f_equal. unfold unpack_C_single_buf_n_first, pfor_. apply pfor_in.
    intros m _ Hm. cbv zeta. apply ppar_in. intros n Hn. rewrite nfmt_set by auto. rewrite M1 by (congruence || auto).
    rewrite (zero_set m Hm), !Z.mul_0_r. reflexivity.
Qed.

End Rows.

Section Columns.

Variables (L : Z) (x : blk_dims) (c : cntx) (nc : Z).
Hypothesis Hbe : sch x <> KMN -> nz be = false.
Hypothesis HN : single (Nb x) (n_pad x).
Hypothesis Hr : 0 <= N < n_c x.
Hypothesis Hr' : 0 <= N < nc.

Lemma nt_set n : 0 <= n < Nb x -> blk_nt (setn x nc) n = blk_nt x n.
Proof. intros H. destruct (HN n H) as (_ & E). unfold blk_nt, setn. cbn. now rewrite E. Qed.
Lemma n1_set n : 0 <= n < Nb x -> blk_n1 (setn x nc) N n = blk_n1 x N n.
Proof. intros H. destruct (HN n H) as (_ & E). unfold blk_n1, setn. cbn. rewrite E. now rewrite !Z.rem_small. Qed.
Lemma zeron_set n : 0 <= n < Nb x -> n = 0.
Proof. intros H. apply (HN n H). Qed.

Lemma sizen_B : packed_B_size K N (setn x nc) (nr c) = packed_B_size K N x (nr c).
Proof. unfold packed_B_size, setn. cbn [n_c]. rewrite !imod_pos by lia. cbn [cbind]. now rewrite !Z.rem_small by lia. Qed.

Lemma sizen_C : packed_C_size M N p (setn x nc) (mr c) (nr c) (sch x) = packed_C_size M N p x (mr c) (nr c) (sch x).
Proof.
  unfold packed_C_size. change (m_c (setn x nc)) with (m_c x). destruct (sch x); [| | |reflexivity].
  all: match goal with |- cbind ?a _ = _ => destruct a; cbn [cbind]; auto end.
  all: unfold setn; cbn [n_c]; rewrite !imod_pos by lia; cbn [cbind]; now rewrite !Z.rem_small by lia.
Qed.

Lemma packn_B : pack_B S (BufB, 0) (BufBp, 0) K N p (setn x nc) c (sch x) = pack_B S (BufB, 0) (BufBp, 0) K N p x c (sch x).
Proof.
  destruct (sch x); [| | |reflexivity]; cbn [pack_B].
  - unfold pack_B_k_first. cbn [setn n_c k_c]. rewrite (proj2 (Z.eqb_neq nc 0)), (proj2 (Z.eqb_neq (n_c x) 0)) by lia. cbn [orb].
    destruct (k_c x =? 0); [reflexivity|]. cbv zeta. rewrite (Z.rem_small N nc), (Z.rem_small N (n_c x)) by lia. rewrite Z.sub_diag.
    unfold pfor. rewrite (proj2 (Z.ltb_lt 0 nc)), (proj2 (Z.ltb_lt 0 (n_c x))) by lia.
    assert (E : forall t, 0 < t -> loop_count 0 0 t = 0%nat).
    { intros t Ht. unfold loop_count. rewrite Z.div_small by lia. reflexivity. }
    rewrite !E by lia. reflexivity.
  - unfold pack_B_m_first. f_equal. apply pfor_in. intros n off Hn. apply pfor_in. intros k off' Hk. cbv zeta.
    rewrite nt_set, n1_set by auto. f_equal. apply ppar_in. intros core Hcore. rewrite (zeron_set n Hn). reflexivity.
  - unfold pack_B_n_first. f_equal. apply pfor_in. intros k off Hk. apply pfor_in. intros n off' Hn. cbv zeta.
    rewrite nt_set, n1_set by auto. f_equal. apply ppar_in. intros core Hcore. rewrite (zeron_set n Hn). reflexivity.
Qed.

Lemma columns_L : after_L L ar nz M N K p pa pb be (setn x nc, c) = after_L L ar nz M N K p pa pb be (x, c).
Proof.
  unfold after_L. cbn [fst snd]. change (sch (setn x nc)) with (sch x). rewrite sizen_B, packn_B.
  replace (pack_A S (BufA, 0) (BufAp 0, 0) M K p (setn x nc) c (sch x)) with (pack_A S (BufA, 0) (BufAp 0, 0) M K p x c (sch x))
    by (destruct (sch x); reflexivity).
  replace (packed_A_size M K p (setn x nc) (mr c) (sch x)) with (packed_A_size M K p x (mr c) (sch x)) by reflexivity.
  f_equal. apply functional_extensionality. intros A_p. apply functional_extensionality. intros B_p.
  unfold mid_L. change (sch (setn x nc)) with (sch x). rewrite sizen_C. pose proof Hbe as Hb.
  destruct (sch x) eqn:Es; [| | |reflexivity].
  - f_equal. apply functional_extensionality. intros _. f_equal. unfold schedule_L, pfor_. apply pfor_in. intros n _ Hn.
    change (Mb (setn x nc)) with (Mb x). change (Nb (setn x nc)) with (Nb x) in Hn.
    apply psnake_in. intros m Hm. change (blk_pu (setn x nc) p m) with (blk_pu x p m).
    rewrite (ppar_in _ _ _ (kmn_core S ar A_p B_p K p c (setn x nc) n m) (kmn_core S ar A_p B_p K p c x n m)).
    2:{ intros core Hcore. unfold kmn_core. cbv zeta. rewrite nt_set by auto. rewrite (zeron_set n Hn). reflexivity. }
    f_equal. apply functional_extensionality. intros _. apply ppar_in. intros core Hcore. unfold kmn_unpack_L. cbv zeta.
    rewrite nt_set, n1_set by auto. rewrite (zeron_set n Hn). reflexivity.
  - rewrite Hb by discriminate. apply pbind_ext. intros sz. apply pbind_ext. intros _. cbn [schedule unpack_C].
    replace (schedule_MKN S ar A_p B_p (BufCp 0, 0) M N K p c (setn x nc)) with (schedule_MKN S ar A_p B_p (BufCp 0, 0) M N K p c x).
    2:{ unfold schedule_MKN, pfor_. apply pfor_in. intros n _ Hn. apply psnake_in. intros k Hk. cbv zeta.
        apply ppar_in. intros mi Hmi. unfold mkn_row. change (Mb (setn x nc)) with (Mb x). cbv zeta.
        rewrite nt_set by auto. rewrite (zeron_set _ Hn). reflexivity. }
    f_equal. apply functional_extensionality. intros _. f_equal. unfold unpack_C_single_buf_m_first, pfor_. apply pfor_in.
    intros n _ Hn. cbv zeta. change (Nb (setn x nc)) with (Nb x) in Hn.
    apply ppar_in. intros m Hm. rewrite nt_set, n1_set by auto. rewrite (zeron_set n Hn), !Z.mul_0_r. reflexivity.
  - rewrite Hb by discriminate. apply pbind_ext. intros sz. apply pbind_ext. intros _. cbn [schedule unpack_C].
    replace (schedule_NKM S ar A_p B_p (BufCp 0, 0) M N K p c (setn x nc)) with (schedule_NKM S ar A_p B_p (BufCp 0, 0) M N K p c x).
    2:{ unfold schedule_NKM, pfor_. apply pfor_in. intros m _ Hm. apply psnake_in. intros k Hk. cbv zeta.
        apply ppar_in. intros ni Hni. change (Nb (setn x nc)) with (Nb x) in *.
        assert (Hn : 0 <= sn_start (snake (inner_rev m k) (Nb x)) + ni * sn_inc (snake (inner_rev m k) (Nb x)) < Nb x)
          by (destruct (inner_rev m k); cbn [snake sn_start sn_inc fst snd]; lia).
        unfold nkm_col. cbv zeta. rewrite nt_set by auto. rewrite (zeron_set _ Hn), !Z.mul_0_r. reflexivity. }
    f_equal. apply functional_extensionality. intros _. f_equal. unfold unpack_C_single_buf_n_first, pfor_. apply pfor_in.
    intros m _ Hm. cbv zeta. apply ppar_in. intros n Hn. change (Nb (setn x nc)) with (Nb x) in *.
    rewrite nt_set, n1_set by auto. rewrite (zeron_set n Hn). reflexivity.
Qed.

End Columns.

End Prog.

(** ** The record for the other tiles *)

Lemma dims_setm s M N K p mc mc' kc nc m_r n_r x : 0 < p -> 0 < kc -> 0 < nc -> 0 < m_r -> 0 < n_r ->
  0 <= M < block_rows s p mc -> 0 <= M < block_rows s p mc' ->
  dims_of s M N K p mc kc nc m_r n_r = CRet x -> dims_of s M N K p mc' kc nc m_r n_r = CRet (setm x mc').
Proof.
  intros Hp Hk Hn Hmr Hnr H H' E. assert (0 < p * kc) by nia.
  destruct s; cbn [block_rows dims_of] in *; [| | |discriminate]; unfold dims_KMN, dims_MKN, dims_NKM in *.
  all: rewrite !imod_pos, !idiv_pos in E by lia; rewrite !imod_pos, !idiv_pos by lia; cbn [cbind] in *.
  - rewrite (Z.rem_small M (p * mc)), (Z.quot_small M (p * mc)) in E by lia.
    rewrite (Z.rem_small M (p * mc')), (Z.quot_small M (p * mc')) by lia.
    rewrite !(iceil_pos _ m_r), !(iceil_pos _ n_r) in E by lia. rewrite !(iceil_pos _ m_r), !(iceil_pos _ n_r) by lia. cbn [cbind] in *.
    rewrite (iceil_pos _ p) in E by lia. rewrite (iceil_pos _ p) by lia. cbn [cbind] in *.
    destruct (if truthy _ then _ else _) as [pl| |]; try discriminate. cbn [cbind] in *. injection E as <-. reflexivity.
  - rewrite (Z.rem_small M mc), (Z.quot_small M mc) in E by lia.
    rewrite (Z.rem_small M mc'), (Z.quot_small M mc') by lia.
    rewrite !(iceil_pos _ m_r), !(iceil_pos _ n_r) in E by lia. rewrite !(iceil_pos _ m_r), !(iceil_pos _ n_r) by lia.
    rewrite (iceil_pos _ p) in E by lia. rewrite (iceil_pos _ p) by lia. cbn [cbind] in *.
    destruct (if truthy _ then _ else _) as [pl| |]; try discriminate. cbn [cbind] in *. injection E as <-. reflexivity.
  - rewrite (Z.rem_small M (p * mc)), (Z.quot_small M (p * mc)) in E by lia.
    rewrite (Z.rem_small M (p * mc')), (Z.quot_small M (p * mc')) by lia.
    rewrite !(iceil_pos _ m_r), !(iceil_pos _ n_r) in E by lia. rewrite !(iceil_pos _ m_r), !(iceil_pos _ n_r) by lia.
    rewrite (iceil_pos _ p) in E by lia. rewrite (iceil_pos _ p) by lia. cbn [cbind] in *.
    destruct (if truthy _ then _ else _) as [pl| |]; try discriminate. cbn [cbind] in *. injection E as <-. reflexivity.
Qed.

Lemma dims_setn s M N K p mc kc nc nc' m_r n_r x : 0 < p -> 0 < mc -> 0 < kc -> 0 < m_r -> 0 < n_r ->
  0 <= N < nc -> 0 <= N < nc' ->
  dims_of s M N K p mc kc nc m_r n_r = CRet x -> dims_of s M N K p mc kc nc' m_r n_r = CRet (setn x nc').
Proof.
  intros Hp Hm Hk Hmr Hnr H H' E. assert (0 < p * kc) by nia. assert (0 < p * mc) by nia.
  destruct s; cbn [dims_of] in *; [| | |discriminate]; unfold dims_KMN, dims_MKN, dims_NKM in *.
  all: rewrite !imod_pos, !idiv_pos in E by lia; rewrite !imod_pos, !idiv_pos by lia; cbn [cbind] in *.
  all: rewrite (Z.rem_small N nc), (Z.quot_small N nc) in E by lia.
  all: rewrite (Z.rem_small N nc'), (Z.quot_small N nc') by lia.
  all: rewrite !(iceil_pos _ m_r), !(iceil_pos _ n_r) in E by lia; rewrite !(iceil_pos _ m_r), !(iceil_pos _ n_r) by lia; cbn [cbind] in *.
  all: rewrite (iceil_pos _ p) in E by lia; rewrite (iceil_pos _ p) by lia; cbn [cbind] in *.
  all: destruct (if truthy _ then _ else _) as [pl| |]; try discriminate; cbn [cbind] in *; injection E as <-; reflexivity.
Qed.

(** Where the short block is the only one *)
Lemma dims_single s M N K p mc kc nc m_r n_r x : 0 <= M -> 0 <= N -> 0 < p -> 0 < mc -> 0 < kc -> 0 < nc -> 0 < m_r -> 0 < n_r ->
  dims_of s M N K p mc kc nc m_r n_r = CRet x ->
  sch x = s /\ m_c x = mc /\ k_c x = kc /\ n_c x = nc /\ (M < block_rows s p mc -> single (Mb x) (m_pad x)) /\ (N < nc -> single (Nb x) (n_pad x)).
Proof.
  intros HM HN Hp Hm Hk Hn Hmr Hnr E. assert (0 < p * kc) by nia. assert (0 < p * mc) by nia.
  destruct s; cbn [dims_of block_rows] in *; [| | |discriminate]; unfold dims_KMN, dims_MKN, dims_NKM in *.
  all: rewrite !imod_pos, !idiv_pos in E by lia; cbn [cbind] in *.
  all: rewrite !(iceil_pos _ m_r), !(iceil_pos _ n_r) in E by lia; cbn [cbind] in *.
  all: rewrite (iceil_pos _ p) in E by lia; cbn [cbind] in *.
  all: destruct (if truthy _ then _ else _) as [pl| |]; try discriminate; cbn [cbind] in *; injection E as <-; cbn.
  all: repeat (split; [reflexivity|]); split; intros L; apply single_pad; lia.
Qed.
