(** * A register tile larger than the kernel: the elements no kernel computes. *)

From Coq Require Import ZArith List Bool Lia.
From Verif Require Import Lang Lang_facts ModelSizing ModelKernel ModelPack ModelSched ModelTop Spec SpecTop
  Sizing_facts SizingMN_facts Init_facts Grid2_facts Keep_facts Stale_facts.
Import ListNotations.
Open Scope Z_scope.

Section Resid.

Variable S : scalar.
Notation T := (elt S).
Variables (M N m_r n_r kk : Z) (m0 : mem T).
Hypothesis HN : 0 < N.
Hypothesis Hmr : 0 < m_r.
Hypothesis Hnr : 0 < n_r.

(** Elements of a tile from number [kk] on are 0 in the packing buffers, and 0 or unchanged
    in C. *)
Definition Ir : cellinv T := fun b x v =>
  match b with
  | BufCp _ => kk <= x mod (m_r * n_r) -> v = Some (zero S)
  | BufC => kk <= ((x / N) mod m_r) * n_r + ((x mod N) mod n_r) -> v = Some (zero S) \/ v = dat m0 BufC x
  | _ => True
  end.

Lemma Ir_any b : match b with BufC | BufCp _ => False | _ => True end -> anything S Ir b.
Proof. intros H x v. destruct b; cbn; tauto. Qed.

Lemma Ir_start m : (forall i, live m (BufCp i) = None) -> (forall x, dat m BufC x = dat m0 BufC x) -> minv Ir m.
Proof.
  intros H H' b i Hb. destruct b; cbn [Ir]; auto. destruct Hb as [Hb|Hb]; [|discriminate]. rewrite H in Hb. contradiction.
Qed.

Lemma Ir_tile c cb a b mt e v : (m_r * n_r | cb) -> (m_r | mt) -> 0 <= e < kk ->
  Ir (BufCp c) (cb + (a * mt * n_r + b * m_r * n_r) + e) (Some v).
Proof.
  intros [u ->] [w ->] He. cbn [Ir]. intros H. exfalso.
  replace (u * (m_r * n_r) + (a * (w * m_r) * n_r + b * m_r * n_r) + e) with (e + (u + a * w + b) * (m_r * n_r)) in H by ring.
  rewrite Z.mod_add in H by nia. destruct (Z_lt_le_dec e (m_r * n_r)).
  - rewrite Z.mod_small in H by lia. lia.
  - pose proof (Z.mod_pos_bound e (m_r * n_r) ltac:(nia)). lia.
Qed.

Lemma Ir_tiles kern Ap Bp c cb mt nt kt : within S Ir kk kern -> (m_r * n_r | cb) -> (m_r | mt) ->
  tkeep Ir (tile_loops S kern Ap Bp (BufCp c, cb) mt nt kt m_r n_r) (fun _ => True).
Proof. intros HK H1 H2. apply (keep_tiles S Ir kk); [exact HK|]. intros. now apply Ir_tile. Qed.

Lemma Ir_unpack c cb r0 c0 m1 m2 mc nc C : (m_r * n_r | cb) -> (m_r | r0) -> (n_r | c0) -> 0 <= c0 ->
  C = (BufC, r0 * N + c0) ->
  tkeep Ir (unpack_ob_C_single_buf S C (BufCp c, cb) M N m1 c0 m2 mc nc m_r n_r) (fun _ => True).
Proof.
  intros [u ->] [w ->] [z ->] H0 ->. apply keep_unpack; auto.
  intros a b i j v Ha Ha' Hb Hb' Hi Hj G1 G2 HI. cbn [fst snd Ir] in *. intros Hk.
  assert (Hz : 0 <= z) by nia.
  replace (w * m_r * N + z * n_r + (a * n_r + b * m_r * N + i * N + j))
    with ((z * n_r + a * n_r + j) + (w * m_r + b * m_r + i) * N) in * by ring.
  rewrite Z.div_add, Z.mod_add in Hk by lia.
  assert (B : 0 <= z * n_r + a * n_r + j < N) by nia.
  rewrite (Z.div_small _ _ B), (Z.mod_small _ _ B), Z.add_0_l in Hk. clear B.
  replace (w * m_r + b * m_r + i) with (i + (w + b) * m_r) in Hk by ring.
  replace (z * n_r + a * n_r + j) with (j + (z + a) * n_r) in Hk by ring.
  rewrite !Z.mod_add, !Z.mod_small in Hk by lia.
  left. apply HI. set (R := Z.of_nat (loop_count 0 mc m_r)).
  replace (u * (m_r * n_r) + (((a * R + b) * m_r + i) * n_r + j)) with ((i * n_r + j) + (u + a * R + b) * (m_r * n_r)) by ring.
  rewrite Z.mod_add by nia. rewrite Z.mod_small by nia. exact Hk.
Qed.

End Resid.

(** ** M-first and N-first *)

Section MN.

Variable S : scalar.
Notation T := (elt S).

Lemma keep_lift {A} (I : cellinv T) (c : comp A) (Q : A -> Prop) : (forall a, c = CRet a -> Q a) -> pkeep I (lift S c) Q.
Proof. destruct c; cbn; auto. Qed.

Lemma keep_get_ctx (I : cellinv T) q oc (Q : cntx -> Prop) : (forall i, I cbuf i None) ->
  Q (match oc with Some c => c | None => q end) -> pkeep I (get_ctx S q oc) Q.
Proof.
  intros H HQ. destruct oc; cbn [get_ctx]; [exact HQ|]. apply pkeep_bind, pkeep_alloc; [exact H|exact HQ].
Qed.

Lemma sn_in nb rev g : 0 <= g < nb -> let s := snake rev nb in 0 <= sn_start s + g * sn_inc s < nb.
Proof. destruct rev; cbn; lia. Qed.

Lemma sn_in' nb rev g : let s := snake rev nb in 0 <= g < (sn_end s - sn_start s) * sn_inc s -> 0 <= sn_start s + g * sn_inc s < nb.
Proof. cbv zeta. unfold sn_end, sn_start, sn_inc, snake. destruct rev; cbn [fst snd]; lia. Qed.

Variables (ar : arch) (M N K p m_r n_r kk : Z) (m0 : mem T).
Hypothesis HN : 0 < N.
Hypothesis Hmr : 0 < m_r.
Hypothesis Hnr : 0 < n_r.
Notation I := (Ir S N m_r n_r (MR_MIN ar * NR_MIN ar) m0).

Lemma Mp_div M' K' p' tM mt x : bf M' N K' p' m_r n_r tM mt x -> (m_r | M_padded x).
Proof.
  intros H. destruct (bf_M _ _ _ _ _ _ _ _ _ H) as [P1 P2 P3 P4 P5]. destruct (Z.eq_dec (Mb x) 0) as [E|E].
  - rewrite P5 by auto. apply Z.divide_0_r.
  - rewrite <- P4 by lia. apply Z.divide_add_r; [apply Z.divide_mul_r; apply (bf_mcd _ _ _ _ _ _ _ _ _ H)|].
    apply (bf_mr _ _ _ _ _ _ _ _ _ H). lia.
Qed.

Lemma div2 a b c d : (a | c) -> (b | d) -> (a * b | c * d).
Proof. intros [u ->] [v ->]. exists (u * v). ring. Qed.

Lemma keep_MKN A_p B_p c x : mr c = m_r -> nr c = n_r -> bf M N K p m_r n_r (m_c x) (mf_mt x) x ->
  pkeep I (schedule_MKN S ar A_p B_p (BufCp 0, 0) M N K p c x) (fun _ => True).
Proof.
  intros Ec1 Ec2 H. unfold schedule_MKN, pfor_. apply pkeep_any; [|auto]. intros n _ Hn.
  unfold pfor_ne_. apply pkeep_any_ne; [|auto]. intros g _ Hg. cbv zeta.
  set (k := sn_start (snake (odd2 n) (Kb x)) + g * sn_inc (snake (odd2 n) (Kb x))) in *.
  apply pkeep_par; [|auto]. intros mi Hmi. pose proof (sn_in (Mb x) (inner_rev n k) mi Hmi) as Hm. cbv zeta in Hm.
  set (m := sn_start _ + mi * _) in *. unfold mkn_row, tfor_. cbv zeta. apply tkeep_any. intros core _ _.
  rewrite Ec1, Ec2. apply Ir_tiles; auto; [apply within_min| |apply (bf_mr _ _ _ _ _ _ _ _ _ H); auto].
  cbn [snd]. rewrite Z.add_0_l. apply Z.divide_add_r.
  - apply div2; [apply Z.divide_mul_r; eapply Mp_div; eauto|apply (bf_ncd _ _ _ _ _ _ _ _ _ H)].
  - apply div2; [apply Z.divide_mul_r, (bf_mcd _ _ _ _ _ _ _ _ _ H)|apply (bf_nr _ _ _ _ _ _ _ _ _ H); auto].
Qed.

Lemma keep_unpack_m x : bf M N K p m_r n_r (m_c x) (mf_mt x) x ->
  pkeep I (unpack_C_single_buf_m_first S (BufC, 0) (BufCp 0, 0) M N p x m_r n_r) (fun _ => True).
Proof.
  intros H. unfold unpack_C_single_buf_m_first, pfor_. apply pkeep_any; [|auto]. intros n _ Hn. cbv zeta.
  apply pkeep_par; [|auto]. intros m Hm. destruct (bf_n1 _ _ _ _ _ _ _ _ _ H n Hn) as (-> & Hlt).
  pose proof (bf_nc _ _ _ _ _ _ _ _ _ H).
  apply (Ir_unpack S M N m_r n_r _ m0 HN Hmr Hnr 0 _ (m * m_c x)); auto.
  - cbn [snd]. rewrite Z.add_0_l. apply Z.divide_add_r.
    + rewrite <- Z.mul_assoc. apply div2; [eapply Mp_div; eauto|apply Z.divide_mul_r, (bf_ncd _ _ _ _ _ _ _ _ _ H)].
    + apply div2; [apply Z.divide_mul_r, (bf_mcd _ _ _ _ _ _ _ _ _ H)|apply (bf_nr _ _ _ _ _ _ _ _ _ H); auto].
  - apply Z.divide_mul_r, (bf_mcd _ _ _ _ _ _ _ _ _ H).
  - apply Z.divide_mul_r, (bf_ncd _ _ _ _ _ _ _ _ _ H).
  - nia.
Qed.

Lemma keep_NKM A_p B_p c x : mr c = m_r -> nr c = n_r -> bf M N K p m_r n_r (p * m_c x) (nf_mt x p) x ->
  pkeep I (schedule_NKM S ar A_p B_p (BufCp 0, 0) M N K p c x) (fun _ => True).
Proof.
  intros Ec1 Ec2 H. unfold schedule_NKM, pfor_. apply pkeep_any; [|auto]. intros m _ Hm.
  unfold pfor_ne_. apply pkeep_any_ne; [|auto]. intros g _ Hg. cbv zeta.
  set (k := sn_start (snake (odd2 m) (Kb x)) + g * sn_inc (snake (odd2 m) (Kb x))) in *.
  apply pkeep_par; [|auto]. intros ni Hni. pose proof (sn_in (Nb x) (inner_rev m k) ni Hni) as Hn. cbv zeta in Hn.
  set (n := sn_start _ + ni * _) in *. unfold nkm_col, tfor_. cbv zeta. apply tkeep_any. intros core _ _.
  rewrite Ec1, Ec2. apply Ir_tiles; auto; [apply within_min| |apply (bf_mr _ _ _ _ _ _ _ _ _ H); auto].
  cbn [snd]. rewrite Z.add_0_l. apply Z.divide_add_r.
  - rewrite <- !Z.mul_assoc. rewrite (Z.mul_assoc p), (Z.mul_assoc m).
    apply div2; [apply Z.divide_mul_r, (bf_mcd _ _ _ _ _ _ _ _ _ H)|apply (bf_Npd _ _ _ _ _ _ _ _ _ H)].
  - rewrite <- Z.mul_assoc. apply div2; [apply (bf_mr _ _ _ _ _ _ _ _ _ H); auto|apply Z.divide_mul_r, (bf_ncd _ _ _ _ _ _ _ _ _ H)].
Qed.

Lemma keep_unpack_n x : bf M N K p m_r n_r (p * m_c x) (nf_mt x p) x ->
  pkeep I (unpack_C_single_buf_n_first S (BufC, 0) (BufCp 0, 0) M N p x m_r n_r) (fun _ => True).
Proof.
  intros H. unfold unpack_C_single_buf_n_first, pfor_. apply pkeep_any; [|auto]. intros m _ Hm. cbv zeta.
  apply pkeep_par; [|auto]. intros n Hn. destruct (bf_n1 _ _ _ _ _ _ _ _ _ H n Hn) as (-> & Hlt).
  pose proof (bf_nc _ _ _ _ _ _ _ _ _ H).
  apply (Ir_unpack S M N m_r n_r _ m0 HN Hmr Hnr 0 _ (m * (p * m_c x))); auto.
  - cbn [snd]. rewrite Z.add_0_l. apply Z.divide_add_r.
    + replace (N_padded x * m * p * m_c x) with (m * (p * m_c x) * N_padded x) by ring.
      apply div2; [apply Z.divide_mul_r, (bf_mcd _ _ _ _ _ _ _ _ _ H)|apply (bf_Npd _ _ _ _ _ _ _ _ _ H)].
    + apply div2; [apply Z.divide_mul_r, (bf_mr _ _ _ _ _ _ _ _ _ H); auto|apply (bf_ncd _ _ _ _ _ _ _ _ _ H)].
  - apply Z.divide_mul_r, (bf_mcd _ _ _ _ _ _ _ _ _ H).
  - apply Z.divide_mul_r, (bf_ncd _ _ _ _ _ _ _ _ _ H).
  - nia.
  - unfold padd. cbn [fst snd]. f_equal. ring.
Qed.

End MN.

Section Calls.

Variable S : scalar.
Notation T := (elt S).

Lemma MN_dims F M N K p c s mcu kcu ncu x c' :
  0 <= M -> 0 <= N -> 0 <= K -> 0 < p -> 0 < mr c -> 0 < nr c -> tiles_ok F M p c mcu kcu ncu -> s = MKN \/ s = NKM ->
  init_block_dims F M N K p c s mcu kcu ncu = CRet (x, c') ->
  mr c' = mr c /\ nr c' = nr c /\ sch x = s /\
  match s with
  | MKN => bf M N K p (mr c) (nr c) (m_c x) (mf_mt x) x
  | _ => bf M N K p (mr c) (nr c) (p * m_c x) (nf_mt x p) x
  end.
Proof.
  intros HM HN HK Hp Hmr Hnr Ht Hs E.
  destruct (init_ok F M N K p c s mcu kcu ncu HM Hp Hmr Hnr Ht) as (mc & kc & nc & al & s' & E' & A1 & A2 & A3 & A4 & A5 & A6 & A7 & _).
  rewrite A7 in E' by (destruct Hs; congruence). rewrite E' in E. clear E' A6 A7 s'.
  destruct Hs as [-> | ->]; cbn [dims_of] in E.
  - destruct (dims_MKN_facts M N K p mc kc nc (mr c) (nr c)) as (y & Ey & Hy & E1 & _ & _ & E4 & _); auto.
    rewrite Ey in E. cbn [cbind] in E. injection E as <- <-. rewrite E1. auto.
  - destruct (dims_NKM_facts M N K p mc kc nc (mr c) (nr c)) as (y & Ey & Hy & E1 & _ & _ & E4 & _); auto.
    rewrite Ey in E. cbn [cbind] in E. injection E as <- <-. rewrite E1. auto.
Qed.

Definition unset (ar : arch) (m_r n_r i j : Z) : Prop := MR_MIN ar * NR_MIN ar <= (i mod m_r) * n_r + j mod n_r.

Theorem MN_unset F ar q (nz : T -> bool) M N K p oc c pa pb alpha beta s mcu kcu ncu m0 r m' :
  match oc with Some c1 => c = c1 | None => c = q end ->
  0 <= M -> 0 <= N -> 0 <= K -> 0 < p -> 0 < mr c -> 0 < nr c -> tiles_ok F M p c mcu kcu ncu -> s = MKN \/ s = NKM ->
  nz beta = false -> (forall b, own b -> live m0 b = None) ->
  pexec (cake_sgemm S F ar q nz M N K p oc pa pb alpha beta s mcu kcu ncu) m0 (Done r m') ->
  forall i j, 0 <= i < M -> 0 <= j < N -> unset ar (mr c) (nr c) i j ->
    dat m' BufC (i * N + j) = Some (zero S) \/ dat m' BufC (i * N + j) = dat m0 BufC (i * N + j).
Proof.
  intros Eoc HM HN HK Hp Hmr Hnr Ht Hs Hb Ho H i j Hi Hj Hu.
  assert (HN' : 0 < N) by lia.
  assert (HI : minv (Ir S N (mr c) (nr c) (MR_MIN ar * NR_MIN ar) m0) m').
  { refine (proj2 (keep_exec _ _ _ _ H (fun _ => True) _ _)); [|apply Ir_start; [intros; apply Ho; exact Logic.I|auto]].
    unfold cake_sgemm. apply pkeep_bind, keep_get_ctx; [intros; exact Logic.I|].
    replace (match oc with Some c1 => c1 | None => q end) with c by (destruct oc; congruence). clear Eoc H.
    apply pkeep_seq2; [apply pkeep_alloc; [intros; exact Logic.I|auto]|].
    apply pkeep_bind, keep_lift. intros (x & c') Ex. cbn [fst snd].
    destruct (MN_dims F M N K p c s mcu kcu ncu x c' HM HN HK Hp Hmr Hnr Ht Hs Ex) as (E1 & E2 & E3 & Hx). rewrite E3.
    apply pkeep_bind. apply (pkeep_mono _ _ (fun _ => True)); cycle 1.
    { destruct pa; [exact Logic.I|]. apply pkeep_bind, keep_lift. intros sz _.
      apply pkeep_seq2; [apply pkeep_alloc; [intros; exact Logic.I|auto]|].
      apply pkeep_seq2; [apply keep_pack_A; now apply Ir_any|exact Logic.I]. }
    intros A_p _. apply pkeep_bind. apply (pkeep_mono _ _ (fun _ => True)); cycle 1.
    { destruct pb; [exact Logic.I|]. apply pkeep_bind, keep_lift. intros sz _.
      apply pkeep_seq2; [apply pkeep_alloc; [intros; exact Logic.I|auto]|].
      apply pkeep_seq2; [apply keep_pack_B; now apply Ir_any|exact Logic.I]. }
    intros B_p _. apply pkeep_seq2; [|].
    - rewrite Hb. destruct Hs as [-> | ->].
      + apply pkeep_bind, keep_lift. intros sz _.
        apply pkeep_seq2; [apply pkeep_alloc; [cbn; auto|auto]|].
        apply pkeep_seq2; [apply (keep_MKN S ar M N K p (mr c) (nr c)); auto|].
        apply pkeep_seq2; [rewrite <- E1, <- E2 in *; apply (keep_unpack_m S ar M N K p (mr c') (nr c')); auto|].
        apply pkeep_free; [discriminate|auto].
      + apply pkeep_bind, keep_lift. intros sz _.
        apply pkeep_seq2; [apply pkeep_alloc; [cbn; auto|auto]|].
        apply pkeep_seq2; [apply (keep_NKM S ar M N K p (mr c) (nr c)); auto|].
        apply pkeep_seq2; [rewrite <- E1, <- E2 in *; apply (keep_unpack_n S ar M N K p (mr c') (nr c')); auto|].
        apply pkeep_free; [discriminate|auto].
    - apply pkeep_seq2; [destruct pa; [exact Logic.I|apply pkeep_free; [discriminate|auto]]|].
      apply pkeep_seq2; [destruct pb; [exact Logic.I|apply pkeep_free; [discriminate|auto]]|].
      apply pkeep_seq2; [apply pkeep_free; [discriminate|auto]|exact Logic.I]. }
  specialize (HI BufC (i * N + j) (or_intror eq_refl)). cbn [Ir] in HI. apply HI.
  rewrite (Z.add_comm (i * N)), Z.div_add, Z.mod_add by lia. rewrite (Z.div_small j), (Z.mod_small j N), Z.add_0_l by lia. exact Hu.
Qed.

End Calls.
