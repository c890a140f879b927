(** * The unpacking phase shared by the K-first schedules. *)

From Coq Require Import ZArith List Bool Lia.
From Verif Require Import Lang Lang_facts Spec ModelSizing ModelKernel ModelPack ModelSched
     Kernel_facts Tile_facts Loop_facts Pack_facts Unpack_facts Sizing_facts PackMat_facts.
Import ListNotations.
Open Scope Z_scope.

(** Bounded search. *)
Lemma bounded_dec np (P : Z -> Prop) : (forall k, P k \/ ~ P k) ->
  (exists k, 0 <= k < np /\ P k) \/ (forall k, 0 <= k < np -> ~ P k).
Proof.
  intros Hdec. destruct (Z_lt_le_dec np 0) as [H|H]; [right; intros; lia|].
  revert np H. apply (natlike_ind (fun np => (exists k, 0 <= k < np /\ P k) \/ (forall k, 0 <= k < np -> ~ P k))).
  - right. intros; lia.
  - intros n Hn [(k & Hk & HP)|Hno].
    + left. exists k. split; [lia|auto].
    + destruct (Hdec n) as [HP|HP].
      * left. exists n. split; [lia|auto].
      * right. intros k Hk. destruct (Z.eq_dec k n) as [->|]; auto. apply Hno. lia.
Qed.

Section C.

Variable S : scalar.
Notation T := (elt S).

(** The cells (r,c) of the result selected by [Dn] hold their final value. *)
Definition cdone (m : mem T) (M N : Z) (val : Z -> Z -> T) (Dn : Z -> Z -> Prop) : Prop :=
  forall r c, 0 <= r < M -> 0 <= c < N -> Dn r c -> dat m BufC (r * N + c) = Some (val r c).

Definition cpzero (m : mem T) (np sz : Z) : Prop :=
  forall core i, 0 <= core < np -> 0 <= i < sz -> dat m (BufCp core) i = Some (zero S).

(** What a schedule may write: the M*N cells of C and the private result buffers. *)
Definition cwrites (M N p : Z) : region := fun b i =>
  (b = BufC /\ 0 <= i < M * N) \/ exists core, b = BufCp core /\ 0 <= core < p.

Lemma ctiles_stable b base m_r n_r nm nn (f : Z -> Z -> T) m1 m2 :
  0 <= m_r -> 0 <= n_r -> 0 <= nm -> 0 <= nn ->
  (forall x, base <= x < base + nm * m_r * (nn * n_r) -> dat m2 b x = dat m1 b x) ->
  ctiles m1 b base m_r n_r nm nn f -> ctiles m2 b base m_r n_r nm nn f.
Proof.
  intros Hm Hn H1 H2 Hs H qm i qn j Hqm Hi Hqn Hj. rewrite Hs; [apply H; auto|].
  pose proof (cell_bound m_r n_r i j Hi Hj) as Hc.
  set (w := m_r * n_r) in *.
  assert (E : nm * m_r * (nn * n_r) = nn * nm * w) by (unfold w; ring).
  assert (E2 : base + qn * (nm * m_r) * n_r + qm * m_r * n_r + i * n_r + j
               = base + (qn * nm + qm) * w + (i * n_r + j)) by (unfold w; ring).
  rewrite E, E2.
  assert (0 <= (qn * nm + qm) * w) by nn.
  assert ((qn * nm + qm + 1) * w <= nn * nm * w) by (apply Z.mul_le_mono_nonneg_r; nia). lia.
Qed.

(** A block of zeros, seen as result tiles. *)
Lemma ctiles_zero b m_r n_r nm nn sz m :
  0 < m_r -> 0 < n_r -> 0 <= nm -> 0 <= nn -> nm * m_r * (nn * n_r) <= sz ->
  (forall i, 0 <= i < sz -> dat m b i = Some (zero S)) ->
  ctiles m b 0 m_r n_r nm nn (fun _ _ => zero S).
Proof.
  intros Hm Hn H1 H2 Hsz Hz qm i qn j Hqm Hi Hqn Hj. apply Hz.
  pose proof (cell_bound m_r n_r i j Hi Hj) as Hc.
  set (w := m_r * n_r) in *.
  assert (E : nm * m_r * (nn * n_r) = nn * nm * w) by (unfold w; ring).
  replace (0 + qn * (nm * m_r) * n_r + qm * m_r * n_r + i * n_r + j)
     with ((qn * nm + qm) * w + (i * n_r + j)) by (unfold w; ring).
  assert (0 <= (qn * nm + qm) * w) by nn.
  assert ((qn * nm + qm + 1) * w <= nn * nm * w) by (apply Z.mul_le_mono_nonneg_r; nia). lia.
Qed.

Lemma unpack_phase (body : Z -> thr T unit) np p sz M N m_r n_r
      (r0 c0 mt nt : Z -> Z) (val : Z -> Z -> T) Dn bc m (Post : unit -> mem T -> Prop) :
  0 <= np <= p -> 0 < m_r -> 0 < n_r -> 0 <= N ->
  (forall k, 0 <= k < np -> exists m1 m2 n1,
     m1 + m2 = r0 k /\ n1 = c0 k /\
     body k = tbind (unpack_ob_C_single_buf S (BufC, r0 k * N + c0 k) (BufCp k, 0) M N m1 n1 m2 (mt k) (nt k) m_r n_r)
                    (fun _ => memset0 S (BufCp k, 0) sz)) ->
  (forall k, 0 <= k < np -> 0 <= r0 k /\ 0 <= c0 k /\ 0 <= mt k /\ 0 <= nt k /\ (m_r | mt k) /\ (n_r | nt k) /\
     mt k * nt k <= sz) ->
  (forall k d, 0 <= k < np -> 0 <= d < np -> k <> d ->
     r0 k + mt k <= r0 d \/ r0 d + mt d <= r0 k \/ c0 k + nt k <= c0 d \/ c0 d + nt d <= c0 k) ->
  live m BufC = Some bc -> M * N <= blen bc ->
  (forall k, 0 <= k < p -> exists bk, live m (BufCp k) = Some bk /\ sz <= blen bk) ->
  (forall k, 0 <= k < np -> ctiles m (BufCp k) 0 m_r n_r (mt k / m_r) (nt k / n_r)
                              (fun r c => val (r0 k + r) (c0 k + c))) ->
  (forall k i, np <= k < p -> 0 <= i < sz -> dat m (BufCp k) i = Some (zero S)) ->
  cdone m M N val Dn ->
  (forall m', live m' = live m -> same_out (cwrites M N p) m m' ->
     cpzero m' p sz ->
     cdone m' M N val (fun r c => Dn r c \/
       exists k, 0 <= k < np /\ r0 k <= r < r0 k + mt k /\ c0 k <= c < c0 k + nt k) ->
     Post tt m') ->
  pok (ppar_for 0 np 1 body) m Post.
Proof.
  intros Hnp Hmr Hnr HN Hbody Hblk Hdis HLc Hbc HLp Hct Hz HD HPost.
  set (R := fun k => rect BufC N M (r0 k) (r0 k + mt k) (c0 k) (c0 k + nt k)).
  set (W := fun k b i => R k b i \/ rng (BufCp k) 0 sz b i).
  eapply (pok_par_for 0 np 1 np body m W (fun _ => rnone)
    (fun k m' => boxed m' BufC N M (r0 k) (r0 k + mt k) (c0 k) (c0 k + nt k) val /\
                 forall i, 0 <= i < sz -> dat m' (BufCp k) i = Some (zero S))); try lia.
  - intros k Hk. replace (0 + k * 1) with k by lia.
    destruct (Hbody k Hk) as (m1 & m2 & n1 & E1 & E2 & ->). clear Hbody.
    destruct (Hblk k Hk) as (B1 & B2 & B3 & B4 & Dm & Dnn & Hsz).
    destruct (HLp k ltac:(lia)) as (bk & HLk & Hbk).
    pose proof (div_exact_of m_r _ Hmr Dm) as Em. pose proof (div_exact_of n_r _ Hnr Dnn) as En.
    apply twp_bind.
    eapply twp_call with (W' := R k) (Rd' := rng (BufCp k) 0 (0 + mt k * nt k)).
    + subst n1. unfold R. rewrite <- E1.
      eapply (unpack_spec S BufC (BufCp k) _ 0 M N m1 (c0 k) m2 (mt k) (nt k) m_r n_r (mt k / m_r) (nt k / n_r) val bc bk m);
        auto; try lia; try easy.
      * rewrite E1. apply Hct; auto.
    + intros b i H. left. exact H.
    + intros b i (-> & Hi). right. right. split; auto. lia.
    + intros u m3 Hbox HL3 HF3. cbv beta in Hbox. rewrite E1 in Hbox.
      eapply twp_call.
      * eapply (memset0_spec S (BufCp k) 0 sz bk m3); try lia. now rewrite HL3.
      * intros b i H. right. exact H.
      * intros b i [].
      * cbn. intros _ m4 Hz4 _ HF4. split.
        -- eapply boxed_stable; [|exact Hbox]. intros x _. apply HF4. intros (? & _). discriminate.
        -- intros i Hi. apply (Hz4 i Hi).
  - intros c d b i Hc Hd Hcd [H|(-> & H)] [[H'|(E & H')]|[]].
    + destruct (Hblk c Hc) as (B1 & B2 & _). destruct (Hblk d Hd) as (B1' & B2' & _).
      eapply (rect_disj BufC N M (r0 c) _ (c0 c) _ (r0 d) _ (c0 d) _ b i); [| | |exact H|exact H']; [lia|lia|specialize (Hdis c d Hc Hd Hcd); lia].
    + destruct H as (E' & _). congruence.
    + destruct H' as (E' & _). discriminate.
    + congruence.
  - intros m' HL' HT HF'. apply HPost; auto.
    + intros b i Hbi. apply HF'. intros k Hk [(-> & r & c & H)|(-> & H)]; apply Hbi.
      * left. split; auto. destruct H as (H1 & H2 & H3 & H4 & ->). destruct (Hblk k Hk) as (B1 & B2 & _). nia.
      * right. exists k. split; auto. lia.
    + intros core i Hcore Hi. destruct (Z_lt_le_dec core np) as [Hlt|Hge].
      * destruct (HT core ltac:(lia)) as (ms & (_ & H) & _ & _ & Hag).
        rewrite Hag by (right; split; auto). auto.
      * rewrite HF'; [apply Hz; lia|]. intros k Hk [(? & _)|(E & _)]; [discriminate|]. injection E; lia.
    + intros r c Hr Hc HDn.
      destruct (bounded_dec np (fun k => r0 k <= r < r0 k + mt k /\ c0 k <= c < c0 k + nt k)) as [(k & Hk & H)|Hno].
      { intros k. destruct (Z_le_dec (r0 k) r), (Z_lt_dec r (r0 k + mt k)), (Z_le_dec (c0 k) c), (Z_lt_dec c (c0 k + nt k));
          [left; lia|right; lia..]. }
      * destruct (HT k Hk) as (ms & (Hbox & _) & _ & _ & Hag).
        rewrite Hag; [apply Hbox; lia|]. left. split; auto. exists r, c. lia.
      * destruct HDn as [HDn|(k & Hk & H)]; [|exfalso; apply (Hno k); auto].
        rewrite HF'; [apply HD; auto|]. intros k Hk [(_ & r' & c' & H1 & H2 & H3 & H4 & E)|(E & _)]; [|discriminate].
        destruct (Hblk k Hk) as (B1 & B2 & _).
        apply rc_inj in E; try lia. destruct E; subst. apply (Hno k Hk). lia.
Qed.

End C.
