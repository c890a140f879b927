(** * Packing a block without padding beyond the matrix; packing and unpacking again.  Proofs only. *)

From Coq Require Import ZArith List Bool Lia.
From Verif Require Import Lang Lang_facts Spec SpecTop SpecPack ModelSizing ModelKernel ModelPack ModelSched ModelBlock SpecBlock
     Exec Exec_facts Mult_facts Touch_facts TouchMN_facts Block_facts Witness.
Import ListNotations.
Open Scope Z_scope.

Section B.

Variable S : scalar.
Notation T := (elt S).

Lemma beyond_unreadable (m : mem T) b n i : exact_size m b n -> n <= i -> unreadable b i m.
Proof.
  intros (bi & H1 & H2) Hi al. unfold load. rewrite H1. replace (i <? blen bi) with false by lia.
  now rewrite andb_false_r.
Qed.

Lemma no_pad_A src dst o M K m1 m2 k1 mc kc mr m :
  src <> dst -> 0 < mr -> (mr | mc) -> 0 < mc -> 0 < kc -> 0 <= k1 -> 0 <= K -> M < m1 + m2 + mc ->
  exact_size m src (M * K) ->
  forall r, pexec (pseq (pack_ob_A_multiple_buf S (src, 0) (dst, o) M K m1 k1 m2 mc kc mr false)) m r -> r = Undef.
Proof.
  intros Hne Hr [q E] Hmc Hkc Hk1 HK Hout HS.
  intros r0. apply (ptouches_undef src ((m1 + m2 + mc - 1) * K + k1)).
  - cbn [pseq ptouches]. split.
    + intros t [<-|[]]. unfold pack_ob_A_multiple_buf. apply keeps_bind; [|intros; exact I].
      apply keeps_tfor; intros. apply keeps_tfor; intros. apply keeps_tfor; intros.
      apply keeps_bind; [apply copy0_keeps; cbn; congruence|intros; exact I].
    + left. eexists. split; [left; reflexivity|]. unfold pack_ob_A_multiple_buf. apply touches_bind_l.
      apply (touches_tfor _ _ 0 mc mr _ _ (q - 1)); [lia|nia|nia|]. intros i1.
      apply (touches_tfor1 _ _ 0 kc _ _ 0); [lia|]. intros i2.
      apply (touches_tfor1 _ _ 0 mr _ _ (mr - 1)); [lia|]. intros i3.
      apply touches_bind_l. cbn [andb]. apply copy0_touches; [reflexivity|]. cbn [snd]. subst mc. ring.
  - apply (beyond_unreadable m src (M * K)); auto.
    assert (M * K <= (m1 + m2 + mc - 1) * K) by (apply Z.mul_le_mono_nonneg_r; lia). lia.
Qed.

Lemma no_pad_C src dst o M N m1 n1 m2 mc nc mr nr m :
  src <> dst -> 0 < mr -> 0 < nr -> (mr | mc) -> 0 < mc -> 0 < nc -> 0 <= n1 -> 0 <= N -> M < m1 + m2 + mc ->
  exact_size m src (M * N) ->
  (forall r, pexec (pseq (pack_ob_C_single_buf S (src, (m1 + m2) * N + n1) (dst, o) M N m1 n1 m2 mc nc mr nr false false)) m r -> r = Undef) /\
  (forall r, pexec (pseq (pack_ob_C_multiple_buf S (src, 0) (dst, o) M N m1 n1 m2 mc nc mr nr false)) m r -> r = Undef).
Proof.
  intros Hne Hr Hs [q E] Hmc Hnc Hn1 HN Hout HS. rewrite pack_C_multiple_is, Z.add_0_l.
  enough (G : forall r, pexec (pseq (pack_ob_C_single_buf S (src, (m1 + m2) * N + n1) (dst, o) M N m1 n1 m2 mc nc mr nr false false)) m r -> r = Undef) by auto.
  intros r0. apply (ptouches_undef src ((m1 + m2 + mc - 1) * N + n1)).
  - cbn [pseq ptouches]. split.
    + intros t [<-|[]]. unfold pack_ob_C_single_buf. apply keeps_bind; [|intros; exact I].
      apply keeps_tfor; intros. apply keeps_tfor; intros. apply keeps_tfor; intros. apply keeps_tfor; intros.
      apply keeps_bind; [apply copy0_keeps; cbn; congruence|intros; exact I].
    + left. eexists. split; [left; reflexivity|]. unfold pack_ob_C_single_buf. apply touches_bind_l.
      apply (touches_tfor _ _ 0 nc nr _ _ 0); [lia|lia|lia|]. intros i0.
      apply (touches_tfor _ _ 0 mc mr _ _ (q - 1)); [lia|nia|nia|]. intros i1.
      apply (touches_tfor1 _ _ 0 mr _ _ (mr - 1)); [lia|]. intros i2.
      apply (touches_tfor1 _ _ 0 nr _ _ 0); [lia|]. intros i3.
      apply touches_bind_l. cbn [andb orb]. apply copy0_touches; [reflexivity|]. cbn [snd]. subst mc. ring.
  - apply (beyond_unreadable m src (M * N)); auto.
    assert (M * N <= (m1 + m2 + mc - 1) * N) by (apply Z.mul_le_mono_nonneg_r; lia). lia.
Qed.

Lemma block_round_trip src dst o M N m1 n1 m2 mc nc mr nr (C : Z -> Z -> T) m :
  src <> dst -> 0 < mr -> 0 < nr -> (mr | mc) -> (nr | nc) -> 0 <= mc -> 0 <= nc -> 0 <= m1 + m2 -> 0 <= n1 -> 0 <= o ->
  0 <= N -> at_least m src (M * N) -> holds m src M N C -> at_least m dst (o + mc * nc) ->
  always (pbind (pseq (pack_ob_C_multiple_buf S (src, 0) (dst, o) M N m1 n1 m2 mc nc mr nr true))
            (fun _ => pseq (unpack_ob_C_multiple_buf S (src, 0) (dst, o) M N m1 n1 m2 mc nc mr nr))) m
    (fun _ m' => (forall b, live m' b = live m b) /\
       (forall b x, ~ (b = dst /\ o <= x < o + mc * nc) -> dat m' b x = dat m b x)).
Proof.
  intros Hne Hr Hs Hd He Hmc Hnc H0 H1 Ho HN HL HC HD. apply pok_always, pok_bind, always_pok.
  destruct (block_C S src dst o M N m1 n1 m2 mc nc mr nr true true C m) as [_ P]; auto.
  eapply always_mono; [exact P|]. cbv beta. intros _ m1' (P1 & P2 & P3).
  destruct (block_unpack S dst src o M N m1 n1 m2 mc nc mr nr
    (fun i j => if (m1 + m2 + i <? M) && (n1 + j <? N) then C (m1 + m2 + i) (n1 + j) else zero S) m1') as [_ U]; auto.
  - destruct HL as (bi & A1 & A2). exists bi. rewrite P2. auto.
  - destruct HD as (bi & A1 & A2). exists bi. rewrite P2. auto.
  - apply always_pok. eapply always_mono; [exact U|]. cbv beta. intros _ m2' (U1 & U2 & U3). split.
    + intros b. now rewrite U2.
    + intros b x Hx. destruct (buf_eqb_spec b src) as [->|Hb].
      * destruct (Z_le_dec 0 x); [|rewrite U3, P3; auto; intros (_ & ?); lia].
        destruct (Z_lt_dec x (M * N)); [|rewrite U3, P3; auto; intros (_ & ?); lia].
        assert (LN : 0 < N) by (destruct (Z.eq_dec N 0) as [E0|]; [rewrite E0, Z.mul_0_r in *; lia|lia]).
        pose proof (Z.div_mod x N ltac:(lia)) as Ex. pose proof (Z.mod_pos_bound x N LN).
        assert (Hq : 0 <= x / N < M) by (split; [apply Z.div_pos; lia|apply Z.div_lt_upper_bound; lia]).
        replace x with (x / N * N + x mod N) by lia. rewrite U1 by auto.
        destruct (_ && _ && _ && _) eqn:G; [|rewrite P3; auto; intros (? & _); congruence].
        rewrite !andb_true_iff, !Z.leb_le, !Z.ltb_lt in G.
        replace (m1 + m2 + (x / N - (m1 + m2))) with (x / N) by ring.
        replace (n1 + (x mod N - n1)) with (x mod N) by ring.
        replace (x / N <? M) with true by lia. replace (x mod N <? N) with true by lia. cbn [andb].
        symmetry. apply HC; auto.
      * rewrite U3, P3; auto. intros (-> & _). congruence.
Qed.
End B.
