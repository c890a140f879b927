(** * Where pack_C of the N-first schedule puts the blocks of C, and what it leaves out.

    Block (m, n) is written at D*m*t + n*t*nt(n) and expected at D*m*t + mt(m)*(n*nc), where D
    is the padded number of columns.  The two agree for all blocks, or some element of the
    buffer is in no written block. *)

From Coq Require Import ZArith Bool Lia.
From Verif Require Import SpecTop Sizing_facts.
Open Scope Z_scope.

Section Hole.

Variables (Mb t Mp : Z) (mt : Z -> Z) (Nb nc D : Z) (nt : Z -> Z).
Hypothesis PM : part Mb t Mp mt.
Hypothesis PN : part Nb nc D nt.
Hypothesis HM : 0 < Mb.

Let ml := mt (Mb - 1).
Let nl := nt (Nb - 1).

Definition written (m n e : Z) : Prop := D * m * t + n * t * nt n <= e < D * m * t + n * t * nt n + mt m * nt n.

Definition agree : Prop := forall m n, 0 <= m < Mb -> 0 <= n < Nb -> n * t * nt n = mt m * (n * nc).

Definition hole (e : Z) : Prop := 0 <= e < Mp * D /\ forall m n, 0 <= m < Mb -> 0 <= n < Nb -> ~ written m n e.

Lemma mt_cases m : 0 <= m < Mb -> (m = Mb - 1 /\ mt m = ml) \/ (m < Mb - 1 /\ mt m = t).
Proof. intros H. destruct (Z.eq_dec m (Mb - 1)) as [->|]; [auto|right]. split; [lia|]. apply (pt_full _ _ _ _ PM); lia. Qed.
Lemma nt_cases n : 0 <= n < Nb -> (n = Nb - 1 /\ nt n = nl) \/ (n < Nb - 1 /\ nt n = nc).
Proof. intros H. destruct (Z.eq_dec n (Nb - 1)) as [->|]; [auto|right]. split; [lia|]. apply (pt_full _ _ _ _ PN); lia. Qed.

Lemma ml_b : 0 < ml <= t. Proof. apply (pt_w _ _ _ _ PM). lia. Qed.
Lemma Mp_e : Mp = (Mb - 1) * t + ml. Proof. symmetry. apply (pt_last _ _ _ _ PM). lia. Qed.

Section Cols.
Hypothesis HN : 2 <= Nb.
Lemma nl_b : 0 < nl <= nc. Proof. apply (pt_w _ _ _ _ PN). lia. Qed.
Lemma D_e : D = (Nb - 1) * nc + nl. Proof. symmetry. apply (pt_last _ _ _ _ PN). lia. Qed.

(** a partial column of blocks and a full row of blocks: the last element of the first row *)
Lemma hole_cols : nl < nc -> mt 0 = t -> hole (D * t - 1).
Proof.
  intros Hl H0. pose proof nl_b as B1. pose proof ml_b as B2. pose proof D_e as E1. pose proof Mp_e as E2.
  assert (P1 : 0 < nl * t) by nia. assert (P2 : nl * t + t <= nc * t) by nia.
  split.
  - assert (t <= Mp) by (destruct (mt_cases 0 ltac:(lia)) as [(E & E')|(E & E')]; [rewrite E2, <- E; lia|nia]).
    assert (HD : 1 <= D) by (rewrite E1; nia). clear - H HD B2. nia.
  - intros m n Hm Hn (W1 & W2). destruct (Z.eq_dec m 0) as [->|Hm0].
    + rewrite H0 in W2. destruct (nt_cases n Hn) as [(En & Et)|(En & Et)]; rewrite Et in *.
      * rewrite En in *. assert (Nb * (t * nl) <= D * t - 1); [|nia]. rewrite E1.
        assert ((Nb - 1) * (t * nl) + (Nb - 1) * t <= (Nb - 1) * (nc * t)) by nia. nia.
      * assert ((n + 1) * (t * nc) <= (Nb - 1) * (t * nc)) by (apply Z.mul_le_mono_nonneg_r; nia). nia.
    + assert (0 <= n * t * nt n).
      { pose proof (pt_w _ _ _ _ PN n Hn). nia. }
      assert (D * t <= D * m * t); [|lia]. assert (0 <= D) by nia. nia.
Qed.

(** no partial column, a partial row: the first element of its second block *)
Lemma hole_rows : nl = nc -> ml < t -> hole (D * (Mb - 1) * t + ml * nc).
Proof.
  intros Hl H0. pose proof nl_b as B1. pose proof ml_b as B2. pose proof D_e as E1. pose proof Mp_e as E2.
  assert (ED : D = Nb * nc) by nia.
  assert (Hnt : forall n, 0 <= n < Nb -> nt n = nc) by (intros n Hn; destruct (nt_cases n Hn) as [(_ & ->)|(_ & ->)]; auto).
  assert (P : 0 < t * nc) by nia. assert (P2 : ml * nc < t * nc) by nia. assert (P3 : 0 < ml * nc) by nia.
  split.
  - rewrite E2. replace (((Mb - 1) * t + ml) * D) with (D * (Mb - 1) * t + ml * D) by ring. rewrite ED at 4.
    assert (0 <= D * (Mb - 1) * t) by (assert (0 <= D) by nia; assert (0 <= (Mb - 1) * t) by nia; nia). nia.
  - intros m n Hm Hn (W1 & W2). rewrite (Hnt n Hn) in *. destruct (mt_cases m Hm) as [(Em & Et)|(Em & Et)]; rewrite Et in *.
    + rewrite Em in *. destruct (Z.eq_dec n 0) as [->|]; [lia|].
      assert (t * nc <= n * (t * nc)) by nia. nia.
    + assert (G : D * m * t + n * t * nc + t * nc <= D * (m + 1) * t).
      { rewrite ED. assert ((n + 1) * (t * nc) <= Nb * (t * nc)) by nia. nia. }
      assert (D * (m + 1) * t <= D * (Mb - 1) * t); [|lia]. assert (0 <= D * t) by nia. nia.
Qed.

(** one row of blocks, partial in both directions *)
Lemma hole_both : Mb = 1 -> nl < nc -> ml < t -> ~ (Nb = 2 /\ t * nl = ml * nc) -> exists e, hole e.
Proof.
  intros HMb Hl Hm Hne. pose proof nl_b as B1. pose proof ml_b as B2. pose proof D_e as E1. pose proof Mp_e as E2.
  assert (EM : Mp = ml) by (rewrite E2, HMb; ring).
  assert (P1 : 0 < ml * nl) by nia. assert (P2 : ml * nl < ml * nc) by nia. assert (P3 : ml * nc < t * nc) by nia.
  assert (P4 : ml * nl < t * nl) by nia. assert (P5 : t * nl < t * nc) by nia.
  (* where block n is written, with a = ml*nc, b = t*nc, c = t*nl, d = ml*nl *)
  assert (Hw : forall e, (0 <= e < ml * D /\ (forall n, 0 <= n < Nb - 1 -> ~ (n * (t * nc) <= e < n * (t * nc) + ml * nc)) /\
     ~ ((Nb - 1) * (t * nl) <= e < (Nb - 1) * (t * nl) + ml * nl)) -> hole e).
  { intros e (H1 & H2 & H3). split; [now rewrite EM|]. intros m n Hm' Hn (W1 & W2). assert (m = 0) by lia. subst m.
    assert (E0 : mt 0 = ml) by (unfold ml; now rewrite HMb).
    rewrite E0 in W2. destruct (nt_cases n Hn) as [(En & Et)|(En & Et)]; rewrite Et in *.
    - apply H3. rewrite <- En. nia.
    - apply (H2 n ltac:(lia)). nia. }
  assert (ED : ml * D = (Nb - 1) * (ml * nc) + ml * nl) by (rewrite E1; ring).
  destruct (Z.eq_dec Nb 2) as [E|E].
  - rewrite E in *. destruct (Z_lt_le_dec (ml * nc) (t * nl)) as [L|L].
    + exists (ml * nc). apply Hw. rewrite ED. split; [lia|split; [|lia]]. intros n Hn. assert (n = 0) by lia. subst n. lia.
    + exists (ml * nc + ml * nl - 1). apply Hw. rewrite ED. assert (t * nl <> ml * nc) by tauto.
      split; [lia|split; [|lia]]. intros n Hn. assert (n = 0) by lia. subst n. lia.
  - assert (H3 : 3 <= Nb) by lia.
    assert (Q : forall n, 2 <= n -> 2 * (t * nc) <= n * (t * nc)) by (intros n Hn; apply Z.mul_le_mono_nonneg_r; lia).
    assert (ED3 : 2 * (ml * nc) + ml * nl <= ml * D) by (rewrite ED; assert (2 * (ml * nc) <= (Nb - 1) * (ml * nc)) by (apply Z.mul_le_mono_nonneg_r; lia); lia).
    set (s := (Nb - 1) * (t * nl)) in *.
    destruct (Z_lt_le_dec (ml * nc) s) as [L|L]; [|destruct (Z_lt_le_dec (ml * nc) (s + ml * nl)) as [L2|L2]].
    + exists (ml * nc). apply Hw. split; [lia|split; [|lia]]. intros n Hn.
      destruct (Z.eq_dec n 0) as [->|]; [lia|]. assert (t * nc <= n * (t * nc)) by nia. lia.
    + (* the last block covers the first element the second block should have *)
      destruct (Z_lt_le_dec (s + ml * nl) (t * nc)) as [L3|L3].
      * exists (s + ml * nl). apply Hw. split; [lia|split; [|lia]]. intros n Hn.
        destruct (Z.eq_dec n 0) as [->|]; [lia|]. assert (t * nc <= n * (t * nc)) by nia. lia.
      * assert (G : t * nc + ml * nc < ml * D).
        { destruct (Z_lt_le_dec (t * nc + ml * nc) (ml * D)) as [|G]; [auto|exfalso].
          assert (t * nc = ml * nc + ml * nl) by lia. assert (s = ml * nc) by lia.
          assert (Nb = 3).
          { destruct (Z.eq_dec Nb 3); [auto|exfalso].
            assert (3 * (ml * nc) <= (Nb - 1) * (ml * nc)) by (apply Z.mul_le_mono_nonneg_r; lia). lia. }
          assert (X1 : 2 * (t * nl) = ml * nc) by (rewrite <- H0; unfold s; rewrite H1; ring).
          (* t*nc = ml*(nc+nl) and 2*t*nl = ml*nc: nc^2 = 2*nl*(nc+nl), no solution *)
          assert (X2 : nc * nc = 2 * nl * (nc + nl)).
          { assert (X : ml * (nc * nc) = ml * (2 * nl * (nc + nl))).
            { replace (ml * (nc * nc)) with (ml * nc * nc) by ring. rewrite <- X1.
              replace (2 * (t * nl) * nc) with (2 * nl * (t * nc)) by ring. rewrite H. ring. }
            apply Z.mul_reg_l in X; lia. }
          clear - X2 B1.
          (* (nc - nl)^2 = 3 nl^2 *)
          assert (X3 : (nc - nl) * (nc - nl) = 3 * (nl * nl)) by nia.
          revert X3 B1. generalize nl as b. intros b X3 (Hb & _). revert X3. generalize (nc - b) as a. intros a.
          assert (Ga : forall k, 0 <= k -> forall b, 0 < b <= k -> forall a, a * a <> 3 * (b * b)).
          { intros k Hk. pattern k. apply natlike_ind; [lia| |exact Hk]. clear. intros k Hk IH b Hb a Ea.
            assert (Ma : a mod 3 = 0).
            { pose proof (Z.div_mod a 3 ltac:(lia)) as Da. pose proof (Z.mod_pos_bound a 3 ltac:(lia)) as Ba.
              set (q := a / 3) in *. set (r := a mod 3) in *. clearbody q r. subst a.
              assert (r * r = 3 * (b * b - 3 * q * q - 2 * q * r)) by nia.
              assert (r = 0 \/ r = 1 \/ r = 2) as [ -> |[ -> | -> ]] by lia; [auto|lia|lia]. }
            apply Z.mod_divide in Ma; [|lia]. destruct Ma as [a' ->].
            assert (Eb : b * b = 3 * (a' * a')) by nia.
            assert (Mb' : b mod 3 = 0).
            { pose proof (Z.div_mod b 3 ltac:(lia)) as Da. pose proof (Z.mod_pos_bound b 3 ltac:(lia)) as Ba.
              set (q := b / 3) in *. set (r := b mod 3) in *. clearbody q r. 
              assert (r * r = 3 * (a' * a' - 3 * q * q - 2 * q * r)) by nia.
              assert (r = 0 \/ r = 1 \/ r = 2) as [ -> |[ -> | -> ]] by lia; [auto|lia|lia]. }
            apply Z.mod_divide in Mb'; [|lia]. destruct Mb' as [b' ->].
            apply (IH b' ltac:(lia) a'). nia. }
          intros X. exact (Ga b ltac:(lia) b ltac:(lia) a X). }
        exists (t * nc + ml * nc). apply Hw. split; [lia|split; [|lia]]. intros n Hn.
        destruct (Z.eq_dec n 0) as [->|]; [lia|]. destruct (Z.eq_dec n 1) as [->|]; [lia|].
        specialize (Q n ltac:(lia)). lia.
    + exists (ml * nc). apply Hw. split; [lia|split; [|lia]]. intros n Hn.
      destruct (Z.eq_dec n 0) as [->|]; [lia|]. assert (t * nc <= n * (t * nc)) by nia. lia.
Qed.

End Cols.

(** the condition on the shape *)
Definition shape : Prop :=
  Nb <= 1 \/ (ml = t /\ nl = nc) \/ (Mb = 1 /\ Nb = 2 /\ t * nl = ml * nc).

Lemma shape_agree : shape -> agree.
Proof.
  intros H m n Hm Hn. destruct H as [H|[(H1 & H2)|(H1 & H2 & H3)]].
  - assert (n = 0) by lia. subst n. ring.
  - assert (Et : nt n = nc) by (destruct (nt_cases n Hn) as [(_ & ->)|(_ & ->)]; auto).
    assert (Em : mt m = t) by (destruct (mt_cases m Hm) as [(_ & ->)|(_ & ->)]; auto). rewrite Et, Em. ring.
  - destruct (mt_cases m Hm) as [(E & ->)|(E & ->)]; [|lia].
    destruct (nt_cases n Hn) as [(E' & ->)|(E' & ->)].
    + assert (n = 1) by lia. subst n. lia.
    + assert (n = 0) by lia. subst n. ring.
Qed.

Lemma not_shape_hole : ~ shape -> exists e, hole e.
Proof.
  intros H. unfold shape in H. destruct (Z_le_gt_dec Nb 1) as [|G]; [tauto|]. assert (HN : 2 <= Nb) by lia.
  pose proof (nl_b HN) as B1. pose proof ml_b as B2.
  destruct (Z_lt_le_dec nl nc) as [Ln|Ln].
  - destruct (Z.eq_dec (mt 0) t) as [E0|E0].
    + eexists. now apply hole_cols.
    + destruct (mt_cases 0 ltac:(lia)) as [(E & E')|(E & E')]; [|congruence].
      apply hole_both; auto; [lia|lia|]. intros (Q1 & Q2). apply H. right; right. split; [lia|auto].
  - assert (En : nl = nc) by lia. destruct (Z_lt_le_dec ml t) as [Lm|Lm].
    + eexists. now apply hole_rows.
    + exfalso. apply H. right; left. lia.
Qed.

Lemma fits_shape : 0 < nc -> C_fits Mp D t nc <-> shape.
Proof.
  intros Hnc. pose proof ml_b as B2. pose proof Mp_e as E2. unfold C_fits, shape. pose proof (pt_nb _ _ _ _ PN) as H0.
  destruct (Z.eq_dec Nb 0) as [E|E].
  { rewrite (pt_0 _ _ _ _ PN E). split; intros _; left; lia. }
  assert (Bn : 0 < nl <= nc) by (apply (pt_w _ _ _ _ PN); lia).
  assert (En : D = (Nb - 1) * nc + nl) by (symmetry; apply (pt_last _ _ _ _ PN); lia).
  assert (Q1 : D <= nc <-> Nb <= 1).
  { rewrite En. split; intros H; [destruct (Z_le_gt_dec Nb 1); [auto|exfalso; nia]|]. assert (Nb = 1) by lia. nia. }
  assert (Q2 : (t | Mp) <-> ml = t).
  { rewrite E2. split; [intros [u Hu]|intros ->; exists Mb; ring].
    assert (u = Mb); [|subst u; nia]. assert ((u - (Mb - 1)) * t = ml) by lia. nia. }
  assert (Q3 : (nc | D) <-> nl = nc).
  { rewrite En. split; [intros [u Hu]|intros ->; exists Nb; ring].
    assert (u = Nb); [|subst u; nia]. assert ((u - (Nb - 1)) * nc = nl) by lia. nia. }
  assert (Q4 : Mp <= t <-> Mb = 1).
  { rewrite E2. split; [intros H; nia|intros ->; lia]. }
  rewrite Q1, Q2, Q3, Q4. split.
  - intros [H|[H|(H1 & H2 & H3)]]; [auto|auto|]. destruct (Z_le_gt_dec Nb 1) as [L|L]; [auto|].
    assert (Nb = 2) by nia. right; right. split; [auto|split; [auto|]]. rewrite En, E2, H, H1 in H3. lia.
  - intros [H|[H|(H1 & H2 & H3)]]; [auto|auto|]. right; right. split; [auto|].
    rewrite En, E2, H1, H2. split; [lia|]. lia.
Qed.

End Hole.
