(** * The packing kernels of BLIS. *)

From Coq Require Import ZArith List Bool Lia.
From Verif Require Import Lang Lang_facts Spec SpecTop ModelSizing ModelKernel ModelPack ModelTrans ModelBlis SpecBlis
     Kernel_facts Tile_facts Pack_facts Loop_facts Mult_facts Trans_facts.
Import ListNotations.
Open Scope Z_scope.

Section Blis.

Variable S : scalar.
Notation T := (elt S).

Definition readable (m : mem T) (Rd : region) (ab : buf) (ao inca lda n w : Z) (f : Z -> Z -> T) : Prop :=
  forall i j, 0 <= i < n -> 0 <= j < w ->
    Rd ab (ao + i * inca + j * lda) /\ dat m ab (ao + i * inca + j * lda) = Some (f i j) /\
    exists bi, live m ab = Some bi /\ 0 <= ao + i * inca + j * lda < blen bi.

Definition filled (m : mem T) (pb : buf) (po ld n w : Z) (f : Z -> Z -> T) : Prop :=
  forall i j, 0 <= i < n -> 0 <= j < w -> dat m pb (po + j * ld + i) = Some (f i j).

Lemma readable_frame m m' Rd W ab ao inca lda n w f :
  readable m Rd ab ao inca lda n w f -> live m' = live m ->
  (forall b x, ~ W b x -> dat m' b x = dat m b x) -> (forall b x, Rd b x -> ~ W b x) ->
  readable m' Rd ab ao inca lda n w f.
Proof.
  intros H HL HF HD i j Hi Hj. destruct (H i j Hi Hj) as (H1 & H2 & bi & H3).
  split; [auto|]. split; [rewrite HF; auto|]. exists bi. now rewrite HL.
Qed.

Lemma readable_sub m Rd ab ao inca lda n w f i0 j0 n' w' :
  readable m Rd ab ao inca lda n w f -> 0 <= i0 -> 0 <= j0 -> i0 + n' <= n -> j0 + w' <= w ->
  readable m Rd ab (ao + i0 * inca + j0 * lda) inca lda n' w' (fun i j => f (i0 + i) (j0 + j)).
Proof.
  intros H Hi0 Hj0 Hn Hw i j Hi Hj.
  replace (ao + i0 * inca + j0 * lda + i * inca + j * lda) with (ao + (i0 + i) * inca + (j0 + j) * lda) by ring.
  apply H; lia.
Qed.

(** contiguous rows *)
Lemma load_rows_spec (W Rd : region) ab ao inca n w f m :
  0 <= n -> 0 < w -> readable m Rd ab ao inca 1 n w f ->
  twp W Rd (load_rows S (ab, ao) inca n w)
    (fun r m' => m' = m /\ forall i e, 0 <= i < n -> 0 <= e < w -> r i e = f i e) m.
Proof.
  intros Hn Hw HR. unfold load_rows.
  eapply (twp_tfor1 _ _ (fun j r m2 => m2 = m /\ forall j' e, 0 <= j' < j -> 0 <= e < w -> r j' e = f j' e)); try lia.
  - split; auto. intros; lia.
  - intros j r m2 Hj (-> & Hr) _ _. apply twp_bind.
    destruct (HR j 0 Hj ltac:(lia)) as (_ & _ & bi & HL & H0).
    destruct (HR j (w - 1) Hj ltac:(lia)) as (_ & _ & bi' & HL' & H1).
    assert (bi' = bi) by congruence. subst bi'.
    eapply twp_mono.
    + apply (load_vec_spec S W Rd 1 (padd (ab, ao) (j * inca)) w (fun e => f j e) bi m); cbn [padd fst snd]; auto; try lia.
      intros e He. destruct (HR j e Hj He) as (R1 & R2 & _). rewrite Z.mul_1_r in R1, R2. auto.
    + cbv beta. intros v m2 (-> & Hv). apply twp_ret. split; [auto|]. intros j' e Hj' He.
      destruct (Z.eqb_spec j' j) as [->|]; [auto|]. apply Hr; lia.
  - auto.
Qed.

(** what a list of stores leaves at offset x *)
Fixpoint written (l : list (Z * Z * (Z -> T))) (x : Z) : option T :=
  match l with
  | [] => None
  | (o, n, v) :: l' =>
    match written l' x with
    | Some y => Some y
    | None => if (o <=? x) && (x <? o + n) then Some (v (x - o)) else None
    end
  end.

Lemma stores_spec (pb : buf) po len l : forall m bp,
  live m pb = Some bp -> 0 <= po -> po + len <= blen bp ->
  forallb (fun s => (0 <=? fst (fst s)) && (0 <=? snd (fst s)) && (fst (fst s) + snd (fst s) <=? len)) l = true ->
  forall C : Z -> Prop,
  (forall s x, In s l -> fst (fst s) <= x < fst (fst s) + snd (fst s) -> C x) ->
  twp (fun b x => b = pb /\ C (x - po)) rnone (stores S (pb, po) l)
    (fun _ m' => forall x, dat m' pb (po + x) = match written l x with Some v => Some v | None => dat m pb (po + x) end) m.
Proof.
  induction l as [|[[o n] v] l IH]; intros m bp HL H0 H1 Hf C HC; cbn [stores fold_right].
  - apply twp_ret. reflexivity.
  - cbn [forallb fst snd] in Hf. apply andb_true_iff in Hf. destruct Hf as (Ha & Hf).
    apply andb_true_iff in Ha. destruct Ha as (Ha & H4). apply andb_true_iff in Ha. destruct Ha as (H2 & H3).
    apply Z.leb_le in H2, H3, H4. apply twp_bind.
    eapply twp_call with (Rd' := rnone).
    + apply (store_vec_spec S (padd (pb, po) o) n v bp m); cbn [padd fst snd]; auto; lia.
    + cbn [padd fst snd]. intros b x (-> & Hx). split; [auto|]. apply (HC (o, n, v)); [left; auto|]. cbn [fst snd]. lia.
    + intros ? ? [].
    + cbn [padd fst snd]. intros _ m1 Hs HL1 HF1. eapply twp_mono.
      * apply (IH m1 bp); auto; [now rewrite HL1|]. intros s x Hin. apply HC. now right.
      * cbv beta. intros _ m2 H5 x. rewrite H5. cbn [written]. destruct (written l x); [auto|].
        destruct (Z.leb_spec o x), (Z.ltb_spec x (o + n)); cbn [andb].
        -- specialize (Hs (x - o) ltac:(lia)). rewrite <- Hs. f_equal. lia.
        -- apply HF1. intros (_ & Hx). lia.
        -- apply HF1. intros (_ & Hx). lia.
        -- apply HF1. intros (_ & Hx). lia.
Qed.

(** A block: [w] columns of a panel of [n] rows. *)
Definition block_ok (Rd : region) (ab pb : buf) (inca lda ld n w : Z) (t : ptr -> ptr -> thr T unit) : Prop :=
  forall ao po f m bp, live m pb = Some bp -> 0 <= po -> po + w * ld <= blen bp ->
    readable m Rd ab ao inca lda n w f ->
    twp (rng pb po (po + w * ld)) Rd (t (ab, ao) (pb, po)) (fun _ m' => filled m' pb po ld n w f) m.

(** below 4, as [below8] *)
Lemma below4 (P : Z -> Prop) : P 0 -> P 1 -> P 2 -> P 3 -> forall e, 0 <= e < 4 -> P e.
Proof. intros. assert (E : e = 0 \/ e = 1 \/ e = 2 \/ e = 3) by lia. destruct E as [-> | [-> | [-> | ->]]]; auto. Qed.

Lemma below2 (P : Z -> Prop) : P 0 -> P 1 -> forall e, 0 <= e < 2 -> P e.
Proof. intros. assert (E : e = 0 \/ e = 1) by lia. destruct E as [-> | ->]; auto. Qed.

Definition cells (pb : buf) (po ld lo hi w : Z) : region :=
  fun b x => b = pb /\ exists i j, lo <= i < hi /\ 0 <= j < w /\ x = po + j * ld + i.

(** rows lo .. lo+3 *)
Lemma group4_spec (Rd : region) ab pb ao po inca ld f m bp :
  ld = 6 \/ ld = 16 ->
  live m pb = Some bp -> 0 <= po -> po + 7 * ld + 4 <= blen bp ->
  readable m Rd ab ao inca 1 4 8 f ->
  twp (cells pb po ld 0 4 8) Rd (group4_haswell S (ab, ao) (pb, po) inca ld) (fun _ m' => filled m' pb po ld 4 8 f) m.
Proof.
  intros Hld HL H0 H1 HR. unfold group4_haswell. apply twp_bind.
  eapply twp_mono; [apply (load_rows_spec _ _ ab ao inca 4 8 f m); auto; lia|].
  cbv beta. intros r m1 (-> & Hr).
  eapply twp_call with (Rd' := rnone).
  - apply (stores_spec pb po (7 * ld + 4) _ m bp HL H0 ltac:(lia)) with
      (C := fun x => exists i j, 0 <= i < 4 /\ 0 <= j < 8 /\ x = j * ld + i).
    + destruct Hld as [-> | ->]; reflexivity.
    + cbn [In]. intros s x Hin Hx.
      repeat (destruct Hin as [<- | Hin]; [cbn [fst snd] in Hx|]); try contradiction.
      * exists (x - 0 * ld), 0; lia.
      * exists (x - 4 * ld), 4; lia.
      * exists (x - 1 * ld), 1; lia.
      * exists (x - 5 * ld), 5; lia.
      * exists (x - 2 * ld), 2; lia.
      * exists (x - 6 * ld), 6; lia.
      * exists (x - 3 * ld), 3; lia.
      * exists (x - 7 * ld), 7; lia.
  - intros b x (-> & i & j & Hi & Hj & E). split; [auto|]. exists i, j. lia.
  - intros ? ? [].
  - cbv beta. intros _ m1 Hs _ _ i j Hi Hj.
    replace (po + j * ld + i) with (po + (j * ld + i)) by ring. rewrite Hs, <- (Hr i j) by lia. clear Hs Hr.
    destruct Hld as [-> | ->]; revert j Hj; pattern i; apply below4; try exact Hi;
      intros j Hj; pattern j; apply below8; try exact Hj; reflexivity.
Qed.

Lemma group2_spec (Rd : region) ab pb ao po inca f m bp :
  live m pb = Some bp -> 0 <= po -> po + 48 <= blen bp ->
  readable m Rd ab (ao + 4 * inca) inca 1 2 8 f ->
  twp (cells pb po 6 4 6 8) Rd (group2_haswell S (ab, ao) (pb, po) inca)
    (fun _ m' => filled m' pb (po + 4) 6 2 8 f) m.
Proof.
  intros HL H0 H1 HR. unfold group2_haswell. apply twp_bind.
  eapply twp_mono; [apply (load_rows_spec _ _ ab (ao + 4 * inca) inca 2 8 f m); auto; lia|].
  cbv beta. intros r m1 (-> & Hr).
  eapply twp_call with (Rd' := rnone).
  - apply (stores_spec pb po 48 _ m bp HL H0 ltac:(lia)) with
      (C := fun x => exists i j, 4 <= i < 6 /\ 0 <= j < 8 /\ x = j * 6 + i).
    + reflexivity.
    + cbn [In]. intros s x Hin Hx.
      repeat (destruct Hin as [<- | Hin]; [cbn [fst snd] in Hx|]); try contradiction.
      * exists (x - 0 * 6), 0; lia.
      * exists (x - 1 * 6), 1; lia.
      * exists (x - 4 * 6), 4; lia.
      * exists (x - 5 * 6), 5; lia.
      * exists (x - 2 * 6), 2; lia.
      * exists (x - 3 * 6), 3; lia.
      * exists (x - 6 * 6), 6; lia.
      * exists (x - 7 * 6), 7; lia.
  - intros b x (-> & i & j & Hi & Hj & E). split; [auto|]. exists i, j. lia.
  - intros ? ? [].
  - cbv beta. intros _ m1 Hs _ _ i j Hi Hj.
    replace (po + 4 + j * 6 + i) with (po + (j * 6 + (4 + i))) by ring. rewrite Hs, <- (Hr i j) by lia. clear Hs Hr.
    revert j Hj; pattern i; apply below2; try exact Hi; intros j Hj; pattern j; apply below8; try exact Hj; reflexivity.
Qed.

Definition away (pb : buf) (Rd : region) : Prop := forall x, ~ Rd pb x.

(** the body of the row path of 6xk *)
Lemma block6_ok Rd ab pb inca :
  away pb Rd ->
  block_ok Rd ab pb inca 1 6 6 8 (fun a p => tbind (group4_haswell S a p inca 6) (fun _ => group2_haswell S a p inca)).
Proof.
  intros HA ao po f m bp HL H0 H1 HR. apply twp_bind.
  eapply twp_call with (Rd' := Rd).
  - apply (group4_spec Rd ab pb ao po inca 6 f m bp); auto; [lia|].
    pose proof (readable_sub m Rd ab ao inca 1 6 8 f 0 0 4 8 HR ltac:(lia) ltac:(lia) ltac:(lia) ltac:(lia)) as H.
    now replace (ao + 0 * inca + 0 * 1) with ao in H by ring.
  - intros b x (-> & i & j & Hi & Hj & ->). split; [auto|]. lia.
  - auto.
  - cbv beta. intros _ m1 H2 HL1 HF1.
    eapply twp_call with (Rd' := Rd).
    + apply (group2_spec Rd ab pb ao po inca (fun i j => f (4 + i) j) m1 bp); [now rewrite HL1|auto|lia|].
      eapply readable_frame; [|exact HL1|exact HF1|].
      * pose proof (readable_sub m Rd ab ao inca 1 6 8 f 4 0 2 8 HR ltac:(lia) ltac:(lia) ltac:(lia) ltac:(lia)) as H.
        now replace (ao + 4 * inca + 0 * 1) with (ao + 4 * inca) in H by ring.
      * intros b x Hx (-> & _). exact (HA x Hx).
    + intros b x (-> & i & j & Hi & Hj & ->). split; [auto|]. lia.
    + auto.
    + cbv beta. intros _ m2 H3 _ HF2 i j Hi Hj.
      destruct (Z_lt_dec i 4) as [Hi4|Hi4].
      * rewrite HF2; [apply H2; lia|]. intros (_ & i' & j' & Hi' & Hj' & E). lia.
      * pose proof (H3 (i - 4) j ltac:(lia) Hj) as E. cbv beta in E.
        replace (4 + (i - 4)) with i in E by lia. rewrite <- E. f_equal. lia.
Qed.

(** the body of the row path of 16xk *)
Lemma block16_ok Rd ab pb inca :
  away pb Rd ->
  block_ok Rd ab pb inca 1 16 16 8
    (fun a p => tfor_ 0 4 1 (fun g => group4_haswell S (padd a (g * (4 * inca))) (padd p (g * 4)) inca 16)).
Proof.
  intros HA ao po f m bp HL H0 H1 HR. unfold tfor_.
  eapply (twp_tfor1 _ _ (fun g (_ : unit) m2 => filled m2 pb po 16 (4 * g) 8 f)); try lia.
  - intros i j Hi. lia.
  - intros g _ m1 Hg HI HL1 HF1. eapply twp_call with (Rd' := Rd).
    + apply (group4_spec Rd ab pb (ao + g * (4 * inca)) (po + g * 4) inca 16 (fun i j => f (4 * g + i) j) m1 bp); auto; try lia.
      * now rewrite HL1.
      * eapply readable_frame; [|exact HL1|exact HF1|].
        -- pose proof (readable_sub m Rd ab ao inca 1 16 8 f (4 * g) 0 4 8 HR ltac:(lia) ltac:(lia) ltac:(lia) ltac:(lia)) as H.
           now replace (ao + 4 * g * inca + 0 * 1) with (ao + g * (4 * inca)) in H by ring.
        -- intros b x Hx (-> & _). exact (HA x Hx).
    + intros b x (-> & i & j & Hi & Hj & ->). split; [auto|]. lia.
    + auto.
    + cbv beta. intros _ m2 H3 _ HF2 i j Hi Hj.
      destruct (Z_lt_dec i (4 * g)) as [Hi4|Hi4].
      * rewrite HF2; [apply HI; lia|]. intros (_ & i' & j' & Hi' & Hj' & E). lia.
      * pose proof (H3 (i - 4 * g) j ltac:(lia) Hj) as E. cbv beta in E.
        replace (4 * g + (i - 4 * g)) with i in E by lia. rewrite <- E. f_equal. lia.
  - auto.
Qed.

Lemma copy_column_ok Rd ab pb lda n :
  0 < n -> block_ok Rd ab pb 1 lda n n 1 (fun a p => copy_column S a p n).
Proof.
  intros Hn ao po f m bp HL H0 H1 HR. unfold copy_column. apply twp_bind.
  destruct (HR 0 0 ltac:(lia) ltac:(lia)) as (_ & _ & bi & HLa & B0).
  destruct (HR (n - 1) 0 ltac:(lia) ltac:(lia)) as (_ & _ & bi' & HLa' & B1).
  assert (bi' = bi) by congruence. subst bi'.
  eapply twp_mono.
  - apply (load_vec_spec S _ Rd 1 (ab, ao) n (fun e => f e 0) bi m); cbn [fst snd]; auto; try lia.
    intros e He. destruct (HR e 0 He ltac:(lia)) as (R1 & R2 & _).
    replace (ao + e * 1 + 0 * lda) with (ao + e) in R1, R2 by ring. auto.
  - cbv beta. intros v m1 (-> & Hv). eapply twp_call with (Rd' := rnone).
    + apply (store_vec_spec S (pb, po) n v bp m); cbn [fst snd]; auto; lia.
    + cbn [fst snd]. intros b x (-> & Hx). split; [auto|]. lia.
    + intros ? ? [].
    + cbn [fst snd]. intros _ m1 Hs _ _ i j Hi Hj. assert (j = 0) by lia. subst j.
      rewrite <- Hv by lia. rewrite <- Hs by lia. f_equal. lia.
Qed.

Lemma gather_column_ok Rd ab pb inca n :
  0 < n -> block_ok Rd ab pb inca 1 n n 1 (fun a p => gather_column S a p inca n).
Proof.
  intros Hn ao po f m bp HL H0 H1 HR. unfold gather_column. apply twp_bind.
  eapply twp_mono; [apply (load_rows_spec _ _ ab ao inca n 1 f m); auto; lia|].
  cbv beta. intros r m1 (-> & Hr). eapply twp_call with (Rd' := rnone).
  - apply (store_vec_spec S (pb, po) n _ bp m); cbn [fst snd]; auto; lia.
  - cbn [fst snd]. intros b x (-> & Hx). split; [auto|]. lia.
  - intros ? ? [].
  - cbn [fst snd]. intros _ m1 Hs _ _ i j Hi Hj. assert (j = 0) by lia. subst j.
    rewrite <- Hr by lia. rewrite <- (Hs i Hi). f_equal. lia.
Qed.

(** several blocks one after the other *)
Lemma blocks_loop Rd ab pb inca lda n b q (t : ptr -> ptr -> thr T unit) :
  away pb Rd -> 0 < n -> 0 < b -> 0 <= q -> block_ok Rd ab pb inca lda n n b t ->
  forall ao po f m bp, live m pb = Some bp -> 0 <= po -> po + q * (b * n) <= blen bp ->
    readable m Rd ab ao inca lda n (q * b) f ->
    twp (rng pb po (po + q * (b * n))) Rd
      (tfor 0 q 1 ((ab, ao), (pb, po)) (fun _ st =>
         tbind (t (fst st) (snd st)) (fun _ => TRet (padd (fst st) (b * lda), padd (snd st) (b * n)))))
      (fun st m' => st = ((ab, ao + q * (b * lda)), (pb, po + q * (b * n))) /\ filled m' pb po n n (q * b) f) m.
Proof.
  intros HA Hn Hb Hq Ht ao po f m bp HL H0 H1 HR.
  eapply (twp_tfor1 _ _ (fun c st m' => st = ((ab, ao + c * (b * lda)), (pb, po + c * (b * n))) /\ filled m' pb po n n (c * b) f)); try lia.
  - split; [f_equal; f_equal; ring|]. intros i j _ Hj. lia.
  - intros c st m1 Hc (-> & HI) HL1 HF1. cbn [fst snd]. apply twp_bind.
    eapply twp_call with (Rd' := Rd).
    + apply (Ht (ao + c * (b * lda)) (po + c * (b * n)) (fun i j => f i (c * b + j)) m1 bp).
      * now rewrite HL1.
      * nia.
      * nia.
      * eapply readable_frame; [|exact HL1|exact HF1|].
        -- pose proof (readable_sub m Rd ab ao inca lda n (q * b) f 0 (c * b) n b HR ltac:(lia) ltac:(nia) ltac:(lia) ltac:(nia)) as H.
           now replace (ao + 0 * inca + c * b * lda) with (ao + c * (b * lda)) in H by ring.
        -- intros b' x Hx (-> & _). exact (HA x Hx).
    + intros b' x (-> & Hx). split; [auto|]. nia.
    + auto.
    + cbv beta. intros _ m2 H2 _ HF2. apply twp_ret. split.
      * unfold padd. cbn [fst snd]. f_equal; f_equal; ring.
      * intros i j Hi Hj. destruct (Z_lt_dec j (c * b)) as [Hj4|Hj4].
        -- rewrite HF2; [apply HI; lia|]. intros (_ & Hx). nia.
        -- pose proof (H2 i (j - c * b) Hi ltac:(lia)) as E. cbv beta in E.
           replace (c * b + (j - c * b)) with j in E by lia. rewrite <- E. f_equal. ring.
  - auto.
Qed.

Lemma columns8_ok Rd ab pb lda n :
  away pb Rd -> 0 < n -> block_ok Rd ab pb 1 lda n n 8 (columns8 S lda n).
Proof.
  intros HA Hn ao po f m bp HL H0 H1 HR. unfold columns8, tfor_.
  eapply (twp_tfor1 _ _ (fun c (_ : unit) m' => filled m' pb po n n c f)); try lia.
  - intros i j _ Hj. lia.
  - intros c _ m1 Hc HI HL1 HF1. eapply twp_call with (Rd' := Rd).
    + apply (copy_column_ok Rd ab pb lda n Hn (ao + c * lda) (po + c * n) (fun i j => f i (c + j)) m1 bp).
      * now rewrite HL1.
      * nia.
      * nia.
      * eapply readable_frame; [|exact HL1|exact HF1|].
        -- pose proof (readable_sub m Rd ab ao 1 lda n 8 f 0 c n 1 HR ltac:(lia) ltac:(lia) ltac:(lia) ltac:(lia)) as H.
           now replace (ao + 0 * 1 + c * lda) with (ao + c * lda) in H by ring.
        -- intros b' x Hx (-> & _). exact (HA x Hx).
    + intros b' x (-> & Hx). split; [auto|]. nia.
    + auto.
    + cbv beta. intros _ m2 H2 _ HF2 i j Hi Hj. destruct (Z_lt_dec j c) as [Hj4|Hj4].
      * rewrite HF2; [apply HI; lia|]. intros (_ & Hx). nia.
      * pose proof (H2 i (j - c) Hi ltac:(lia)) as E. cbv beta in E.
        replace (c + (j - c)) with j in E by lia. rewrite <- E. f_equal. ring.
  - auto.
Qed.

(** the k loops fill the whole panel *)
Lemma k_loops_ok Rd ab pb inca lda n b k (t c : ptr -> ptr -> thr T unit) :
  away pb Rd -> 0 < n -> 0 < b -> 0 <= k -> block_ok Rd ab pb inca lda n n b t ->
  (b = 1 \/ block_ok Rd ab pb inca lda n n 1 c) ->
  block_ok Rd ab pb inca lda n n k (fun a p => k_loops S b k lda n a p t c).
Proof.
  intros HA Hn Hb Hk Ht Hc ao po f m bp HL H0 H1 HR. unfold k_loops.
  rewrite Z.quot_div_nonneg, Z.rem_mod_nonneg by lia.
  pose proof (Z.div_mod k b ltac:(lia)) as D. pose proof (Z.mod_pos_bound k b Hb) as B.
  pose proof (Z.div_pos k b Hk Hb) as Q.
  set (q := k / b) in *. set (r := k mod b) in *. apply twp_bind.
  assert (E : k * n = q * (b * n) + r * (1 * n)) by (rewrite D; ring).
  eapply twp_call with (Rd' := Rd).
  - apply (blocks_loop Rd ab pb inca lda n b q t HA Hn Hb Q Ht ao po f m bp HL H0); [nia|].
    pose proof (readable_sub m Rd ab ao inca lda n k f 0 0 n (q * b) HR ltac:(lia) ltac:(lia) ltac:(lia) ltac:(lia)) as H.
    now replace (ao + 0 * inca + 0 * lda) with ao in H by ring.
  - intros b' x (-> & Hx). split; [auto|]. nia.
  - auto.
  - cbv beta. intros st m1 (-> & H2) HL1 HF1. apply twp_bind.
    destruct (Z.eq_dec r 0) as [Hr0|Hr0].
    { rewrite Hr0, tfor_empty by lia. apply twp_ret. apply twp_ret. intros i j Hi Hj. apply H2; [auto|]. lia. }
    destruct Hc as [->|Hc]; [exfalso; lia|].
    eapply twp_call with (Rd' := Rd).
    + pose proof (blocks_loop Rd ab pb inca lda n 1 r c HA Hn ltac:(lia) ltac:(lia) Hc (ao + q * (b * lda)) (po + q * (b * n))
                (fun i j => f i (q * b + j)) m1 bp) as HB.
      rewrite !Z.mul_1_l in HB. apply HB; clear HB.
      * now rewrite HL1.
      * nia.
      * nia.
      * eapply readable_frame; [|exact HL1|exact HF1|].
        -- pose proof (readable_sub m Rd ab ao inca lda n k f 0 (q * b) n (r * 1) HR ltac:(lia) ltac:(nia) ltac:(lia) ltac:(lia)) as H.
           now replace (ao + 0 * inca + q * b * lda) with (ao + q * (b * lda)) in H by ring.
        -- intros b' x Hx (-> & _). exact (HA x Hx).
    + intros b' x (-> & Hx). split; [auto|]. nia.
    + auto.
    + cbv beta. intros st m2 (_ & H3) _ HF2. apply twp_ret. intros i j Hi Hj.
      destruct (Z_lt_dec j (q * b)) as [Hj4|Hj4].
      * rewrite HF2; [apply H2; lia|]. intros (_ & Hx). nia.
      * pose proof (H3 i (j - q * b) Hi ltac:(lia)) as E2. cbv beta in E2.
        replace (q * b + (j - q * b)) with j in E2 by lia. rewrite <- E2. f_equal. ring.
Qed.

Lemma network4_spec v0 v1 v2 v3 j e : 0 <= j < 4 -> 0 <= e < 4 ->
  network4 S v0 v1 v2 v3 j e = (if e =? 0 then v0 else if e =? 1 then v1 else if e =? 2 then v2 else v3) j.
Proof.
  intros Hj He. revert e He. pattern j. apply below4; try exact Hj; intros e He; pattern e; apply below4; try exact He; reflexivity.
Qed.

Lemma block_armv8_ok Rd ab pb inca g :
  0 < g -> block_ok Rd ab pb inca 1 (4 * g) (4 * g) 4 (block_armv8 S g inca (4 * g)).
Proof.
  intros Hg ao po f m bp HL H0 H1 HR. unfold block_armv8. apply twp_bind.
  eapply twp_mono; [apply (load_rows_spec _ _ ab ao inca (4 * g) 4 f m); auto; lia|].
  cbv beta. intros r m1 (-> & Hr). unfold tfor_.
  eapply (twp_tfor1 _ _ (fun j (_ : unit) m2 => filled m2 pb po (4 * g) (4 * g) j f)); try lia.
  - intros i j _ Hj. lia.
  - intros j _ m1 Hj HI HL1 HF1.
    eapply (twp_tfor1 _ _ (fun q (_ : unit) m2 => filled m2 pb po (4 * g) (4 * g) j f /\
              forall i, 0 <= i < 4 * q -> dat m2 pb (po + j * (4 * g) + i) = Some (f i j))); try lia.
    + split; [auto|]. intros i Hi. lia.
    + intros q _ m2 Hq (HI2 & HI3) HL2 HF2. eapply twp_call with (Rd' := rnone).
      * apply (store_vec_spec S (padd (pb, po) (j * (4 * g) + 4 * q)) 4 _ bp m2); cbn [padd fst snd]; try nia. now rewrite HL2, HL1.
      * cbn [padd fst snd]. intros b x (-> & Hx). split; [auto|]. nia.
      * intros ? ? [].
      * cbn [padd fst snd]. intros _ m3 Hs _ HF3. split.
        -- intros i j' Hi Hj'. rewrite HF3; [apply HI2; auto|]. intros (_ & Hx). nia.
        -- intros i Hi. destruct (Z_lt_dec i (4 * q)) as [Hi4|Hi4].
           ++ rewrite HF3; [apply HI3; lia|]. intros (_ & Hx). nia.
           ++ specialize (Hs (i - 4 * q) ltac:(lia)).
              replace (po + (j * (4 * g) + 4 * q) + (i - 4 * q)) with (po + j * (4 * g) + i) in Hs by ring.
              rewrite Hs, network4_spec by lia. f_equal. rewrite <- (Hr i j) by lia.
              destruct (Z.eqb_spec (i - 4 * q) 0); [f_equal; lia|].
              destruct (Z.eqb_spec (i - 4 * q) 1); [f_equal; lia|].
              destruct (Z.eqb_spec (i - 4 * q) 2); f_equal; lia.
    + cbv beta. intros _ m2 (HI2 & HI3) _ _ i j' Hi Hj'. destruct (Z.eq_dec j' j) as [->|]; [apply HI3; lia|apply HI2; lia].
  - auto.
Qed.

(** ** The kernels *)

Lemma spackm_haswell_6xk_ok Rd ab pb inca lda k :
  away pb Rd -> 0 <= k -> inca = 1 \/ lda = 1 ->
  block_ok Rd ab pb inca lda 6 6 k (fun a p => spackm_haswell_6xk S 6 k true a inca lda p).
Proof.
  intros HA Hk Hs. unfold spackm_haswell_6xk. rewrite Z.eqb_refl.
  destruct (Z.eqb_spec inca 1) as [->|Hi]; cbn [negb andb].
  - apply k_loops_ok; auto; try lia; [apply columns8_ok; auto; lia|right; apply copy_column_ok; lia].
  - destruct (Z.eqb_spec lda 1) as [->|Hl]; [|lia]. cbn [negb andb].
    apply k_loops_ok; auto; try lia; [apply block6_ok; auto|right; apply gather_column_ok; lia].
Qed.

Lemma spackm_haswell_16xk_ok Rd ab pb inca lda k :
  away pb Rd -> 0 <= k -> inca = 1 \/ lda = 1 ->
  block_ok Rd ab pb inca lda 16 16 k (fun a p => spackm_haswell_16xk S 16 k true a inca lda p).
Proof.
  intros HA Hk Hs. unfold spackm_haswell_16xk. rewrite Z.eqb_refl.
  destruct (Z.eqb_spec inca 1) as [->|Hi]; cbn [negb andb].
  - apply k_loops_ok; auto; try lia; [apply columns8_ok; auto; lia|right; apply copy_column_ok; lia].
  - destruct (Z.eqb_spec lda 1) as [->|Hl]; [|lia]. cbn [negb andb].
    apply k_loops_ok; auto; try lia; [apply block16_ok; auto|right; apply gather_column_ok; lia].
Qed.

Lemma spackm_armv8_ok Rd ab pb inca lda g k :
  away pb Rd -> 0 < g -> 0 <= k -> inca = 1 \/ lda = 1 ->
  block_ok Rd ab pb inca lda (4 * g) (4 * g) k (fun a p => spackm_armv8 S g (4 * g) k a inca lda p (4 * g)).
Proof.
  intros HA Hg Hk Hs. unfold spackm_armv8. rewrite Z.eqb_refl.
  destruct (Z.eqb_spec inca 1) as [->|Hi]; cbn [negb andb].
  - apply k_loops_ok; auto; try lia. apply copy_column_ok; lia.
  - destruct (Z.eqb_spec lda 1) as [->|Hl]; [|lia]. cbn [negb andb].
    apply k_loops_ok; auto; try lia; [apply block_armv8_ok; auto|right; apply gather_column_ok; lia].
Qed.

Lemma cake_A_ok Rd ab pb K n k :
  away pb Rd -> 0 < n -> 0 <= k ->
  block_ok Rd ab pb K 1 n n k (fun a p => pack_A_mr_x_kc S a p K k n).
Proof.
  intros HA Hn Hk ao po f m bp HL H0 H1 HR. rewrite (Z.mul_comm k n) in *.
  eapply twp_mono; [apply (pack_A_mr_spec S Rd ab pb ao po K k n f bp m); auto|].
  - intros row kk Hr Hkk. destruct (HR row kk Hr Hkk) as (R1 & R2 & bi & R3).
    replace (ao + row * K + kk * 1) with (ao + (row * K + kk)) in * by ring. split; [auto|split; [auto|eauto]].
  - cbv beta. intros _ m' H i j Hi Hj. pose proof (H 0 i j ltac:(lia) Hi Hj) as E. rewrite Z.mul_0_l, Z.add_0_l in E.
    rewrite <- E. f_equal. ring.
Qed.

Lemma cake_B_ok Rd ab pb N n k :
  away pb Rd -> 0 < n -> 0 <= k ->
  block_ok Rd ab pb 1 N n n k (fun a p => pack_B_nr_x_kc S a p N k n).
Proof.
  intros HA Hn Hk ao po f m bp HL H0 H1 HR. rewrite (Z.mul_comm k n) in *.
  eapply twp_mono; [apply (pack_B_nr_spec S Rd ab pb ao po N k n (fun kk col => f col kk) bp m); auto|].
  - intros kk col Hr Hkk. destruct (HR col kk Hr Hkk) as (R1 & R2 & bi & R3).
    replace (ao + col * 1 + kk * N) with (ao + (kk * N + col)) in * by ring. split; [auto|split; [auto|eauto]].
  - cbv beta. intros _ m' H i j Hi Hj. pose proof (H 0 i j ltac:(lia) Hi Hj) as E. rewrite Z.mul_0_l, Z.add_0_l in E.
    rewrite <- E. f_equal. ring.
Qed.

End Blis.

(** ** The kernels as the callers use them *)

Lemma A_kernel_ok S pk Rd ab pb K n k :
  A_panel pk n -> away pb Rd -> 0 <= k ->
  block_ok S Rd ab pb K 1 n n k (fun a p => A_packing_kernel S pk n k true a K 1 p n).
Proof.
  intros Hp HA Hk. destruct pk; cbn [A_panel] in Hp; unfold A_packing_kernel.
  - apply cake_A_ok; auto.
  - subst n. apply spackm_haswell_6xk_ok; auto.
  - subst n. apply (spackm_armv8_ok S Rd ab pb K 1 2 k); auto; lia.
Qed.

Lemma B_kernel_ok S pk Rd ab pb N n k :
  B_panel pk n -> away pb Rd -> 0 <= k ->
  block_ok S Rd ab pb 1 N n n k (fun a p => B_packing_kernel S pk n k true a 1 N p n).
Proof.
  intros Hp HA Hk. destruct pk; cbn [B_panel] in Hp; unfold B_packing_kernel.
  - apply cake_B_ok; auto.
  - subst n. apply spackm_haswell_16xk_ok; auto.
  - subst n. apply (spackm_armv8_ok S Rd ab pb 1 N 3 k); auto; lia.
Qed.

(** a verified block, run on its own *)
Lemma block_alone S ab pb inca lda n k (t : ptr -> ptr -> thr (elt S) unit) oa op (f : Z -> Z -> elt S) m :
  ab <> pb -> 0 < n -> 0 <= k -> 0 <= inca -> 0 <= lda -> 0 <= oa -> 0 <= op ->
  block_ok S (fun b _ => b = ab) ab pb inca lda n n k t ->
  (k = 0 \/ at_least m ab (oa + (n - 1) * inca + (k - 1) * lda + 1)) -> at_least m pb (op + k * n) ->
  (forall i j, 0 <= i < n -> 0 <= j < k -> dat m ab (oa + i * inca + j * lda) = Some (f i j)) ->
  always (pseq (t (ab, oa) (pb, op))) m (fun _ m' =>
    (forall i j, 0 <= i < n -> 0 <= j < k -> dat m' pb (op + j * n + i) = Some (f i j)) /\
    (forall b, live m' b = live m b) /\
    (forall b x, ~ (b = pb /\ op <= x < op + k * n) -> dat m' b x = dat m b x)).
Proof.
  intros Hne Hn Hk Hi0 Hl0 Hoa Hop HB Ha (bp & L1 & L2) HD. apply pok_always.
  eapply (pok_seq (rng pb op (op + k * n)) (fun b _ => b = ab) _ m (fun m' => filled S m' pb op n n k f)).
  - apply (HB oa op f m bp); auto. intros i j Hi Hj. split; [auto|]. split; [apply HD; auto|].
    destruct Ha as [->|(bi & A1 & A2)]; [lia|]. exists bi. split; [auto|]. nia.
  - cbv beta. intros ms m' HP _ HL HE HF. split; [|split].
    + intros i j Hi Hj. rewrite HE. apply HP; auto.
    + intros b. now rewrite HL.
    + exact HF.
  - intros b x. unfold rng. destruct (buf_eqb_spec b pb) as [->|]; [|right; tauto].
    destruct (Z_le_dec op x); [|right; lia]. destruct (Z_lt_dec x (op + k * n)); [left; auto|right; lia].
Qed.

Lemma A_kernel_alone S pk n k K oa op (f : Z -> Z -> elt S) m :
  A_panel pk n -> 0 <= k -> 0 <= K -> 0 <= oa -> 0 <= op ->
  (k = 0 \/ at_least m BufA (oa + (n - 1) * K + k)) -> at_least m (BufAp 0) (op + k * n) ->
  (forall i j, 0 <= i < n -> 0 <= j < k -> dat m BufA (oa + i * K + j) = Some (f i j)) ->
  always (pseq (A_packing_kernel S pk n k true (BufA, oa) K 1 (BufAp 0, op) n)) m (fun _ m' =>
    (forall i j, 0 <= i < n -> 0 <= j < k -> dat m' (BufAp 0) (op + j * n + i) = Some (f i j)) /\
    (forall b, live m' b = live m b) /\
    (forall b x, ~ (b = BufAp 0 /\ op <= x < op + k * n) -> dat m' b x = dat m b x)).
Proof.
  intros Hp Hk HK Hoa Hop HA HP HD.
  apply (block_alone S BufA (BufAp 0) K 1 n k (fun a p => A_packing_kernel S pk n k true a K 1 p n)); auto; try lia.
  - discriminate.
  - destruct pk; cbn in Hp; lia.
  - apply A_kernel_ok; auto. intros x. discriminate.
  - destruct HA as [|HA]; [auto|right]. now replace (oa + (n - 1) * K + (k - 1) * 1 + 1) with (oa + (n - 1) * K + k) by ring.
  - intros i j Hi Hj. rewrite Z.mul_1_r. auto.
Qed.

Lemma B_kernel_alone S pk n k N ob op (f : Z -> Z -> elt S) m :
  B_panel pk n -> 0 <= k -> 0 <= N -> 0 <= ob -> 0 <= op ->
  (k = 0 \/ at_least m BufB (ob + (k - 1) * N + n)) -> at_least m BufBp (op + k * n) ->
  (forall i j, 0 <= i < k -> 0 <= j < n -> dat m BufB (ob + i * N + j) = Some (f i j)) ->
  always (pseq (B_packing_kernel S pk n k true (BufB, ob) 1 N (BufBp, op) n)) m (fun _ m' =>
    (forall i j, 0 <= i < k -> 0 <= j < n -> dat m' BufBp (op + i * n + j) = Some (f i j)) /\
    (forall b, live m' b = live m b) /\
    (forall b x, ~ (b = BufBp /\ op <= x < op + k * n) -> dat m' b x = dat m b x)).
Proof.
  intros Hp Hk HN Hob Hop HA HP HD.
  pose proof (block_alone S BufB BufBp 1 N n k (fun a p => B_packing_kernel S pk n k true a 1 N p n) ob op
     (fun j i => f i j) m) as H.
  eapply always_mono; [apply H; clear H; auto; try lia|].
  - discriminate.
  - destruct pk; cbn in Hp; lia.
  - apply B_kernel_ok; auto. intros x. discriminate.
  - destruct HA as [|HA]; [auto|right]. now replace (ob + (n - 1) * 1 + (k - 1) * N + 1) with (ob + (k - 1) * N + n) by ring.
  - intros i j Hi Hj. rewrite <- (HD j i) by auto. f_equal. ring.
  - cbv beta. intros _ m' (H1 & H2). split; [|exact H2]. intros i j Hi Hj. now apply (H1 j i).
Qed.

Lemma pseq_ret {V} (m : mem V) :
  always (pseq (TRet tt)) m (fun _ m' => (forall b, live m' b = live m b) /\ forall b x, dat m' b x = dat m b x).
Proof.
  apply pok_always. eapply (pok_seq rnone rnone (TRet tt) m (fun _ => True)).
  - apply twp_ret. exact I.
  - cbv beta. intros ms m' _ _ HL _ HF. split; [intros b; now rewrite HL|]. intros b x. apply HF. intros [].
  - intros b x. right. intros [].
Qed.

Lemma blis_other_sizes S pk n k unit a inca lda p ldp (m : mem (elt S)) : pk <> CakePack ->
  (~ A_panel pk n -> always (pseq (A_packing_kernel S pk n k unit a inca lda p ldp)) m (fun _ m' =>
     (forall b, live m' b = live m b) /\ forall b x, dat m' b x = dat m b x)) /\
  (~ B_panel pk n -> always (pseq (B_packing_kernel S pk n k unit a inca lda p ldp)) m (fun _ m' =>
     (forall b, live m' b = live m b) /\ forall b x, dat m' b x = dat m b x)).
Proof.
  intros Hpk. destruct pk; [congruence| |]; cbn [A_panel B_panel]; split; intros Hn;
  unfold A_packing_kernel, B_packing_kernel, spackm_haswell_6xk, spackm_haswell_16xk, spackm_armv8.
  - destruct (Z.eqb_spec n 6); [contradiction|]. apply pseq_ret.
  - destruct (Z.eqb_spec n 16); [contradiction|]. apply pseq_ret.
  - destruct (Z.eqb_spec n (4 * 2)); [contradiction|]. apply pseq_ret.
  - destruct (Z.eqb_spec n (4 * 3)); [contradiction|]. apply pseq_ret.
Qed.

(** ** Panels of matrices stored either way round *)
Lemma blis_A_layout S pk n k inca lda oa op (f : Z -> Z -> elt S) m :
  pk <> CakePack -> A_panel pk n -> 0 <= k -> 0 <= inca -> 0 <= lda -> inca = 1 \/ lda = 1 -> 0 <= oa -> 0 <= op ->
  (k = 0 \/ at_least m BufA (oa + (n - 1) * inca + (k - 1) * lda + 1)) -> at_least m (BufAp 0) (op + k * n) ->
  (forall i j, 0 <= i < n -> 0 <= j < k -> dat m BufA (oa + i * inca + j * lda) = Some (f i j)) ->
  always (pseq (A_packing_kernel S pk n k true (BufA, oa) inca lda (BufAp 0, op) n)) m (fun _ m' =>
    (forall i j, 0 <= i < n -> 0 <= j < k -> dat m' (BufAp 0) (op + j * n + i) = Some (f i j)) /\
    (forall b, live m' b = live m b) /\
    (forall b x, ~ (b = BufAp 0 /\ op <= x < op + k * n) -> dat m' b x = dat m b x)).
Proof.
  intros Hpk Hp Hk Hi Hl Hs Hoa Hop HA HP HD.
  apply (block_alone S BufA (BufAp 0) inca lda n k (fun a p => A_packing_kernel S pk n k true a inca lda p n)); auto; try lia.
  - discriminate.
  - destruct pk; cbn in Hp; lia.
  - assert (away (BufAp 0) (fun b _ => b = BufA)) by (intros x; discriminate).
    destruct pk; [congruence| |]; cbn [A_panel] in Hp; subst n; unfold A_packing_kernel.
    + apply spackm_haswell_6xk_ok; auto.
    + apply (spackm_armv8_ok S _ BufA (BufAp 0) inca lda 2 k); auto; lia.
Qed.

Lemma blis_B_layout S pk n k inca lda ob op (f : Z -> Z -> elt S) m :
  pk <> CakePack -> B_panel pk n -> 0 <= k -> 0 <= inca -> 0 <= lda -> inca = 1 \/ lda = 1 -> 0 <= ob -> 0 <= op ->
  (k = 0 \/ at_least m BufB (ob + (k - 1) * lda + (n - 1) * inca + 1)) -> at_least m BufBp (op + k * n) ->
  (forall i j, 0 <= i < k -> 0 <= j < n -> dat m BufB (ob + i * lda + j * inca) = Some (f i j)) ->
  always (pseq (B_packing_kernel S pk n k true (BufB, ob) inca lda (BufBp, op) n)) m (fun _ m' =>
    (forall i j, 0 <= i < k -> 0 <= j < n -> dat m' BufBp (op + i * n + j) = Some (f i j)) /\
    (forall b, live m' b = live m b) /\
    (forall b x, ~ (b = BufBp /\ op <= x < op + k * n) -> dat m' b x = dat m b x)).
Proof.
  intros Hpk Hp Hk Hi Hl Hs Hoa Hop HA HP HD.
  pose proof (block_alone S BufB BufBp inca lda n k (fun a p => B_packing_kernel S pk n k true a inca lda p n) ob op
     (fun j i => f i j) m) as H.
  eapply always_mono; [apply H; clear H; auto; try lia|].
  - discriminate.
  - destruct pk; cbn in Hp; lia.
  - assert (away BufBp (fun b _ => b = BufB)) by (intros x; discriminate).
    destruct pk; [congruence| |]; cbn [B_panel] in Hp; subst n; unfold B_packing_kernel.
    + apply spackm_haswell_16xk_ok; auto.
    + apply (spackm_armv8_ok S _ BufB BufBp inca lda 3 k); auto; lia.
  - destruct HA as [|HA]; [auto|right].
    now replace (ob + (n - 1) * inca + (k - 1) * lda + 1) with (ob + (k - 1) * lda + (n - 1) * inca + 1) by ring.
  - intros i j Hi' Hj'. rewrite <- (HD j i) by auto. f_equal. ring.
  - cbv beta. intros _ m' (H1 & H2). split; [|exact H2]. intros i j Hi' Hj'. now apply (H1 j i).
Qed.

Lemma blis_left_alone S pk n k unit a inca lda p ldp (m : mem (elt S)) : pk <> CakePack ->
  inca <> 1 /\ lda <> 1 \/ pk = BlisHaswellPack /\ unit = false ->
  always (pseq (A_packing_kernel S pk n k unit a inca lda p ldp)) m (fun _ m' =>
     (forall b, live m' b = live m b) /\ forall b x, dat m' b x = dat m b x) /\
  always (pseq (B_packing_kernel S pk n k unit a inca lda p ldp)) m (fun _ m' =>
     (forall b, live m' b = live m b) /\ forall b x, dat m' b x = dat m b x).
Proof.
  intros Hpk H. destruct pk; [congruence| |];
  unfold A_packing_kernel, B_packing_kernel, spackm_haswell_6xk, spackm_haswell_16xk, spackm_armv8;
  (destruct H as [(H1 & H2)|(He & Hu)]; [|]); try discriminate.
  - destruct (Z.eqb_spec inca 1); [lia|]. destruct (Z.eqb_spec lda 1); [lia|]. cbn [negb andb].
    rewrite !andb_false_r. split; apply pseq_ret.
  - subst unit. split; destruct (_ && _); apply pseq_ret.
  - destruct (Z.eqb_spec inca 1); [lia|]. destruct (Z.eqb_spec lda 1); [lia|]. cbn [negb andb].
    rewrite !andb_false_r. split; apply pseq_ret.
Qed.
