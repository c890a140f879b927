(** * On a machine with IEEE arithmetic the automatic tiles keep every size within 32 bits. *)

From Coq Require Import ZArith List Bool Lia.
From Verif Require Import SpecInt SpecTile Lang Lang_facts Spec SpecTop ModelSizing ModelKernel ModelPack ModelSched ModelTop ModelInt
     ModelDouble ModelIEEE Sizing_facts SizingMN_facts Init_facts CallAll_facts PackCall_facts Machine_facts Mult_facts
     Int_facts IntSize_facts IntTop_facts.
Open Scope Z_scope.

Lemma to_int_range x v : to_int x = Some v -> in32 v.
Proof.
  unfold to_int, in32. destruct (BinarySingleNaN.is_finite x); [|discriminate].
  destruct (Z.leb_spec (- 2 ^ 31) (BinarySingleNaN.Btrunc x)); cbn [andb]; [|discriminate].
  destruct (Z.ltb_spec (BinarySingleNaN.Btrunc x) (2 ^ 31)); [|discriminate]. intros [= <-]. auto.
Qed.

Lemma ieee_sizing32 c p : machine c -> 2 * bytes (mr c) (mr c) (nr c) <= L2 c -> 0 < p <= ncores c -> sizing32 ieee c p.
Proof.
  intros Hm HL Hp. destruct (L2_side_ex c Hm) as (n2 & E2 & H2 & B2). destruct (L3_side_ex c Hm) as (n3 & E3 & H3 & B3).
  pose proof Hm as (M1 & M2 & M3 & M4 & M5 & M6). assert (0 <= n2) by apply H2. assert (0 <= n3) by apply H3.
  unfold bytes in HL. assert (mr c * mr c <= 2 ^ 28) by nia. assert (mr c <= 2 ^ 14) by nia.
  constructor; rewrite ?E2, ?E3; unfold in32; try lia.
  - intros al q x v E. cbn in E. exact (to_int_range _ _ E).
  - pose proof (Z.rem_bound_pos n2 (mr c) ltac:(lia) M1).
    assert (Z.rem n2 (mr c) <= n2) by (rewrite Z.rem_mod_nonneg by lia; apply Z.mod_le; lia). nia.
  - nia.
  - nia.
Qed.

Lemma ieee_tiles32 ar c s M N K p mcu kcu ncu n2 n3 :
  machine c -> 2 * bytes (mr c) (mr c) (nr c) <= L2 c -> legal ieee ar s c M N K p mcu kcu ncu -> mcu = 0 \/ kcu = 0 \/ ncu = 0 ->
  s = KMN \/ s = MKN -> L2_side c n2 -> L3_side c n3 -> p <= ncores c ->
  round_down n2 (mr c) <= round_down n3 (mr c) -> nr c <= p * round_down n3 (mr c) ->
  forall x c', init_block_dims ieee M N K p c s mcu kcu ncu = CRet (x, c') -> tiles32 (sch x) p (m_c x) (k_c x) (n_c x).
Proof.
  intros Hm HL Hl Hu Hs H2 H3 Hp H23 Hn x c' E. destruct Hl as (Har & Hc & HM & HN & HK & Hp0 & Ht).
  assert (Hmr : 0 < mr c) by apply Hm. assert (Hnr : 0 < nr c) by apply Hm.
  destruct (init_inv ieee c s M N K p mcu kcu ncu HM Hp0 Hmr Hnr Hu x c' E) as (Es & _).
  assert (Es' : sch x = s) by (rewrite Es; destruct Hs; subst; reflexivity).
  assert (Hx : sch x <> NKM) by (rewrite Es'; destruct Hs; subst; discriminate).
  destruct (fits_L3 c s M N K p mcu kcu ncu x c' Hm HL HM Hp0 Hu E n2 n3 Hx H2 H3 Hp H23 Hn) as (F1 & F2).
  assert (Pos : 0 < m_c x /\ 0 < k_c x /\ 0 < n_c x).
  { destruct (init_ok ieee M N K p c s mcu kcu ncu HM Hp0 Hmr Hnr Ht) as
      (mc & kc & nc & al & s' & E' & A1 & A2 & A3 & A4 & A5 & A6 & A7 & A8).
    rewrite E' in E. rewrite (A7 ltac:(destruct Hs; subst; discriminate)) in E. clear E'. destruct Hs; subst s; cbn [dims_of] in E.
    - destruct (dims_KMN M N K p mc kc nc (mr c) (nr c)) as [y| |] eqn:Ey; try discriminate. injection E as <- _.
      destruct (dims_KMN_facts M N K p _ _ _ (mr c) (nr c) y HM HN HK Hp0 A1 A2 A3 Hmr Hnr A4 A5 Ey) as (P1 & P2 & P3 & P4 & P5). lia.
    - destruct (dims_MKN_facts M N K p _ _ _ (mr c) (nr c) HM HN HK Hp0 A1 A2 A3 Hmr Hnr A4 A5) as (y & P0 & P1 & P2 & P3 & P4 & P5 & P6).
      rewrite P0 in E. injection E as <- _. lia. }
  destruct Hm as (_ & _ & _ & _ & _ & M6). unfold tiles32. rewrite Es' in *. unfold bytes in *. destruct Hs; subst s.
  - specialize (F1 eq_refl). clear F2. set (a := m_c x) in *. set (b := k_c x) in *. set (d := n_c x) in *.
    assert (0 < p * a) by nia. assert (p * a <= p * a * b) by nia. assert (d <= b * d) by nia.
    assert (b <= b * d) by nia. assert (0 < p * a * d) by nia. assert (a * d <= p * a * d) by nia. assert (a <= a * d) by nia. lia.
  - specialize (F2 eq_refl). clear F1. set (a := m_c x) in *. set (b := k_c x) in *. set (d := n_c x) in *.
    assert (0 < p * b) by nia. assert (p * b <= a * (p * b)) by nia. assert (d <= a * d) by nia.
    assert (b <= p * b) by nia. assert (a <= a * d) by nia. assert (0 < p * b * d) by nia. lia.
Qed.
