(** * The register-tile loops in 32-bit arithmetic, and bounds of block indices. *)

From Coq Require Import ZArith List Bool Lia.
From Verif Require Import Lang ModelSizing ModelKernel ModelPack ModelSched ModelInt Sizing_facts Int_facts IntPack_facts.
Open Scope Z_scope.

(** offset of part [u, u+..) of width t, at depth Y, of a block of rows X .. X+W-1 *)
Lemma blk_bound X W Y t u D E :
  0 <= X -> 0 <= W -> 0 <= t -> 0 <= Y -> X + W <= D -> Y + t <= E -> u <= W ->
  X * E + W * Y + u * t <= D * E.
Proof. intros. assert (u * t <= W * t) by nia. assert (W * (Y + t) <= W * E) by nia. nia. Qed.

Lemma prod_bound a b A B : 0 <= a <= A -> 0 <= b <= B -> a * b <= A * B.
Proof. intros. nia. Qed.

Lemma quot_div a r : 0 < r -> 0 <= a -> (r | a) -> Z.quot a r * r = a /\ 0 <= Z.quot a r.
Proof.
  intros Hr Ha [d ->]. rewrite Z.quot_mul by lia. split; [reflexivity|nia].
Qed.

(** element [y] of row [r] *)
Lemma row_bound r E y D : 0 <= E -> r + 1 <= D -> y <= E -> r * E + y <= D * E.
Proof. intros. assert ((r + 1) * E <= D * E) by nia. lia. Qed.

(** element [j] of row [i] of a panel of width r, depth d, at panel offset q *)
Lemma panel_bound q i j r d w : 0 <= d -> 0 <= i < d -> 0 <= j < r -> q + r <= w -> q * d + i * r + j < w * d.
Proof. intros. assert ((q + r) * d <= w * d) by nia. assert ((i + 1) * r <= d * r) by nia. lia. Qed.

Lemma mult_step a b d : 0 < d -> (d | a) -> (d | b) -> a < b -> a + d <= b.
Proof. intros Hd [u ->] [v ->] L. assert (u < v) by nia. nia. Qed.

Lemma mul_ge0 a b : 0 <= a -> 0 <= b -> 0 <= a * b.
Proof. intros. nia. Qed.

Section T.
Variable S : scalar.

Lemma padd_padd p a b : padd (padd p a) b = padd p (a + b).
Proof. unfold padd. cbn. f_equal. ring. Qed.

Lemma tile_loops_32 kern Ap a_ind Bp b_ind Cp cix c_ind mt nt kt m_r n_r :
  0 < m_r < 2 ^ 31 -> 0 < n_r < 2 ^ 31 -> (m_r | mt) -> (n_r | nt) ->
  0 <= mt < 2 ^ 31 -> 0 <= nt < 2 ^ 31 -> 1 <= kt ->
  0 <= a_ind -> 0 <= b_ind -> a_ind + mt * kt < 2 ^ 31 -> b_ind + nt * kt < 2 ^ 31 ->
  (forall n_reg m_reg, 0 <= n_reg -> 0 <= m_reg -> n_reg * n_r + n_r <= nt -> m_reg * m_r + m_r <= mt ->
     isafe (cix (n_reg * mt * n_r)%ix (m_reg * m_r * n_r)%ix) = true /\
     ival (cix (n_reg * mt * n_r)%ix (m_reg * m_r * n_r)%ix) = c_ind + (n_reg * mt * n_r + m_reg * m_r * n_r)) ->
  tsame (fun _ => True) (tile_loops32 S kern Ap a_ind Bp b_ind Cp cix mt nt kt m_r n_r)
    (tile_loops S kern (padd Ap a_ind) (padd Bp b_ind) (padd Cp c_ind) mt nt kt m_r n_r).
Proof.
  intros Hm Hn Dm Dn Bm Bn Hk Ha Hb La Lb Hc. unfold tile_loops32, tile_loops.
  destruct (quot_div nt n_r) as [Qn Qn0]; try lia; auto.
  destruct (quot_div mt m_r) as [Qm Qm0]; try lia; auto.
  assert (Z.quot nt n_r <= nt) by nia. assert (Z.quot mt m_r <= mt) by nia.
  apply ts_int; [safe; lia|]. apply ts_int; [safe; lia|]. cbn [ival].
  apply ts_for_; try lia; [apply divide_1|]. intros n_reg Hn0 Hn1 _.
  apply ts_for_; try lia; [apply divide_1|]. intros m_reg Hm0 Hm1 _.
  assert (B1 : m_reg * m_r + m_r <= mt) by nia.
  assert (B2 : n_reg * n_r + n_r <= nt) by nia.
  assert (B3 : m_reg * m_r * kt <= mt * kt) by nia.
  assert (B4 : n_reg * kt * n_r <= nt * kt) by nia.
  destruct (Hc n_reg m_reg Hn0 Hm0 B2 B1) as [C1 C2].
  apply ts_int; [safe; lia|]. apply ts_int; [safe; lia|]. apply ts_int; [exact C1|].
  apply ts_eq. rewrite C2. cbn [ival]. now rewrite !padd_padd.
Qed.

Lemma cix_plain mt nt m_r n_r n_reg m_reg :
  0 < m_r -> 0 < n_r -> 0 <= mt -> mt * nt < 2 ^ 31 ->
  0 <= n_reg -> 0 <= m_reg -> n_reg * n_r + n_r <= nt -> m_reg * m_r + m_r <= mt ->
  isafe (IxAdd (n_reg * mt * n_r)%ix (m_reg * m_r * n_r)%ix) = true /\
  ival (IxAdd (n_reg * mt * n_r)%ix (m_reg * m_r * n_r)%ix) = 0 + (n_reg * mt * n_r + m_reg * m_r * n_r).
Proof.
  intros. assert (B : n_reg * mt * n_r + m_reg * m_r * n_r <= mt * nt).
  { assert (mt * (n_reg * n_r + n_r) <= mt * nt) by nia. assert (m_reg * m_r * n_r <= mt * n_r) by nia. nia. }
  split; [safe; lia|reflexivity].
Qed.

Lemma cix_ind c_ind mt nt m_r n_r n_reg m_reg :
  0 < m_r -> 0 < n_r -> 0 <= mt -> 0 <= c_ind -> c_ind + mt * nt < 2 ^ 31 ->
  0 <= n_reg -> 0 <= m_reg -> n_reg * n_r + n_r <= nt -> m_reg * m_r + m_r <= mt ->
  isafe (c_ind + n_reg * mt * n_r + m_reg * m_r * n_r)%ix = true /\
  ival (c_ind + n_reg * mt * n_r + m_reg * m_r * n_r)%ix = c_ind + (n_reg * mt * n_r + m_reg * m_r * n_r).
Proof.
  intros. assert (B : n_reg * mt * n_r + m_reg * m_r * n_r <= mt * nt).
  { assert (mt * (n_reg * n_r + n_r) <= mt * nt) by nia. assert (m_reg * m_r * n_r <= mt * n_r) by nia. nia. }
  split; [safe; lia|cbn [ival]; ring].
Qed.

End T.
