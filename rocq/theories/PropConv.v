(** * Properties of the convolution example (examples/cake_conv.cpp). *)

From Coq Require Import ZArith List Bool Permutation Lia.
From Verif Require Import Lang Spec SpecTop SpecSmall SpecTouch ModelSizing ModelKernel ModelConv SpecConv
     Witness ConvTop_facts ConvOut_facts ConvCol_facts.
Import ListNotations.
Open Scope Z_scope.

(** C70.  Convolution with 3x3 filters: with a number of output channels that is a multiple of
    six and an input two rows and two columns larger than the output, every execution on p cores
    adds the convolution to the columns of the output below the last multiple of sixteen, the
    terms of all elements in the same order, and changes nothing else.  The argument s (stride)
    has no influence. *)
Theorem C70_convolution :
  forall S rawH rawK d s p F In Out m,
  conv_args rawH rawK d p -> Hout d + 2 <= Hin d -> Wout d + 2 <= Win d -> (6 | Cout d) ->
  filters_stored m BufA (Cout d) (Cin d) F -> planes_stored m BufB (Cin d) (Hin d) (Win d) In ->
  planes_stored m BufC (Cout d) (Hout d) (Wout d) Out -> live m (BufAp 0) = None ->
  adds_convolution S (cake_sconv S rawH rawK d s p 6 16 false) m (BufAp 0)
    (Cin d) (Cout d) (Hout d) (Wout d) (Wout d / 16 * 16) F In Out.
Proof. exact conv_ok. Qed.
Print Assumptions C70_convolution.

(** With a width that is a multiple of sixteen this is the whole output. *)
Theorem C70_whole :
  forall S rawH rawK d s p F In Out m,
  conv_args rawH rawK d p -> Hout d + 2 <= Hin d -> Wout d + 2 <= Win d -> (6 | Cout d) -> (16 | Wout d) ->
  filters_stored m BufA (Cout d) (Cin d) F -> planes_stored m BufB (Cin d) (Hin d) (Win d) In ->
  planes_stored m BufC (Cout d) (Hout d) (Wout d) Out -> live m (BufAp 0) = None ->
  adds_convolution S (cake_sconv S rawH rawK d s p 6 16 false) m (BufAp 0)
    (Cin d) (Cout d) (Hout d) (Wout d) (Wout d) F In Out.
Proof.
  intros S rawH rawK d s p F In Out m Ha Hh Hw H6 [q Hq] HF HI HO HL.
  pose proof (conv_ok S rawH rawK d s p F In Out m Ha Hh Hw H6 HF HI HO HL) as H.
  replace (Wout d / 16 * 16) with (Wout d) in H; [exact H|]. rewrite Hq, Z.div_mul by lia. reflexivity.
Qed.
Print Assumptions C70_whole.

(** With any other width the remaining columns are not computed: they keep their values. *)
Theorem C70_tail_refuted :
  forall S rawH rawK d s p F In Out m,
  conv_args rawH rawK d p -> Hout d + 2 <= Hin d -> Wout d + 2 <= Win d -> (6 | Cout d) ->
  filters_stored m BufA (Cout d) (Cin d) F -> planes_stored m BufB (Cin d) (Hin d) (Win d) In ->
  planes_stored m BufC (Cout d) (Hout d) (Wout d) Out -> live m (BufAp 0) = None ->
  always (cake_sconv S rawH rawK d s p 6 16 false) m (fun _ m' =>
    forall o y x, 0 <= o < Cout d -> 0 <= y < Hout d -> Wout d / 16 * 16 <= x < Wout d ->
      dat m' BufC ((o * Hout d + y) * Wout d + x) = Some (Out o y x)).
Proof.
  intros S rawH rawK d s p F In Out m Ha Hh Hw H6 HF HI HO HL.
  pose proof (conv_ok S rawH rawK d s p F In Out m Ha Hh Hw H6 HF HI HO HL) as H.
  assert (0 < Wout d) by apply Ha.
  pose proof (Z.mul_div_le (Wout d) 16 ltac:(lia)). pose proof (Z.div_pos (Wout d) 16 ltac:(lia) ltac:(lia)).
  apply tail_columns in H; [|discriminate|lia]. destruct H as (HX & HA). split; [exact HX|].
  intros o He. destruct (HA o He) as (r & m' & -> & E). exists r, m'. split; auto. intros c y x Hc Hy Hx.
  rewrite E by auto. destruct (HO c y x Hc Hy ltac:(lia)) as (bi & _ & _ & V). exact V.
Qed.
Print Assumptions C70_tail_refuted.

(** A number of output channels that is no multiple of six, the output having exactly its size:
    every execution is undefined. *)
Theorem C70_channels_refuted :
  forall S rawH rawK d s p packedA m bi,
  conv_runs rawH rawK d p -> ~ (6 | Cout d) ->
  live m BufC = Some bi -> blen bi = Cout d * Hout d * Wout d ->
  always_undefined (cake_sconv S rawH rawK d s p 6 16 packedA) m.
Proof. exact channels_out. Qed.
Print Assumptions C70_channels_refuted.

(** An input with too few rows for the output (the example reads it as if it were padded). *)
Theorem C70_input_refuted :
  forall S rawH rawK d s p packedA m bi,
  conv_runs rawH rawK d p -> 0 <= Win d -> 0 <= Hin d -> Hin d < Hout d + Hf d - 1 ->
  live m BufB = Some bi -> blen bi = Cin d * Hin d * Win d ->
  always_undefined (cake_sconv S rawH rawK d s p 6 16 packedA) m.
Proof. exact rows_out. Qed.
Print Assumptions C70_input_refuted.

(** Filters smaller than 3x3: packing reads nine elements of each. *)
Theorem C70_filters_refuted :
  forall S rawH rawK d s p m bi,
  0 <= Wf d -> 0 <= Hf d -> 0 < Cin d -> 0 < Cout d -> 0 <= Hout d -> 0 < p ->
  (forall mc, 0 <= rawH mc) -> (forall mc nc, rawK mc nc <> 0) ->
  Wf d * Hf d < 9 -> live m BufA = Some bi -> blen bi = Cout d * Cin d * Hf d * Wf d ->
  always_undefined (cake_sconv S rawH rawK d s p 6 16 false) m.
Proof. exact filters_out. Qed.
Print Assumptions C70_filters_refuted.

(** Block depth zero (an output row block that fills the L2 cache): division by zero. *)
Theorem C70_depth_refuted :
  forall S rawH rawK d s p packedA m,
  0 < Cin d -> 0 < Cout d -> 0 < p -> (forall mc, 0 <= rawH mc) -> (forall mc nc, rawK mc nc = 0) ->
  always_undefined (cake_sconv S rawH rawK d s p 6 16 packedA) m.
Proof. exact depth_out. Qed.
Print Assumptions C70_depth_refuted.

(** The call of the example's own main (lines 877-920), for either reason. *)
Theorem C70_main_refuted :
  forall S rawH rawK m bi,
  (forall mc, 0 <= rawH mc) -> (forall mc nc, rawK mc nc <> 0) ->
  live m BufB = Some bi -> blen bi = 33 * 33 * 512 ->
  always_undefined (cake_sconv S rawH rawK (ConvShape 3 3 33 33 32 32 512 512) 1 10 6 16 false) m.
Proof.
  intros S rawH rawK m bi R1 R2 HL Hb. eapply C70_input_refuted; [|..|exact HL|]; cbn [Wf Hf Win Hin Wout Hout Cin Cout]; try lia.
  repeat split; cbn [Wf Hf Win Hin Wout Hout Cin Cout]; try lia; auto.
Qed.
Print Assumptions C70_main_refuted.

(** im_2_col: with an input large enough it returns the matrix whose column (y, x) holds the
    elements of the input under the filter at (y, x); nothing else changes. *)
Theorem C70_im2col :
  forall S d In m,
  0 < Wf d -> 0 < Hf d -> 0 <= Cin d -> 0 <= Wout d -> 0 <= Hout d ->
  Wout d + Wf d - 1 <= Win d -> Hout d + Hf d - 1 <= Hin d ->
  planes_stored m BufB (Cin d) (Hin d) (Win d) In -> live m (BufX 0) = None -> live m (BufX 1) = None ->
  always (im_2_col S d) m (fun _ m' =>
    (forall b, b <> BufX 0 -> live m' b = live m b) /\
    (exists bi, live m' (BufX 0) = Some bi /\ blen bi = Cin d * Wf d * Hf d * Win d * Hin d) /\
    (forall c h w y x, 0 <= c < Cin d -> 0 <= h < Hf d -> 0 <= w < Wf d -> 0 <= y < Hout d -> 0 <= x < Wout d ->
       dat m' (BufX 0) (((c * Hf d + h) * Wf d + w) * (Hout d * Wout d) + (y * Wout d + x)) = Some (In c (y + h) (x + w))) /\
    (forall b i, b <> BufX 0 -> b <> BufX 1 -> dat m' b i = dat m b i)).
Proof. intros S d In m H1 H2 H3 H4 H5 H6 H7. now apply im_2_col_ok. Qed.
Print Assumptions C70_im2col.

(** So the product of the filters, one per row, with that matrix is the convolution, the terms
    in their natural order: a is the row of filter o, b the column (y, x). *)
Theorem C70_im2col_product :
  forall S (F : Z -> Z -> Z -> Z -> elt S) (In : Z -> Z -> Z -> elt S) a b o y x acc n,
  0 <= n ->
  (forall c h w, 0 <= c < n -> 0 <= h < 3 -> 0 <= w < 3 -> a ((c * 3 + h) * 3 + w) = F o c h w) ->
  (forall c h w, 0 <= c < n -> 0 <= h < 3 -> 0 <= w < 3 -> b ((c * 3 + h) * 3 + w) = In c (y + h) (x + w)) ->
  dot S a b (zrange 0 (3 * 3 * n)) acc = conv_sum S F In (all_terms n) o y x acc.
Proof. exact gemm_conv. Qed.
Print Assumptions C70_im2col_product.

(** With too few rows im_2_col reads past the input, as main does. *)
Theorem C70_im2col_refuted :
  forall S d m bi,
  0 < Wf d -> 0 < Hf d -> 0 < Cin d -> 0 < Wout d -> 0 < Hout d -> 0 <= Win d -> 0 <= Hin d ->
  Hin d < Hout d + Hf d - 1 ->
  live m BufB = Some bi -> blen bi = Cin d * Hin d * Win d ->
  always_undefined (im_2_col S d) m.
Proof. exact im_2_col_out. Qed.
Print Assumptions C70_im2col_refuted.

(** A call that meets the hypotheses: 12 filters over 5 channels, output 4 x 20, 2 cores. *)
Definition cshape : conv_shape := ConvShape 3 3 22 6 20 4 5 12.
Definition cmem : mem Z :=
  mem3 (12 * 5 * 9) (5 * 6 * 22) (12 * 4 * 20) (fun i => Some (wA i)) (fun i => Some (wB i)) (fun i => Some i).

Example C70_applies :
  conv_args (fun _ => 1) (fun _ _ => 3) cshape 2 /\
  adds_convolution Zs (cake_sconv Zs (fun _ => 1) (fun _ _ => 3) cshape 1 2 6 16 false) cmem (BufAp 0) 5 12 4 20 16
    (fun o c h w => wA (((o * 5 + c) * 3 + h) * 3 + w)) (fun c y x => wB ((c * 6 + y) * 22 + x)) (fun o y x => (o * 4 + y) * 20 + x) /\
  always_undefined (cake_sconv Zs (fun _ => 1) (fun _ _ => 3) (ConvShape 3 3 22 6 20 5 5 12) 1 2 6 16 false) cmem /\
  always_undefined (cake_sconv Zs (fun _ => 1) (fun _ _ => 3) (ConvShape 3 3 22 6 20 6 5 8) 1 2 6 16 false) cmem.
Proof.
  assert (A : conv_args (fun _ => 1) (fun _ _ => 3) cshape 2) by (repeat split; cbn; lia).
  split; [exact A|split; [|split]].
  - refine (C70_convolution Zs _ _ cshape 1 2 _ _ _ cmem A _ _ _ _ _ _ eq_refl); cbn [cshape Wf Hf Win Hin Wout Hout Cin Cout]; try lia.
    + now exists 2.
    + intros o c h w H1 H2 H3 H4. exists (BInfo (12 * 5 * 9) false). cbn -[Z.add Z.mul]. repeat split; lia.
    + intros c y x H1 H2 H3. exists (BInfo (5 * 6 * 22) false). cbn -[Z.add Z.mul]. repeat split; lia.
    + intros c y x H1 H2 H3. exists (BInfo (12 * 4 * 20) false). cbn -[Z.add Z.mul]. repeat split; lia.
  - apply (C70_input_refuted Zs _ _ _ 1 2 false cmem (BInfo (5 * 6 * 22) false)); cbn; try lia; auto. repeat split; cbn; lia.
  - apply (C70_channels_refuted Zs _ _ _ 1 2 false cmem (BInfo (12 * 4 * 20) false)); cbn; try lia; auto; [repeat split; cbn; lia|].
    intros [q Hq]. lia.
Qed.
