(** * What the printing functions print. *)

From Coq Require Import ZArith List Bool Ascii String Lia.
From Verif Require Import Lang Spec SpecSmall SpecConv SpecPrint ModelSizing ModelKernel ModelPrint Print_facts.
Import ListNotations.
Open Scope string_scope.
Open Scope list_scope.
Open Scope Z_scope.

(** C78.  print_array prints the elements in order, from any place of any object, ... *)
Theorem C78_array :
  forall V (m : mem V) b o len (f : Z -> V),
  (forall i, 0 <= i < len -> cell m b (o + i) (f i)) ->
  print_array m (b, o) len = CRet (row_text " " len f ++ [Say nl2]).
Proof. exact @array_prints. Qed.
Print Assumptions C78_array.

(** ... print_mat prints the rows of the matrix, a line each, ... *)
Theorem C78_mat :
  forall V (m : mem V) b o r c (f : Z -> Z -> V),
  (forall i j, 0 <= i < r -> 0 <= j < c -> cell m b (o + (i * c + j)) (f i j)) ->
  print_mat m (b, o) r c = CRet (lines_text r c f ++ [Say nl2]).
Proof. exact @mat_prints. Qed.
Print Assumptions C78_mat.

(** ... and print_feature_map the planes of the input or output of a convolution. *)
Theorem C78_feature_map :
  forall V (m : mem V) b n H W (f : Z -> Z -> Z -> V),
  planes_stored m b n H W f -> print_feature_map m (b, 0) W H n = CRet (map_text n H W f).
Proof. exact @map_prints. Qed.
Print Assumptions C78_feature_map.

(** An element that lies outside of the object or was never assigned makes each of them undefined. *)
Theorem C78_undefined :
  forall V (m : mem V) b,
  (forall o len i, 0 <= i < len -> unreadable m b (o + i) -> print_array m (b, o) len = CUB) /\
  (forall o r c i, 0 < r -> 0 < c -> 0 <= i < r * c -> unreadable m b (o + i) -> print_mat m (b, o) r c = CUB) /\
  (forall n H W c y x, 0 <= c < n -> 0 <= y < H -> 0 <= x < W -> unreadable m b ((c * H + y) * W + x) ->
     print_feature_map m (b, 0) W H n = CUB) /\
  (forall n Cin H W o c h w, 0 <= o < n -> 0 <= c < Cin -> 0 <= h < H -> 0 <= w < W ->
     unreadable m b (((o * Cin + c) * H + h) * W + w) -> print_filters m (b, 0) W H Cin n = CUB).
Proof.
  intros V m b. split; [exact (array_undefined m b)|]. split; [exact (mat_undefined m b)|].
  split; [exact (map_undefined m b)|exact (filters_undefined m b)].
Qed.
Print Assumptions C78_undefined.

(** print_filters takes the filters in another order than the convolution does: it prints them
    exactly when the element it reads for row h and column w of plane c, place (h*W + w)*Cin + c of the
    filter, is the one there, ... *)
Theorem C78_filters_iff :
  forall V (m : mem V) b n Cin H W (F : Z -> Z -> Z -> Z -> V),
  filters_at m b n Cin H W F ->
  print_filters m (b, 0) W H Cin n = CRet (filters_text n Cin H W F) <->
  forall o c h w, 0 <= o < n -> 0 <= c < Cin -> 0 <= h < H -> 0 <= w < W ->
    let q := (h * W + w) * Cin + c in F o (q / (H * W)) (q mod (H * W) / W) (q mod W) = F o c h w.
Proof. exact @filters_right_iff. Qed.
Print Assumptions C78_filters_iff.

(** ... which is the case for one channel and for filters of one element ... *)
Theorem C78_filters_one :
  forall V (m : mem V) b n Cin H W (F : Z -> Z -> Z -> Z -> V),
  filters_at m b n Cin H W F -> Cin = 1 \/ H = 1 /\ W = 1 ->
  print_filters m (b, 0) W H Cin n = CRet (filters_text n Cin H W F).
Proof. exact @filters_right. Qed.
Print Assumptions C78_filters_one.

(** ... but in no other case when the elements of the first filter are all different. *)
Theorem C78_filters_refuted :
  forall V (m : mem V) b n Cin H W (F : Z -> Z -> Z -> Z -> V),
  filters_at m b n Cin H W F ->
  0 < n -> 1 < Cin -> 0 < H -> 0 < W -> 1 < H * W ->
  (forall c h w c' h' w', 0 <= c < Cin -> 0 <= h < H -> 0 <= w < W -> 0 <= c' < Cin -> 0 <= h' < H -> 0 <= w' < W ->
    F 0 c h w = F 0 c' h' w' -> c = c' /\ h = h' /\ w = w') ->
  exists t, print_filters m (b, 0) W H Cin n = CRet t /\ t <> filters_text n Cin H W F.
Proof. exact @filters_wrong. Qed.
Print Assumptions C78_filters_refuted.

(** print_schedule names the schedule, and ends the program for any other value. *)
Theorem C78_schedule :
  forall V s,
  @print_schedule V s =
  match s with
  | NA => CExit
  | _ => CRet [Say (nl ++ " " ++ (match s with KMN => "KMN" | MKN => "MKN" | _ => "NKM" end) ++ " Cake Schedule" ++ nl)%string]
  end.
Proof. intros V []; reflexivity. Qed.
Print Assumptions C78_schedule.

(** Element i of A is i; 100 elements, all but the last assigned *)
Definition pmem : mem Z :=
  Mem (fun b => match b with BufA => Some (BInfo 100 false) | _ => None end)
      (fun b i => if i =? 99 then None else Some i).

Lemma pmem_cell i : 0 <= i < 99 -> cell pmem BufA i i.
Proof.
  intros H. exists (BInfo 100 false). cbn. split; [reflexivity|]. split; [lia|]. destruct (Z.eqb_spec i 99); [lia|reflexivity].
Qed.

(** the 2 x 3 matrix from element 5, and what is printed; one filter of two 1 x 2 planes, printed
    0, 2 and 1, 3 where 0, 1 and 2, 3 is right *)
Example C78_applies :
  (forall i j, 0 <= i < 2 -> 0 <= j < 3 -> cell pmem BufA (5 + (i * 3 + j)) (5 + (i * 3 + j))) /\
  print_mat pmem (BufA, 5) 2 3 =
    CRet [Show 5; Say " "; Show 6; Say " "; Show 7; Say " "; Say nl; Show 8; Say " "; Show 9; Say " "; Show 10; Say " "; Say nl; Say nl2] /\
  planes_stored pmem BufA 3 4 5 (fun c y x => (c * 4 + y) * 5 + x) /\
  filters_at pmem BufA 1 2 1 2 (fun o c h w => ((o * 2 + c) * 1 + h) * 2 + w) /\
  print_filters pmem (BufA, 0) 2 1 2 1 =
    CRet [Say "filter "; Num 0; Say nl2;
          Say "channel "; Num 0; Say nl; Show 0; Say ", "; Show 2; Say ", "; Say nl2;
          Say "channel "; Num 1; Say nl; Show 1; Say ", "; Show 3; Say ", "; Say nl2; Say nl3] /\
  filters_text 1 2 1 2 (fun o c h w => ((o * 2 + c) * 1 + h) * 2 + w) =
         [Say "filter "; Num 0; Say nl2;
          Say "channel "; Num 0; Say nl; Show 0; Say ", "; Show 1; Say ", "; Say nl2;
          Say "channel "; Num 1; Say nl; Show 2; Say ", "; Show 3; Say ", "; Say nl2; Say nl3] /\
  unreadable pmem BufA 99 /\ print_array pmem (BufA, 90) 10 = CUB.
Proof.
  split; [intros; apply pmem_cell; lia|]. split; [reflexivity|].
  split; [intros c y x Hc Hy Hx; apply pmem_cell; lia|]. split; [intros o c h w Ho Hc Hh Hw; apply pmem_cell; lia|].
  split; [reflexivity|]. split; [reflexivity|]. split; [|reflexivity].
  intros v (bi & _ & _ & E). discriminate E.
Qed.
