(** * Vocabulary for the query of the hardware: the texts lscpu and /proc/cpuinfo show. *)

From Coq Require Import ZArith List Bool Ascii String.
From Verif Require Import ModelSizing.
Import ListNotations.
Open Scope string_scope.
Open Scope Z_scope.

(** every character satisfies P *)
Fixpoint every (P : ascii -> Prop) (s : string) : Prop :=
  match s with EmptyString => True | String c s' => P c /\ every P s' end.

Definition a_digit (c : ascii) : Prop := In c ["0"; "1"; "2"; "3"; "4"; "5"; "6"; "7"; "8"; "9"]%char.

(** a number in decimal *)
Definition number (d : string) : Prop := d <> "" /\ every a_digit d.

(** its value, each digit times its power of ten *)
Fixpoint value (d : string) : Z :=
  match d with
  | EmptyString => 0
  | String c d' => (Z.of_nat (nat_of_ascii c) - Z.of_nat (nat_of_ascii "0")) * 10 ^ Z.of_nat (String.length d') + value d'
  end.

Definition mentions (w s : string) : Prop := exists a b, s = a ++ w ++ b.

(** the first line that mentions w *)
Definition first_line (w : string) (ls : list string) (l : string) : Prop :=
  exists before after, ls = (before ++ l :: after)%list /\ mentions w l /\ Forall (fun x => ~ mentions w x) before.

(** d is the digits of the line s, in order *)
Inductive digits_in : string -> string -> Prop :=
| di_end : digits_in "" ""
| di_digit c s d : a_digit c -> digits_in s d -> digits_in (String c s) (String c d)
| di_other c s d : ~ a_digit c -> digits_in s d -> digits_in (String c s) d.

(** the number lscpu shows on the line with the word w, as the program sees it: the digits of the
    first line with the word, of which it reads 15 *)
Definition shows (w : string) (lscpu : list string) (d : string) : Prop :=
  exists l e, first_line w lscpu l /\ digits_in l e /\ e <> "" /\ d = substring 0 15 e.

(** sizes are printed as a number and a letter *)
Inductive size_unit : Set := KiB | MiB.
Definition letter (u : size_unit) : string := match u with KiB => "K" | MiB => "M" end.
Definition unit_bytes (u : size_unit) : Z := match u with KiB => 1024 | MiB => 1024 * 1024 end.

Definition level_str (n : Z) : string := if n =? 1 then "1" else if n =? 2 then "2" else "3".

(** A line of lscpu --caches for a cache of the given level: the name (L1d, L1i, L2, L3), blanks, and
    the size. *)
Definition cache_line (level : string) (size : string) (line : string) : Prop :=
  exists kind sp, In kind [""; "d"; "i"] /\ sp <> "" /\ every (fun c => c = " "%char) sp /\
    line = "L" ++ level ++ kind ++ sp ++ size.

(** the sizes listed for a level, in order; other lines do not mention the level *)
Inductive cache_sizes (level : string) : list string -> list (string * size_unit) -> Prop :=
| cs_end : cache_sizes level [] []
| cs_row line d u ls rs : number d -> cache_line level (d ++ letter u) line -> cache_sizes level ls rs ->
    cache_sizes level (line :: ls) ((d, u) :: rs)
| cs_other line ls rs : ~ mentions ("L" ++ level) line -> cache_sizes level ls rs -> cache_sizes level (line :: ls) rs.

(** the length of the sizes written one after the other *)
Definition written (rs : list (string * size_unit)) : Z :=
  fold_right (fun r n => Z.of_nat (String.length (fst r)) + 1 + n) 0 rs.

(** the sizes written one after the other *)
Definition listed (rs : list (string * size_unit)) : string :=
  fold_right (fun r s => fst r ++ letter (snd r) ++ s) "" rs.

(** nothing is listed for the level: no line that mentions it has a K or an M (or a minus sign) *)
Definition no_sizes (level : string) (ls : list string) : Prop :=
  Forall (fun l => mentions ("L" ++ level) l -> every (fun c => ~ In c ["K"; "M"; "-"]%char) l) ls.

(** the built-in table: model number and L1, L2 and L3 in KiB *)
Definition table : list (Z * (Z * Z * Z)) :=
  [ (1,   (32, 512,  64 * 1024));
    (3,   (32, 32,   1024));
    (4,   (16, 16,   512));
    (17,  (32, 512,  4 * 1024));
    (33,  (32, 512,  64 * 1024));
    (49,  (32, 512,  128 * 1024));
    (69,  (32, 256,  4 * 1024));
    (85,  (32, 1024, 36608));
    (142, (32, 256,  8 * 1024));
    (165, (32, 256,  20 * 1024)) ].

Definition level_of (n : Z) (t : Z * Z * Z) : Z :=
  let '(a, b, c) := t in 1024 * (if n =? 1 then a else if n =? 2 then b else c).

(** the number of lines that begin with w *)
Inductive count_lines (w : string) : list string -> Z -> Prop :=
| cl_end : count_lines w [] 0
| cl_yes a ls n : count_lines w ls n -> count_lines w ((w ++ a) :: ls) (n + 1)
| cl_no l ls n : (forall a, l <> w ++ a) -> count_lines w ls n -> count_lines w (l :: ls) n.

(** A machine of usual size: at least 16 KiB of L2, at most 128 MiB of L3 and 1024 cores. *)
Definition usual (q : cntx) : Prop :=
  0 <= L1 q < 2 ^ 24 /\ 2 ^ 14 <= L2 q < 2 ^ 31 /\ 0 <= L3 q <= 2 ^ 27 /\ 0 < ncores q <= 2 ^ 10.
