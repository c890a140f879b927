(** * The query of the hardware: get_num_physical_cores and get_cache_size,
      src/block_sizing.cpp:85-298, and cake_query_cntx on top of them.

    Definitions only.  The two functions run shell pipelines over the output of lscpu and over
    /proc/cpuinfo; the texts are the input of the model and the commands of the pipelines are
    modelled here.  A char array is [option string]: [None] is an array not yet written. *)

From Coq Require Import ZArith List Bool Ascii String DecimalString.
From Verif Require Import ModelSizing.
Import ListNotations.
Open Scope string_scope.
Open Scope Z_scope.
Open Scope comp_scope.

Definition newline : ascii := "010".

(** What the machine shows: the lines of /proc/cpuinfo (none if it cannot be read), of lscpu, and
    of lscpu --caches with NAME,ONE-SIZE and NAME,ALL-SIZE; [shell] is false if popen fails.
    Simplification: all calls of popen succeed or all fail. *)
Record host : Type := Host {
  shell : bool; cpuinfo : option (list string); lscpu : list string;
  caches_one : list string; caches_all : list string }.

Definition is_digit (c : ascii) : bool := (48 <=? Z.of_nat (nat_of_ascii c)) && (Z.of_nat (nat_of_ascii c) <=? 57).
Definition digit (c : ascii) : Z := Z.of_nat (nat_of_ascii c) - 48.

(** isspace in the C locale: blank and \t \n \v \f \r *)
Definition is_space (c : ascii) : bool :=
  (Z.of_nat (nat_of_ascii c) =? 32) || ((9 <=? Z.of_nat (nat_of_ascii c)) && (Z.of_nat (nat_of_ascii c) <=? 13)).

(** grep WORD: the lines that contain the word *)
Fixpoint contains (w s : string) : bool :=
  prefix w s || match s with EmptyString => false | String _ s' => contains w s' end.
Definition grep (w : string) (ls : list string) : list string := filter (contains w) ls.

(** head -1, and the -m 1 of grep *)
Definition head1 (ls : list string) : list string := firstn 1 ls.

(** the text of a list of lines *)
Definition text (ls : list string) : string := fold_right (fun l t => l ++ String newline t) "" ls.

(** tr -dc '0-9': keep the digits *)
Fixpoint keep_digits (s : string) : string :=
  match s with EmptyString => "" | String c s' => if is_digit c then String c (keep_digits s') else keep_digits s' end.

(** tr -d '\n' *)
Fixpoint drop_newlines (s : string) : string :=
  match s with EmptyString => "" | String c s' => if (c =? newline)%char then drop_newlines s' else String c (drop_newlines s') end.

(** grep -c ^WORD *)
Definition grep_count (w : string) (ls : list string) : nat := List.length (filter (prefix w) ls).

(** the longest prefix of digits, of nines, and the rest *)
Fixpoint span (p : ascii -> bool) (s : string) : string * string :=
  match s with
  | EmptyString => ("", "")
  | String c s' => if p c then let '(a, b) := span p s' in (String c a, b) else ("", s)
  end.

(** The match of the regular expression '[0-9]*M|[0-9]*K|0-9*G' at the start of s, and what is
    left.  The last alternative is the text "0-" followed by any number of nines and a G. *)
Definition match_here (s : string) : option (string * string) :=
  let '(d, r) := span is_digit s in
  match r with
  | String c r' =>
      if (c =? "M")%char || (c =? "K")%char then Some (d ++ String c "", r') else
      match s with
      | String "0" (String "-" t) =>
          let '(n, u) := span (fun c => (c =? "9")%char) t in
          match u with String "G" u' => Some ("0-" ++ n ++ "G", u') | _ => None end
      | _ => None
      end
  | EmptyString => None
  end.

(** grep -o of that expression on one line: the matches from left to right, each on a line of its
    own; n bounds the number of steps. *)
Fixpoint matches (n : nat) (s : string) : list string :=
  match n with
  | O => []
  | S n => match s with
           | EmptyString => []
           | String _ s' => match match_here s with
                            | Some (w, r) => w :: matches n r
                            | None => matches n s'
                            end
           end
  end.
Definition grep_sizes (ls : list string) : list string := flat_map (fun l => matches (String.length l) l) ls.

(** up to n characters, and no further than the first newline *)
Fixpoint take_line (n : nat) (s : string) : string :=
  match n, s with
  | O, _ | _, EmptyString => ""
  | S n, String c s' => if (c =? newline)%char then String c "" else String c (take_line n s')
  end.

(** fgets(ret, 16, fp) on a pipe that delivers s.  At end of file with nothing read the array keeps
    its content and NULL is returned (the boolean). *)
Definition fgets16 (ret : option string) (s : string) : option string * bool :=
  match s with EmptyString => (ret, false) | _ => (Some (take_line 15 s), true) end.

(** atoi: white space, a sign, digits.  Undefined if the value is not an int or the array was never
    written. *)
Fixpoint skip_space (s : string) : string :=
  match s with String c s' => if is_space c then skip_space s' else s | EmptyString => "" end.
Fixpoint dec_loop (acc : Z) (s : string) : Z :=
  match s with String c s' => if is_digit c then dec_loop (10 * acc + digit c) s' else acc | EmptyString => acc end.
Definition to_int (z : Z) : comp Z := if (- 2 ^ 31 <=? z) && (z <? 2 ^ 31) then CRet z else CUB.
Definition atoi (ret : option string) : comp Z :=
  match ret with
  | None => CUB
  | Some s =>
      match skip_space s with
      | String "-" s' => to_int (- dec_loop 0 s')
      | String "+" s' => to_int (dec_loop 0 s')
      | s' => to_int (dec_loop 0 s')
      end
  end.

(** int multiplication *)
Definition imul (a b : Z) : comp Z := to_int (a * b).

(** src/block_sizing.cpp:92-147.  The output of grep -c is the number of lines and a newline. *)
Definition get_num_physical_cores (h : host) : comp Z :=
  if negb (shell h) then CExit else
  let '(ret1, _) := fgets16 None
     (match cpuinfo h with
      | Some ls => NilZero.string_of_uint (Nat.to_uint (grep_count "processor" ls)) ++ String newline ""
      | None => ""
      end) in
  let '(ret2, _) := fgets16 None (keep_digits (text (head1 (grep "Thread" (lscpu h))))) in
  let '(ret3, _) := fgets16 None (keep_digits (text (head1 (grep "Socket" (lscpu h))))) in
  do a <- atoi ret1;
  do b <- atoi ret2;
  do c <- atoi ret3;
  do d <- imul b c;
  idiv a d.

(** lines 173-260: the table of processors, by level and model number *)
Definition known (level model : Z) : option Z :=
  if level =? 1 then
    match model with
    | 1 | 3 | 17 | 33 | 49 | 69 | 85 | 142 | 165 => Some (32 * 2 ^ 10)
    | 4 => Some (16 * 2 ^ 10)
    | _ => None
    end
  else if level =? 2 then
    match model with
    | 1 | 17 | 33 | 49 => Some (512 * 2 ^ 10)
    | 3 => Some (32 * 2 ^ 10)
    | 4 => Some (16 * 2 ^ 10)
    | 69 | 142 | 165 => Some (256 * 2 ^ 10)
    | 85 => Some (1024 * 2 ^ 10)
    | _ => None
    end
  else if level =? 3 then
    match model with
    | 1 | 33 => Some (64 * 2 ^ 20)
    | 3 => Some (1 * 2 ^ 20)
    | 4 => Some (512 * 2 ^ 10)
    | 17 | 69 => Some (4 * 2 ^ 20)
    | 49 => Some (128 * 2 ^ 20)
    | 85 => Some (36608 * 2 ^ 10)
    | 142 => Some (8 * 2 ^ 20)
    | 165 => Some (20 * 2 ^ 20)
    | _ => None
    end
  else None.

(** the last character and what is before it; strlen(ret) - 1 is -1 on the empty string *)
Fixpoint split_last (s : string) : option (string * ascii) :=
  match s with
  | EmptyString => None
  | String c EmptyString => Some ("", c)
  | String c s' => match split_last s' with Some (a, l) => Some (String c a, l) | None => None end
  end.

(** lines 280-296: K, M or G at the end scales the number at the start *)
Definition scale (ret : option string) : comp Z :=
  match ret with
  | None => CUB
  | Some s =>
      match split_last s with
      | None => CUB
      | Some (a, l) =>
          if (l =? "K")%char then do n <- atoi (Some a); imul n (2 ^ 10)
          else if (l =? "M")%char then do n <- atoi (Some a); imul n (2 ^ 20)
          else if (l =? "G")%char then do n <- atoi (Some a); imul n (2 ^ 30)
          else CRet 0
      end
  end.

(** L%d *)
Definition level_name (level : Z) : string := "L" ++ NilZero.string_of_int (Z.to_int level).

(** src/block_sizing.cpp:152-298 *)
Definition get_cache_size (h : host) (level : Z) : comp Z :=
  if negb (shell h) then CExit else
  let '(ret, _) := fgets16 None (keep_digits (text (head1 (grep "Model" (lscpu h))))) in
  do model <- atoi ret;
  match known level model with
  | Some s => CRet s
  | None =>
      let listing := if level <? 3 then caches_one h else caches_all h in
      let '(ret, got) := fgets16 ret (drop_newlines (text (grep_sizes (grep (level_name level) listing)))) in
      if negb got && (level =? 2) then CRet (32 * 2 ^ 10)
      else if negb got && (level =? 3) then CRet (512 * 2 ^ 10)
      else scale ret
  end.

(** src/block_sizing.cpp:40-75 *)
Definition query_cntx (ar : arch) (h : host) : comp cntx :=
  do l1 <- get_cache_size h 1;
  do l2 <- get_cache_size h 2;
  do l3 <- get_cache_size h 3;
  do n <- get_num_physical_cores h;
  CRet (cake_query_cntx ar l1 l2 l3 n).

