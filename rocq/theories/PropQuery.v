(** * Properties of the query of the hardware (get_cache_size, get_num_physical_cores,
      cake_query_cntx). *)

From Coq Require Import ZArith List Bool Ascii String Lia.
From Verif Require Import Lang Spec SpecTop SpecQuery ModelSizing ModelTop ModelIEEE ModelQuery Query_facts QueryCall_facts
     Witness Witness_facts.
Import ListNotations.
Open Scope string_scope.
Open Scope Z_scope.

(** C57.  get_cache_size(n) returns the size of the level-n cache: for the processors of the
    built-in table what the table says, ... *)
Theorem C57_table :
  forall h n, shell h = true -> 1 <= n <= 3 ->
  forall d t, shows "Model" (lscpu h) d -> In (value d, t) table -> get_cache_size h n = CRet (level_of n t).
Proof. exact cache_table. Qed.
Print Assumptions C57_table.

(** ... for all others the first size lscpu --caches lists for the level, provided it is an integer
    and all sizes listed for the level have the same unit; undefined if it is not an int. *)
Theorem C57_listed :
  forall h n, shell h = true -> 1 <= n <= 3 ->
  forall d a u rs, shows "Model" (lscpu h) d -> value d < 2 ^ 31 -> (forall t, ~ In (value d, t) table) ->
  cache_sizes (level_str n) (if n <? 3 then caches_one h else caches_all h) ((a, u) :: rs) ->
  Forall (fun r => snd r = u) rs -> written ((a, u) :: rs) <= 15 ->
  get_cache_size h n = if value a * unit_bytes u <? 2 ^ 31 then CRet (value a * unit_bytes u) else CUB.
Proof.
  intros h n Hs Hn d a u rs Hd Hv Ht Hr Hu Hw.
  rewrite (cache_rows h n Hs Hn d a u rs Hd Hv Ht (sizes_rows n _ _ Hr) Hw). cbv zeta.
  replace (snd (last rs (a, u))) with u; [reflexivity|]. clear -Hu. generalize a. induction Hu as [|r rs Hr _ IH]; intros a0; [reflexivity|].
  destruct rs as [|r' rs]; [now symmetry|]. exact (IH a0).
Qed.
Print Assumptions C57_listed.

(** With different units it is wrong: the first number with the last unit. *)
Theorem C57_units_refuted :
  forall h n, shell h = true -> 1 <= n <= 3 ->
  forall d a u rs, shows "Model" (lscpu h) d -> value d < 2 ^ 31 -> (forall t, ~ In (value d, t) table) ->
  cache_sizes (level_str n) (if n <? 3 then caches_one h else caches_all h) ((a, u) :: rs) -> written ((a, u) :: rs) <= 15 ->
  snd (last rs (a, u)) <> u -> 0 < value a -> get_cache_size h n <> CRet (value a * unit_bytes u).
Proof.
  intros h n Hs Hn d a u rs Hd Hv Ht Hr Hw Hu Ha.
  rewrite (cache_rows h n Hs Hn d a u rs Hd Hv Ht (sizes_rows n _ _ Hr) Hw). cbv zeta.
  destruct (value a * unit_bytes (snd (last rs (a, u))) <? 2 ^ 31); intros E; [|discriminate E]. injection E as E.
  destruct (snd (last rs (a, u))), u; cbn [unit_bytes] in E; try congruence; lia.
Qed.
Print Assumptions C57_units_refuted.

(** Only the first 15 characters of the sizes are read.  If the 15th is a letter, the result is the
    first number with that unit, and if it is a digit, the result is 0. *)
Theorem C57_long :
  forall h n, shell h = true -> 1 <= n <= 3 ->
  forall d a u rs c, shows "Model" (lscpu h) d -> value d < 2 ^ 31 -> (forall t, ~ In (value d, t) table) ->
  cache_sizes (level_str n) (if n <? 3 then caches_one h else caches_all h) ((a, u) :: rs) ->
  String.get 14 (listed ((a, u) :: rs)) = Some c ->
  (a_digit c -> get_cache_size h n = CRet 0) /\
  (forall u', String c "" = letter u' ->
    get_cache_size h n = if value a * unit_bytes u' <? 2 ^ 31 then CRet (value a * unit_bytes u') else CUB).
Proof.
  intros h n Hs Hn d a u rs c Hd Hv Ht Hr Hc.
  exact (cache_long h n Hs Hn d a u rs c Hd Hv Ht (sizes_rows n _ _ Hr) Hc).
Qed.
Print Assumptions C57_long.

(** lscpu prints sizes that are not a whole number with one decimal, such as 1.3M; then only the
    digit after the point is used, which is never the size. *)
Theorem C57_fraction_refuted :
  forall h n, shell h = true -> 1 <= n <= 3 ->
  forall d a b u pre line post, shows "Model" (lscpu h) d -> value d < 2 ^ 31 -> (forall t, ~ In (value d, t) table) ->
  number a -> a_digit b -> 0 < value a -> cache_line (level_str n) (a ++ "." ++ String b "" ++ letter u) line ->
  (if n <? 3 then caches_one h else caches_all h) = (pre ++ line :: post)%list ->
  Forall (fun l => ~ mentions ("L" ++ level_str n) l) (pre ++ post) ->
  get_cache_size h n = CRet (value (String b "") * unit_bytes u) /\
  10 * (value (String b "") * unit_bytes u) <> (10 * value a + value (String b "")) * unit_bytes u.
Proof. exact fraction_wrong. Qed.
Print Assumptions C57_fraction_refuted.

(** If nothing is listed in K or M (a cache of 1 GiB or more, or no cache information), the result
    is 0, 32 KiB or 512 KiB. *)
Theorem C57_not_listed :
  forall h n, shell h = true -> 1 <= n <= 3 ->
  forall d, shows "Model" (lscpu h) d -> value d < 2 ^ 31 -> (forall t, ~ In (value d, t) table) ->
  no_sizes (level_str n) (if n <? 3 then caches_one h else caches_all h) ->
  get_cache_size h n = CRet (if n =? 1 then 0 else if n =? 2 then 32 * 1024 else 512 * 1024).
Proof. exact cache_none. Qed.
Print Assumptions C57_not_listed.

(** If the first line with the word Model has no digits, or its digits do not form an int, the
    query is undefined. *)
Theorem C57_model_undefined :
  forall h n, shell h = true ->
  (forall d, ~ shows "Model" (lscpu h) d) \/ (exists d, shows "Model" (lscpu h) d /\ 2 ^ 31 <= value d) ->
  get_cache_size h n = CUB.
Proof. exact cache_undefined. Qed.
Print Assumptions C57_model_undefined.

(** Hosts: what lscpu shows on some machines *)
Definition host_with (model : string) (one all : list string) : host :=
  Host true (Some ["processor       : 0"; "model           : 165"; ""; "processor       : 1"; "processor       : 2"; "processor       : 3"])
    ["Architecture:        x86_64"; model; "Thread(s) per core:  2"; "Core(s) per socket:  2"; "Socket(s):           1"]
    one all.
Definition i9 : host :=
  host_with "Model name:          Intel(R) Core(TM) i9-10900K CPU @ 3.70GHz"
    ["NAME ONE-SIZE"; "L1d       32K"; "L1i       32K"; "L2       256K"; "L3        20M"]
    ["NAME ALL-SIZE"; "L1d      320K"; "L1i      320K"; "L2       2.5M"; "L3        20M"].
Definition i7 : host :=
  host_with "Model name:          11th Gen Intel(R) Core(TM) i7-1165G7 @ 2.80GHz"
    ["NAME ONE-SIZE"; "L1d       48K"; "L1i       32K"; "L2       1.3M"; "L3        12M"]
    ["NAME ALL-SIZE"; "L1d      192K"; "L1i      128K"; "L2         5M"; "L3        12M"].
Definition epyc : host :=
  host_with "Model:               49" ["NAME ONE-SIZE"; "L1d       32K"] ["NAME ALL-SIZE"].

Lemma i9_model : shows "Model" (lscpu i9) "910900370".
Proof.
  exists "Model name:          Intel(R) Core(TM) i9-10900K CPU @ 3.70GHz", "910900370".
  split; [|split; [apply (digits_exist "Model name:          Intel(R) Core(TM) i9-10900K CPU @ 3.70GHz")|split; [discriminate|reflexivity]]].
  exists ["Architecture:        x86_64"]. eexists. split; [reflexivity|]. split; [now apply contains_spec|].
  constructor; [now apply contains_false|constructor].
Qed.

Ltac row k sp := apply cs_row; [split; [discriminate|cbn; auto 20]|exists k, sp; split; [cbn; auto|split; [discriminate|split; [cbn; auto 20|reflexivity]]]|].
Ltac other := apply cs_other; [now apply contains_false|].

Example C57_applies :
  shows "Model" (lscpu i9) "910900370" /\ (forall t, ~ In (value "910900370", t) table) /\
  cache_sizes "1" (caches_one i9) [("32", KiB); ("32", KiB)] /\ cache_sizes "2" (caches_one i9) [("256", KiB)] /\
  cache_sizes "3" (caches_all i9) [("20", MiB)] /\
  get_cache_size i9 1 = CRet (32 * 1024) /\ get_cache_size i9 2 = CRet (256 * 1024) /\ get_cache_size i9 3 = CRet (20 * 1024 * 1024).
Proof.
  split; [exact i9_model|]. split; [intros t H; cbn in H; intuition discriminate|].
  split; [other; row "d" "       "; row "i" "       "; other; other; constructor|].
  split; [other; other; other; row "" "       "; other; constructor|].
  split; [other; other; other; other; row "" "        "; constructor|].
  vm_compute. auto.
Qed.

(** four L3 lines and six (made up): the 15 characters end in a digit and in a letter *)
Definition four : host :=
  host_with "Model name:          Intel(R) Core(TM) i9-10900K CPU @ 3.70GHz" []
    ["NAME ALL-SIZE"; "L3       512K"; "L3       512K"; "L3       512K"; "L3       512K"].
Definition six : host :=
  host_with "Model name:          Intel(R) Core(TM) i9-10900K CPU @ 3.70GHz" []
    ["NAME ALL-SIZE"; "L3        20M"; "L3        20M"; "L3        20M"; "L3        20M"; "L3        20M"; "L3        20M"].
Example C57_long_applies :
  shows "Model" (lscpu four) "910900370" /\ shows "Model" (lscpu six) "910900370" /\
  cache_sizes "3" (caches_all four) [("512", KiB); ("512", KiB); ("512", KiB); ("512", KiB)] /\
  cache_sizes "3" (caches_all six) [("20", MiB); ("20", MiB); ("20", MiB); ("20", MiB); ("20", MiB); ("20", MiB)] /\
  String.get 14 (listed [("512", KiB); ("512", KiB); ("512", KiB); ("512", KiB)]) = Some "2"%char /\
  String.get 14 (listed [("20", MiB); ("20", MiB); ("20", MiB); ("20", MiB); ("20", MiB); ("20", MiB)]) = Some "M"%char /\
  get_cache_size four 3 = CRet 0 /\ get_cache_size six 3 = CRet (20 * 1024 * 1024).
Proof.
  split; [exact i9_model|]. split; [exact i9_model|].
  split; [other; do 4 row "" "       "; constructor|].
  split; [other; do 6 row "" "        "; constructor|].
  vm_compute. auto.
Qed.

(** the 11th generation: the digits of "11th Gen ... i7-1165G7 @ 2.80GHz" are 11711657280 *)
Example C57_undefined_applies : exists d, shows "Model" (lscpu i7) d /\ 2 ^ 31 <= value d.
Proof.
  exists "11711657280". split; [|vm_compute; discriminate].
  exists "Model name:          11th Gen Intel(R) Core(TM) i7-1165G7 @ 2.80GHz", "11711657280".
  split; [|split; [apply (digits_exist "Model name:          11th Gen Intel(R) Core(TM) i7-1165G7 @ 2.80GHz")|split; [discriminate|reflexivity]]].
  exists ["Architecture:        x86_64"]. eexists. split; [reflexivity|]. split; [now apply contains_spec|].
  constructor; [now apply contains_false|constructor].
Qed.

(** an L2 of 1.25 MiB, an L3 of 1.1 GiB in all, and an L1d and L1i in different units (made up) *)
Definition xeon : host :=
  host_with "Model name:          Intel(R) Xeon(R) Gold 6338 CPU @ 2.00GHz"
    ["NAME ONE-SIZE"; "L1d        1M"; "L1i       32K"; "L2       1.3M"; "L3        48M"]
    ["NAME ALL-SIZE"; "L1d      3.0M"; "L1i      2.0M"; "L2        80M"; "L3       1.1G"].
Example C57_wrong_applies :
  shows "Model" (lscpu xeon) "6338200" /\ (forall t, ~ In (value "6338200", t) table) /\
  cache_sizes "1" (caches_one xeon) [("1", MiB); ("32", KiB)] /\ get_cache_size xeon 1 = CRet 1024 /\
  cache_line "2" ("1" ++ "." ++ "3" ++ letter MiB) "L2       1.3M" /\ get_cache_size xeon 2 = CRet (3 * 1024 * 1024) /\
  no_sizes "3" (caches_all xeon) /\ get_cache_size xeon 3 = CRet (512 * 1024).
Proof.
  split.
  { exists "Model name:          Intel(R) Xeon(R) Gold 6338 CPU @ 2.00GHz", "6338200".
    split; [|split; [apply (digits_exist "Model name:          Intel(R) Xeon(R) Gold 6338 CPU @ 2.00GHz")|split; [discriminate|reflexivity]]].
    exists ["Architecture:        x86_64"]. eexists. split; [reflexivity|]. split; [now apply contains_spec|].
    constructor; [now apply contains_false|constructor]. }
  split; [intros t H; cbn in H; intuition discriminate|].
  split; [other; row "d" "        "; row "i" "       "; other; other; constructor|]. split; [vm_compute; reflexivity|].
  split; [exists "", "       "; split; [cbn; auto|split; [discriminate|split; [cbn; auto 20|reflexivity]]]|]. split; [vm_compute; reflexivity|]. split; [|vm_compute; reflexivity].
  unfold no_sizes. cbn [xeon host_with caches_all].
  repeat (constructor; [first [(intros H; exfalso; apply contains_spec in H; discriminate H)
                              |(intros _; cbn; repeat split; intros H; intuition discriminate)]|]). constructor.
Qed.

Example C57_table_applies : shows "Model" (lscpu epyc) "49" /\ In (value "49", (32, 512, 128 * 1024)) table.
Proof.
  split; [|cbn; auto 10]. exists "Model:               49", "49".
  split; [|split; [apply (digits_exist "Model:               49")|split; [discriminate|reflexivity]]].
  exists ["Architecture:        x86_64"]. eexists. split; [reflexivity|]. split; [now apply contains_spec|].
  constructor; [now apply contains_false|constructor].
Qed.

(** C58.  get_num_physical_cores is the number of processors divided by threads per core times
    sockets, ... *)
Theorem C58_cores :
  forall h ls k t s, shell h = true -> cpuinfo h = Some ls -> count_lines "processor" ls k -> k < 2 ^ 31 ->
  shows "Thread" (lscpu h) t -> shows "Socket" (lscpu h) s ->
  get_num_physical_cores h =
  if (value t <? 2 ^ 31) && (value s <? 2 ^ 31) && (0 <? value t * value s) && (value t * value s <? 2 ^ 31)
  then CRet (k / (value t * value s)) else CUB.
Proof. exact cores_shown. Qed.
Print Assumptions C58_cores.

(** ... which on a machine with s sockets of c cores with t threads each is c: the physical cores
    of one socket, and of the machine only if s = 1. *)
Theorem C58_sockets_refuted :
  forall h ls t s c, shell h = true -> cpuinfo h = Some ls -> count_lines "processor" ls (value s * c * value t) ->
  value s * c * value t < 2 ^ 31 -> 0 < c -> 0 < value t -> 0 < value s -> value t * value s < 2 ^ 31 ->
  shows "Thread" (lscpu h) t -> shows "Socket" (lscpu h) s ->
  get_num_physical_cores h = CRet c /\ (c = value s * c <-> value s = 1).
Proof. exact cores_per_socket. Qed.
Print Assumptions C58_sockets_refuted.

(** Without a number on the line with the word Thread or Socket, or without /proc/cpuinfo, the
    query is undefined: an array that was never written is parsed. *)
Theorem C58_undefined :
  forall h, shell h = true ->
  cpuinfo h = None \/ (forall t, ~ shows "Thread" (lscpu h) t) \/ (forall s, ~ shows "Socket" (lscpu h) s) ->
  get_num_physical_cores h = CUB.
Proof. exact cores_undefined. Qed.
Print Assumptions C58_undefined.

Example C58_applies :
  exists ls, cpuinfo i9 = Some ls /\ count_lines "processor" ls 4 /\ shows "Thread" (lscpu i9) "2" /\ shows "Socket" (lscpu i9) "1" /\
  get_num_physical_cores i9 = CRet 2.
Proof.
  eexists. split; [reflexivity|]. split; [|split; [|split; [|vm_compute; reflexivity]]].
  - assert (E : forall x, prefix "processor" x = false -> forall a, x <> "processor" ++ a).
    { intros x Hx a E. assert (T : prefix "processor" x = true) by (apply prefix_spec; eauto). congruence. }
    change 4 with (0 + 1 + 1 + 1 + 1).
    apply (cl_yes "processor" "       : 0"). apply cl_no; [apply E; reflexivity|]. apply cl_no; [apply E; reflexivity|].
    apply (cl_yes "processor" "       : 1"). apply (cl_yes "processor" "       : 2"). apply (cl_yes "processor" "       : 3"). constructor.
  - exists "Thread(s) per core:  2", "2".
    split; [|split; [apply (digits_exist "Thread(s) per core:  2")|split; [discriminate|reflexivity]]].
    exists ["Architecture:        x86_64"; "Model name:          Intel(R) Core(TM) i9-10900K CPU @ 3.70GHz"]. eexists.
    split; [reflexivity|]. split; [now apply contains_spec|]. repeat (constructor; [now apply contains_false|]). constructor.
  - exists "Socket(s):           1", "1".
    split; [|split; [apply (digits_exist "Socket(s):           1")|split; [discriminate|reflexivity]]].
    exists ["Architecture:        x86_64"; "Model name:          Intel(R) Core(TM) i9-10900K CPU @ 3.70GHz"; "Thread(s) per core:  2"; "Core(s) per socket:  2"]. exists [].
    split; [reflexivity|]. split; [now apply contains_spec|]. repeat (constructor; [now apply contains_false|]). constructor.
Qed.

(** C59.  A call without a context and without tile sizes, the sizing done in IEEE arithmetic,
    computes the product on every machine of usual size. *)
Theorem C59_default_call :
  forall ar h q S (nz : elt S -> bool) s M N K p alpha beta A B m0,
  ar = haswell \/ ar = armv8 -> query_cntx ar h = CRet q -> usual q ->
  0 <= M -> 0 <= N -> 0 <= K -> 0 < p -> M + 8 * p < 2 ^ 24 -> nz beta = false ->
  caller m0 M N K A B -> (s <> KMN -> B_rim m0 N K (NR_MIN ar) 0) ->
  exists ord, orders K ord /\
  always (cake_sgemm S ieee ar q nz M N K p None false false alpha beta s 0 0 0) m0
    (fun r m' => holds m' BufC M N (product S A B ord) /\
     (forall i, dat m' BufA i = dat m0 BufA i) /\ (forall i, dat m' BufB i = dat m0 BufB i)).
Proof. exact default_call. Qed.
Print Assumptions C59_default_call.

(** The context used is the one of the smallest kernel with the values found. *)
Theorem C59_context :
  forall ar h q, query_cntx ar h = CRet q ->
  get_cache_size h 1 = CRet (L1 q) /\ get_cache_size h 2 = CRet (L2 q) /\ get_cache_size h 3 = CRet (L3 q) /\
  get_num_physical_cores h = CRet (ncores q) /\ mr q = MR_MIN ar /\ nr q = NR_MIN ar /\ m_map q = 0 /\ n_map q = 0 /\ alpha q = (1, 1).
Proof.
  intros ar h q H. destruct (query_shape ar h q H) as (l1 & l2 & l3 & n & -> & H1 & H2 & H3 & H4).
  cbn [cake_query_cntx L1 L2 L3 ncores mr nr m_map n_map alpha]. rewrite !Z.sub_diag. auto 10.
Qed.
Print Assumptions C59_context.

(** The machines of the table are of usual size. *)
Theorem C59_table_usual :
  forall ar h d t n, shell h = true -> shows "Model" (lscpu h) d -> In (value d, t) table ->
  get_num_physical_cores h = CRet n -> 0 < n <= 2 ^ 10 ->
  exists q, query_cntx ar h = CRet q /\ usual q.
Proof. exact table_usual. Qed.
Print Assumptions C59_table_usual.

Example C59_applies :
  exists q, query_cntx haswell i9 = CRet q /\ usual q /\
  caller (wmem 7 17 3) 7 17 3 (fun i k => wA (i * 3 + k)) (fun k j => wB (k * 17 + j)).
Proof. eexists. split; [vm_compute; reflexivity|]. split; [vm_compute; repeat split; congruence|apply w_caller]. Qed.
