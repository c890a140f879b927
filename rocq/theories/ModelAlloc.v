(** * Running out of memory.

    Definitions only.  The other models let every allocation succeed; here each may fail. *)

From Coq Require Import ZArith List Bool.
From Verif Require Import Lang.
Open Scope Z_scope.

(** The program [P] when the requests for the objects in [fl] fail.  Within one call of an entry
    point every object is requested at most once.
    - The aligned objects are requested by posix_memalign, and its result is tested:
      printf("posix memalign error\n"); exit(1) (src/cake_sgemm.cpp:49-52, 70-73, 119-122,
      211-220, 282-291, 417-428).
    - The results of malloc and calloc are not tested.  The structures (BufX: x at
      src/cake_sgemm.cpp:18, 188, 261, 404, the context at src/block_sizing.cpp:43) are written
      as soon as they are requested, through the null pointer.  The accumulators C_p
      (src/cake_sgemm.cpp:92, 135, 224, 295, 431) are null pointers from then on: there is no
      such object, any access is undefined, and free of it does nothing
      (src/cake_sgemm.cpp:106, 160).
    - BufX 2 of cake_sgemm_online stands for a variable (see ModelSched.online_core), not for a
      request; the theorems let no BufX fail. *)
Fixpoint out_of_memory {V R} (fl : buf -> bool) (P : prog V R) : prog V R :=
  match P with
  | PRet r => PRet r
  | PPar ts k => PPar ts (out_of_memory fl k)
  | PAlloc b n al init k =>
      if fl b then
        if al then PExit
        else match b with BufX _ => PUB | _ => out_of_memory fl k end
      else PAlloc b n al init (out_of_memory fl k)
  | PFree b k => if fl b then out_of_memory fl k else PFree b (out_of_memory fl k)
  | PUB => PUB
  | PExit => PExit
  end.
