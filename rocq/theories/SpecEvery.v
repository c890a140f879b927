(** * The calls of the multiplication functions, with every choice of arguments. *)

From Coq Require Import ZArith.
From Verif Require Import Lang ModelSizing ModelTop.

(** [gemm_call S oc R call]: [call] is a call of one of the five multiplication functions of
    include/cake.h with the context [oc] ([None]: NULL).  Sizes, core counts, tiles, schedule, packing
    flags, alpha and beta are arbitrary: no legality is asked for.  [F] and [q] are the machine's
    floating-point functions and what it answers when asked for its caches. *)
Inductive gemm_call (S : scalar) (oc : option cntx) : forall R, prog (elt S) R -> Prop :=
| call_sgemm F ar q nz M N K p packedA packedB alpha beta s mcu kcu ncu :
    gemm_call S oc cntx (cake_sgemm S F ar q nz M N K p oc packedA packedB alpha beta s mcu kcu ncu)
| call_2d F ar q rows M N K p mcu kcu ncu :
    gemm_call S oc unit (cake_sgemm_2d S F ar q rows M N K p oc mcu kcu ncu)
| call_2d_small F ar q rows M N K p :
    gemm_call S oc unit (cake_sgemm_2d_small S F ar q rows M N K p oc)
| call_online so F ar q M N K p mcu kcu ncu :
    gemm_call S oc cntx (cake_sgemm_online S so F ar q M N K p oc mcu kcu ncu)
| call_test F ar q nz M N K p packedA packedB alpha beta :
    gemm_call S oc cntx (cake_sgemm_test S F ar q nz M N K p oc packedA packedB alpha beta).
