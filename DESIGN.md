# Formal model of CAKE_on_CPU: design and trusted base

## How the code is modelled

The C++ code is transcribed function by function into Gallina; every definition cites the file
and lines it models.

* **Execution** (`Lang.v`).  An iteration of an `omp parallel for` is a *thread*: a finite tree of
  `load`, `store` and `fail` operations on separately allocated objects.  A *program* is a
  sequence of parallel regions (lists of threads), allocations and frees.  A parallel region is
  executed by *small-step interleaving of single loads and stores*; every iteration is its own
  thread, so every OpenMP schedule and thread count is included (`pexec`).
* **Undefined behaviour** is a distinct outcome `Undef`: access outside a live object, load of a
  float never written, vector load with an alignment the address does not have, free of a dead
  object, division by zero in the sizing code, a float-to-int cast out of range, a kernel-table
  index out of range, and a data race between two iterations (two threads about to access the
  same element, at least one of them storing).  `exit(1)` is the outcome `Exited`.
* **Element type**: a record `scalar` (carrier, zero, fma).  Correctness theorems hold for every
  scalar; C04 instantiates it with arithmetic in which sums can be reordered, C53-C55 with IEEE
  binary32.
* **Integers** are `Z` in the main model.  `ModelInt.v` transcribes the same functions of
  `cake_sgemm` a second time, and `ModelIntGrid.v` those of the online and grid entry points,
  with every `int` expression checked for 32-bit overflow, and
  C34 relates the two.
* **Floating point in the sizing code** enters as a record of results `fpenv`; most theorems hold
  for every value of it.  `ModelIEEE.v` gives the instance `ieee` (binary64/32 of Flocq, round to
  nearest even, no contraction to fused operations); C44-C48 and the `_ieee` theorems are about
  it.  `(int) ceil((double) a / b)` is integer ceiling division, which C33 justifies.
* **Uninitialised memory**: a cell is an `option`; `None` is indeterminate.

`always P m Q` (SpecTop.v): program P has an execution from memory m, and every execution ends
normally in a state satisfying Q.  It includes absence of undefined behaviour and of races in
every interleaving.  Termination is built in: threads are finite trees.  That every loop of the
code terminates is visible in the transcription (`tfor`, `pfor` compute their trip counts from
the C loop header; a loop `for(i = a; i != b; i += s)` that would miss b is undefined).

Files: `Model*.v` definitions only; `Spec*.v` the specification the theorems are stated with;
`Witness*.v` concrete calls; `*_facts.v` lemmas; `Prop*.v` the property theorems, each followed by
`Print Assumptions` and by an `Example` meeting its hypotheses.

Naming: `Cnn_..._partial` proves part of the property (the comment says under which condition);
`Cnn_..._refuted` proves that the property as a user would state it is false of the code, by a
concrete run or for a whole class of inputs.

## What is modelled

| file | functions | in |
|------|-----------|----|
| src/cake_sgemm.cpp | cake_sgemm, _2d, _2d_small, _online, _test, schedule, set_schedule | ModelTop, ModelSched, ModelSizing |
| src/cake_sgemm_k_first.cpp | schedule_KMN, _online, _2d, _2d_small, schedule_KMN_C_unpacked | ModelSched, ModelUnpacked |
| src/cake_sgemm_m_first.cpp, _n_first.cpp | schedule_MKN, schedule_NKM | ModelSched |
| src/pack_*.cpp, src/unpack_*.cpp | all single-buffer packers and unpackers, the pack_ob_* and unpack_ob_* routines for one block, BLIS-style K-first packers | ModelPack, ModelSched, ModelBlock |
| src/pack_helper.cpp | packed sizes, pack_A/B/C, unpack_C | ModelSizing, ModelPack |
| src/block_sizing.cpp | contexts, update_mr_nr, get_cache_dims, derive_schedule, init_block_dims, grid_dims_2d, init_block_dims_2d(_small), lcm, clamp_val | ModelSizing, ModelIEEE, ModelUtil |
| src/kernels/haswell/dense.cpp, armv8/dense.cpp, python/kernel_gen.py | every generated kernel m x n as one parametric kernel with the unrolled depth; the four kernels for unpacked operands | ModelKernel, ModelSmall |
| python/kernel_gen.py, include/kernels.h | the statements the generator prints for a dense kernel of any size, what they do, the header and the source file it writes | ModelGen |
| python/kernel_gen.py, include/rosko_kernels.h | the same for the two sparse kernels of any size and their two tables | ModelGenSparse |
| python/grid_gen.py | factors, gen_factor_table | ModelGridGen |
| examples/cake_gemv.cpp | cake_sgemv, schedule_mvm, init_block_dims_mvm, get_cache_dims_mvm, the two 8x8 kernels, the loop of cake_sgemv_checker | ModelGemv |
| examples/cake_gemv.cpp | main, cake_sgemv_checker with its comparison | ModelGemvMain |
| examples/cake_gemv.cpp | cake_sgemv_haswell_inner_1x64x1 (no caller outside comments) | ModelGemvInner |
| src/pack_k_first.cpp | pack_test1 (public header, no caller) | ModelPackTest |
| src/cake_sgemm_small.cpp, src/cake_sgemm.cpp | schedule_KMN_small, schedule_MKN_small, schedule_NKM_small, cake_gemm_small, schedule with its flags | ModelNoop |
| src/util.cpp, examples/cake_conv.cpp | print_array, print_mat, print_schedule, print_filters, print_feature_map | ModelPrint |
| examples/cake_conv.cpp | cake_sconv, schedule_KMN_conv, pack_filters, pack_ob_A_single_buf_conv, init_block_dims_conv, get_cache_dims_conv, the 6x16 convolution kernel, im_2_col | ModelConv |
| examples/cake_conv.cpp | main (from the copy of F on, for any sizes), conv_gemm_checker | ModelConvMain |
| examples/cake_sgemm_test.cpp | main: arguments, trials, cache flush, call, check | ModelExample |
| src/kernels/*/sparse.cpp | 6x16 and 8x12 sparse kernels | ModelSmall |
| src/transpose.cpp, kernels/haswell/transpose_haswell.cpp | transpose_mat with its vector shuffles | ModelTrans |
| src/util.cpp | mat_equals, cake_sgemm_checker, add_checker, transpose | ModelUtil, ModelTrans |
| src/autotune_sa.cpp | clamp_val_int, the sizes get_candidate proposes, its loop and the set of sizes tried | ModelUtil, ModelTune |
| src/kernels/haswell/blis_pack_haswell.cpp, armv8/blis_pack_armv8.cpp, include/packing.h | the BLIS packing kernels (assembly and intrinsics, lane by lane) and the choice of packing kernel; the callers are modelled with CAKE's own packing kernel, which both Makefile targets select | ModelBlis |
| src/util.cpp | rand_init, rand_gen (from the results of rand()), run_tests | ModelTests |
| src/util.cpp, src/autotune_sa.cpp | normalRandom, rand_gaussian, get_random_step (cos and log of the C library as arguments) | ModelNormal |
| 32-bit ints of get_candidate | | ModelTuneInt |
| 32-bit ints of the checkers, rand_init, rand_gaussian, transpose (src/util.cpp) | the counter of wrong elements, which is only printed | ModelUtilInt |
| 32-bit ints of transpose_mat and its kernels (src/transpose.cpp, transpose_haswell.cpp) | | ModelTransInt |
| 32-bit ints of print_mat (src/util.cpp) | | ModelPrintInt |
| include/autotune.h | hash_combine, the hash of a tuple; the set of sizes as a hash table | ModelHash |
| src/linear.cpp | linear_forward, linear_backward | ModelLinear |
| src/block_sizing.cpp | get_cache_size, get_num_physical_cores, cake_query_cntx, from the text lscpu and /proc/cpuinfo show | ModelQuery |
| src/cake_sgemm.cpp, the requests for memory and their tests | what a refused request does in each entry point | ModelAlloc |
| the arguments A, B, C of the entry points of src/cake_sgemm.cpp as arbitrary pointers | every access displaced to where the pointer points; overlaps allowed | ModelPlace |
| 32-bit ints of all that cake_sgemm runs | | ModelInt |
| 32-bit ints of cake_sgemm_online, cake_sgemm_2d, cake_sgemm_2d_small | | ModelIntGrid |

Not modelled:

* time measurement, printing (other than the print_* functions, ModelPrint), DEBUG code, return value (seconds) of the entry points;
* failure of allocation outside the multiplication entry points (ModelAlloc covers those);
* lscpu itself, and failure of some but not all popen calls (get_cache_size and
  get_num_physical_cores are modelled from the text lscpu prints, including the grep and tr
  commands they run; the entry points take the context found as an argument, any context);
* code without callers or without effect: assign_cache_dims (copies a structure),
  cake_sp_sgemm_haswell_3x32 (does not compile: uses undeclared variables);
  in examples/cake_conv.cpp, of main, its printing, rand() and free; 32-bit ints of
  these two examples;
* rand() itself, cos and log of the C library (normalRandom is modelled for every cos between -1 and 1
  and every log within 1 of the exact one); the annealing loop of the autotuner (it is in
  comments; only the candidate generator exists);
* formation (as opposed to use) of out-of-range pointers; aliasing of the caller's A, B and C in the
  theorems other than C66 (ModelPlace covers it for the multiplication entry points);
* the weak memory model: execution is sequentially consistent, which for data-race-free C++
  programs is what the standard guarantees, and races are reported as undefined;
* the PyTorch library: tensors are sizes and elements; strides and autograd are not modelled.
  (python/cake.py calls linear_cpp.forward and backward without the cache_sz argument these
  functions require; that call fails in pybind11 before any modelled code runs.)

Simplifications are stated in the comment of the definition concerned.  The main ones: one vector
load or store is a sequence of scalar ones; `A_offset`, which is shared by mistake in
schedule_KMN_online, is a parameter of the model (C05 refutes the faithful version and proves the
one without the race); one NaN; subnormals are not flushed.

## Properties and how they are proved

| id | method |
|----|--------|
| C01-C03, C08-C10, C12, C13, C36-C40 | Hoare-style rules over the interleaving semantics (`twp`, `pok`): a parallel region is verified by the footprints of its iterations; loop invariants for packing, blocks, kernels, unpacking |
| C08, C12, C13 for calls of any kind (`PropEvery.v`) | `twr`, `pfr`: the objects a program may store to and the live objects it ends with, computed by a walk over the program text (`Footprint_facts.v`), no legality assumed; `SpecEvery.gemm_call` lists the five functions; determinism of every program without an undefined execution (`Det_facts.v`) |
| C04 | reordering of sums, corollary of C01-C03 |
| C73 (`PropUnpacked.v`) | narrow C: the invariant of the K-first proof, on rows of C in place of a core's accumulator; wide C: the last kernel call touches an element past the packed B on every path, so no execution ends well; depth one: a witness |
| C74 (`PropConvMain.v`) | a program with its objects renamed runs as the program itself on the renamed memory (`Rename_facts.v`), so the theorems on the convolution, im_2_col and the prepacked multiplication chain; the comparison is a loop invariant on the number of far elements |
| C75 (`PropGemvMain.v`) | the theorem on cake_sgemv between the setup of the library's own tests and the loop invariant of the comparison; the race of C69 after a run of the product |
| C76 (`PropGemvInner.v`) | loop invariants over the sum of the eight lanes, exact arithmetic on integers; never assigned elements by an invariant on what the loops return |
| C77 (`PropPackTest.v`) | the packing kernels of C56 side by side in a parallel loop; the K-first layout of C18/C39 when the depth is one block |
| C78 (`PropPrint.v`) | induction over the loops for the output; two texts of the same shape are equal only if all their elements are |
| C79 (`PropNoop.v`) | a walk over the loops: no thread reads or writes; division by zero by `pout` |
| C80 (`PropNormal.v`) | rounding is monotone and keeps small integers; bounds on ln 2 from (1+x)^n <= exp(nx); the loop of C63 with steps of at most 7 |
| C81 (`PropHash.v`) | exclusive or cancels and addition of 64-bit numbers does; an invariant of the table under insertion and rehashing; simulation of the loop of C63 |
| C82 (`PropTuneInt.v`) | induction over the turns of the loop with the bounds of C80; evaluation of the int expressions |
| C83 (`PropUtilInt.v`, `PropPrintInt.v`) | equality with the unbounded functions by induction over the loops, then C27, C29, C42, C60; overflow: every path of the program ends in an undefined operation |
| C04, C37, C40, C55, C62 for any function and sequences of calls (`PropAny.v`, `PropAnyMore.v`) | induction over the sequence; no call reads the one field of the context (alpha_n) a call changes; `SpecAny.v` says which sequences |
| C05-C07, C11 | the same for the online and 2d variants; the invariant says which block the reused buffers hold |
| C07, C10, C11, exact condition | every path to the schedule reads a given element and no step before it creates it (`ptouches`), so if it is missing every execution is undefined; `pmust` the same for the packing buffer the library itself allocates; `praces` likewise for the race of C05 |
| C14-C16, C32 | characterisation for all inputs (Hoare-style rules), refutation on concrete executions |
| C17, C18 | packing postconditions, calls on prepacked operands |
| C19-C23, C30, C31, C41, C43 | functional theorems about the sizing model |
| C24, C26, C49 | induction over the depth for the kernel models, kernel table |
| C23, C24, negative halves | invariants on single cells kept by every finished execution (`pkeep`): a partial-correctness logic, so nothing is assumed about the execution but that it ends |
| C23, tiles that do not divide | the call computes the same program as with larger, legal tiles and an accumulator of mcu*ncu elements; past its end, `pout` (a read no execution can avoid) |
| C25 | grid table with an explicit uninitialised variable |
| C27, C28 | transposition network and exact race condition |
| C29, C42 | checkers over any comparison; binary32 comparison accepts NaN |
| C33, C44-C48 | Flocq: rounding analysis of the sizing expressions |
| C34 | every int expression checked; simulation between the checked and the unbounded model |
| C35 | context with indeterminate fields; exact: the kernel named by the garbage reads past the packed panels (`pout`) |
| C50 | sparse kernels against a description of the compressed lists |
| C51, C52 | composition of cake_sgemm with a small model of tensors; otherwise undefined by `ptouches` and `pout`; too few dimensions by evaluation (`LinearExit_facts`) |
| C57-C59 | induction over strings for the commands of the pipelines; C59 composes with the call |
| C60-C62 | Flocq for the range; C61 from C11; C62 composes C60, C53 and C29 |
| C64 | the loop lemmas the packers of the whole matrix use; otherwise undefined by `ptouches` |
| C63 | induction over the turns of the loop and over the calls of a search; counting of the clamped values |
| C65 | simulation between the call and the call with refusals (`oom_exec`): up to the first tested refusal they agree; otherwise undefined by `pout` |
| C66 | simulation between the displaced call and the plain call on the memory as seen through the pointers (`pok_sim`), in two phases: reading A and B without writing to the caller's objects, then touching C alone |
| C67 | simulation between the printed statements and the parametric kernel of ModelKernel (`tsim`: same accesses, same values), vector by vector; then equality of the threads by functional extensionality |
| C68 | induction over the rows; divisors come in pairs, the smaller one at most the square root |
| C69 | loop invariants on the partial sums of the rows of a tile, cores write disjoint rows; elements every execution must touch; an explicit schedule for the race |
| C70 | invariants on the partial sums of the points of an output tile under a list of terms, cores write disjoint channels; elements every execution must touch |
| C71 | simulation as for C67 between the printed statements and the parametric sparse kernels, column by column; the results of C50 and the same invariant without the break |
| C72 | the product and test theorems (C01, C62) iterated over the trials; C35 for kernels larger than their register tile; an explicit schedule for the race |
| C56 | shuffle networks by cases on the lanes, induction over the depth |
| C53-C55 | Flocq: forward error analysis of the fused sum in any order, from zero or from the old element of C (`SingleAcc_facts.v`), composed with the theorems about cake_sgemm and the checker |

`seeded/LOG.jsonl` records the wrong programs the theorems were tested against.

## Trusted base

* the kernel of Coq 8.16.1 (with `vm_compute`), and that the statements and the model say what
  they should;
* axioms, all of the standard library, as listed by `Print Assumptions` under each theorem:
  - none ("Closed under the global context") for most theorems;
  - `functional_extensionality_dep` for C34_no_overflow, C34_product,
    C34_no_overflow_user_tiles, C34_online_*, C34_grid_*, C34_small_grid_*, C64_pack_C,
    C64_unpack_C, C64_round_trip, C64_C_without_padding, C67_kernel_multiplies,
    C67_library_kernels, C71_new_multiplies, C71_plain_multiplies, C71_plain_any_order,
    C71_plain_skips_refuted, C71_library_kernels;
  - `functional_extensionality_dep`, `Classical_Prop.classic`,
    `ClassicalDedekindReals.sig_not_dec` and `sig_forall_dec` (the standard library's real
    numbers, through Flocq) for C19_ieee_automatic_tiles_legal, C01_ieee_automatic_tiles_product,
    C19_ieee_small_L2_undefined, C33_*, C34_no_overflow_ieee, C44_* to C48_*,
    C51_forward_ieee, C51_forward_refuted, C59_default_call, C29_checker_binary32, C53_*accuracy (with the accumulating forms), C67_float_factors_commute, C06_grid_product_even_cores, C54_*, C55_*, C60_*_range,
    C61_run_tests_undefined_ieee, C62_*, C72_armv8, C72_haswell_refuted; C53_factor needs
    two of them;
* no axiom, parameter, admitted lemma or plugin of this development; no kernel check switched
  off.
