{"id": "C01", "title": "cake_sgemm (K-first) computes A*B", "statement": "After cake_sgemm(A,B,C,M,N,K,p,...,beta=0,sch=KMN) returns, every C[i][j] (0<=i<M, 0<=j<N) holds the result of starting from 0 and applying one fused multiply-add with A[i][k]*B[k][j] for each k in 0..K-1 exactly once, in a block-wise order that is a permutation of 0..K-1. Nothing else contributes to it.", "quantifier": "all matrix sizes M,N,K>=0, all thread counts p>=1, all legal tile sizes, all element values and all OpenMP interleavings", "why_tests_cant": "Tests pick a few sizes and compare with a tolerance; a dropped or duplicated k term on some remainder combination (M mod p*m_c, N mod n_c, K mod k_c, p_l < p) only shows at particular sizes.", "anchors": ["src/cake_sgemm.cpp:cake_sgemm", "src/cake_sgemm_k_first.cpp:schedule_KMN", "src/pack_k_first.cpp:pack_A_single_buf_k_first", "src/pack_k_first.cpp:pack_B_k_first"]}
{"id": "C02", "title": "cake_sgemm (M-first) computes A*B", "statement": "Same as C01 for sch=MKN: every C[i][j] is the fma-accumulation over a permutation of all k of A[i][k]*B[k][j].", "quantifier": "all M,N,K>=0, p>=1, legal tile sizes, element values, interleavings", "why_tests_cant": "The K dimension is split over cores with a short last core; remainders of K modulo p*k_c give unboundedly many shapes.", "anchors": ["src/cake_sgemm_m_first.cpp:schedule_MKN", "src/pack_m_first.cpp", "src/unpack_m_first.cpp"]}
{"id": "C03", "title": "cake_sgemm (N-first) computes A*B", "statement": "Same as C01 for sch=NKM.", "quantifier": "all M,N,K>=0, p>=1, legal tile sizes, element values, interleavings", "why_tests_cant": "Same as C02: unboundedly many remainder shapes.", "anchors": ["src/cake_sgemm_n_first.cpp:schedule_NKM", "src/pack_n_first.cpp", "src/unpack_n_first.cpp"]}
{"id": "C04", "title": "Result does not depend on schedule, thread count or tile size", "statement": "In any commutative semiring the matrix C produced by cake_sgemm is the mathematical product sum_k A[i][k]*B[k][j]; hence it is the same for every schedule, p and tile-size choice. The same holds after any sequence of calls of cake_sgemm, cake_sgemm_online, cake_sgemm_2d and cake_sgemm_2d_small, so all functions and machines give the same C.", "quantifier": "all sizes, all pairs of configurations, all commutative semirings, all sequences of calls", "why_tests_cant": "A statement about pairs of configurations over all inputs; floating point tolerance in the test suite hides exact differences.", "anchors": ["src/cake_sgemm.cpp:cake_sgemm", "src/block_sizing.cpp:init_block_dims", "src/cake_sgemm.cpp:cake_sgemm_online", "src/cake_sgemm.cpp:cake_sgemm_2d", "src/cake_sgemm.cpp:cake_sgemm_2d_small"]}
{"id": "C05", "title": "Exactly when cake_sgemm_online computes A*B", "statement": "cake_sgemm_online gives the same element-wise guarantee as C01, and leaves the very same memory behind, although it packs on the fly and skips packing at the corner turns of the block order, in every call in which at most one thread has work. Every other call has a data race, because all threads assign the shared variable A_offset; with that variable private the guarantee holds for every number of threads.", "quantifier": "all M,N,K>=0, p>=1, legal tile sizes, interleavings (A and B readable up to the padded size)", "why_tests_cant": "Reuse of a stale packed block only shows for particular block-count parities.", "anchors": ["src/cake_sgemm.cpp:cake_sgemm_online", "src/cake_sgemm_k_first.cpp:schedule_KMN_online"]}
{"id": "C06", "title": "cake_sgemm_2d computes A*B", "statement": "cake_sgemm_2d gives the same element-wise guarantee as C01 for every processor grid pm x pn it selects.", "quantifier": "all M,N,K>=1, all grids, legal tile sizes, interleavings (A and B readable up to the padded size)", "why_tests_cant": "Grid shape, last-row and last-column cores and corner turns interact.", "anchors": ["src/cake_sgemm.cpp:cake_sgemm_2d", "src/cake_sgemm_k_first.cpp:schedule_KMN_2d", "src/block_sizing.cpp:init_block_dims_2d"]}
{"id": "C07", "title": "Exactly when cake_sgemm_2d_small computes A*B safely", "statement": "cake_sgemm_2d_small computes A*B, and accesses no memory outside its packing buffers, exactly when the pieces of M and N it gives to the cores of the grid lie inside the padded matrix (a condition on M, N and the grid only: the piece size, the g-th part of the padded dimension raised to the next larger multiple of the register tile, does not divide the dimension, and all pieces but the last fit) and the operands extend to whole register tiles. In every other call every execution accesses memory outside its buffers or the operands.", "quantifier": "all M,N,K>=1 and grids", "why_tests_cant": "Over-rounded per-core tiles overrun only for particular M/pm, N/pn.", "anchors": ["src/cake_sgemm.cpp:cake_sgemm_2d_small", "src/cake_sgemm_k_first.cpp:schedule_KMN_2d_small", "src/block_sizing.cpp:init_block_dims_2d_small"]}
{"id": "C08", "title": "OpenMP regions are race free and deterministic", "statement": "In every parallel region of the GEMM entry points no two iterations make conflicting accesses, and every interleaving of the iterations leaves the same memory contents as running them one after the other.", "quantifier": "all interleavings of all iterations of every omp parallel for, all sizes and thread counts", "why_tests_cant": "A test run observes one interleaving.", "anchors": ["src/cake_sgemm_k_first.cpp", "src/cake_sgemm_m_first.cpp", "src/cake_sgemm_n_first.cpp", "src/pack_k_first.cpp", "src/pack_m_first.cpp", "src/pack_n_first.cpp"]}
{"id": "C09", "title": "cake_sgemm (K-first) is memory safe", "statement": "With A of M*K, B of K*N and C of M*N floats, the K-first cake_sgemm never reads or writes outside an allocated object and never reads a float that was not initialised.", "quantifier": "all M,N,K>=0, p>=1, legal tile sizes, interleavings", "why_tests_cant": "Out-of-bounds reads of adjacent heap memory rarely crash and do not change the tested result.", "anchors": ["src/pack_ob.cpp:pack_ob_A_single_buf", "src/pack_k_first.cpp:pack_B_k_first", "src/cake_sgemm_k_first.cpp:schedule_KMN", "src/pack_ob.cpp:unpack_ob_C_single_buf"]}
{"id": "C10", "title": "cake_sgemm (M-first / N-first) is memory safe", "statement": "cake_sgemm with sch=MKN or sch=NKM, called with operands of exactly the documented sizes, accesses no memory outside them in exactly these cases: the columns of B up to the next multiple of n_r, counted from the start of each row outside the last core's share of the last partial k block, stay inside B (so always when n_r divides N). In all other cases every execution reads outside B. (Unlike C09 the padding flag handed to the B packing routine is the K-remainder flag.)", "quantifier": "all M,N,K>=0, p>=1, legal tile sizes", "why_tests_cant": "The stray reads land in adjacent memory and only feed padded columns, so results look right.", "anchors": ["src/pack_m_first.cpp:pack_B_m_first", "src/pack_n_first.cpp:pack_B_n_first", "src/pack_ob.cpp:pack_ob_B_single_buf"]}
{"id": "C11", "title": "Exactly when cake_sgemm_online / cake_sgemm_2d are memory safe", "statement": "With A of exactly M*K and B of exactly K*N floats the online and 2d variants never read outside A and B if M and N are multiples of m_r and n_r; in every other call with M,N,K>0 every execution reads outside A or B, because their packing kernels have no bounds guard.", "quantifier": "all M,N,K, p, tile sizes", "why_tests_cant": "Stray reads feed only padded rows/columns; results look right.", "anchors": ["src/cake_sgemm_k_first.cpp:schedule_KMN_online", "src/cake_sgemm_k_first.cpp:schedule_KMN_2d", "src/pack_ob.cpp:pack_A_mr_x_kc", "src/pack_ob.cpp:pack_B_nr_x_kc"]}
{"id": "C12", "title": "Inputs are never modified, only C is written", "statement": "No GEMM entry point modifies A or B, and in C exactly the M*N result elements are written.", "quantifier": "all sizes, schedules, thread counts and interleavings", "why_tests_cant": "Universal non-interference claim over all sizes.", "anchors": ["src/cake_sgemm.cpp", "src/pack_ob.cpp:unpack_ob_C_single_buf"]}
{"id": "C13", "title": "No leak and no double free on return", "statement": "When a GEMM entry point returns with a caller supplied context, the set of live heap objects is exactly what it was at the call; each scratch buffer is freed exactly once. With a NULL context one cake_cntx_t object is leaked per call.", "quantifier": "all calls that return normally", "why_tests_cant": "Leaks are invisible to result-checking tests.", "anchors": ["src/cake_sgemm.cpp:cake_sgemm", "src/cake_sgemm.cpp:cake_sgemm_online", "src/cake_sgemm.cpp:cake_sgemm_2d", "src/cake_sgemm.cpp:cake_sgemm_2d_small", "src/cake_sgemm.cpp:cake_sgemm_test"]}
{"id": "C14", "title": "What alpha and beta do", "statement": "alpha has no influence on any call. beta has none with K-first; with M-first only whether it is 0 matters: C becomes A*B if beta = 0, A*B + C otherwise. So C = alpha*A*B + beta*C, which the interface suggests, is computed only when it equals that by chance (e.g. alpha = 1, beta = 0).", "quantifier": "all alpha, beta and matrices", "why_tests_cant": "The tests only use alpha=1, beta=0.", "anchors": ["src/cake_sgemm.cpp:cake_sgemm"]}
{"id": "C15", "title": "Non-zero beta, M-first: C becomes C + A*B", "statement": "With sch=MKN and beta<>0 each C[i][j] becomes the fma accumulation of all A[i][k]*B[k][j] on top of the previous C[i][j].", "quantifier": "all sizes, beta<>0, element values", "why_tests_cant": "No test passes beta<>0.", "anchors": ["src/pack_m_first.cpp:pack_C_single_buf_m_first", "src/cake_sgemm.cpp:cake_sgemm"]}
{"id": "C16", "title": "Non-zero beta, N-first: exactly when C becomes C + A*B", "statement": "For sch=NKM and beta<>0, with M and K positive, the call leaves C + A*B in C when the packed C has one block column, or whole blocks only, or one row of two blocks whose partial sizes happen to coincide; and every execution of every other such call is undefined, because an element of the packed C is read that was never written. (So the same promise as C15, C + A*B for all sizes, is false.)", "quantifier": "all sizes, tiles, thread counts, contents and interleavings, beta<>0", "why_tests_cant": "No test passes beta<>0.", "anchors": ["src/pack_n_first.cpp:pack_C_single_buf_n_first", "src/cake_sgemm_n_first.cpp:schedule_NKM", "src/unpack_n_first.cpp:unpack_C_single_buf_n_first"]}
{"id": "C17", "title": "Pre-packed operands give the same result", "statement": "If a buffer was filled by pack_A (pack_B) for the same sizes, thread count and tiles, passing it with packedA=1 (packedB=1) gives the same C as passing the original matrix.", "quantifier": "all sizes, thread counts, tiles and schedules", "why_tests_cant": "Relates two different call sequences over all inputs.", "anchors": ["src/cake_sgemm.cpp:cake_sgemm", "src/pack_helper.cpp:pack_A", "src/pack_helper.cpp:pack_B"]}
{"id": "C18", "title": "Packed-size functions are exact", "statement": "cake_sgemm_packed_A_size/B_size/C_size return exactly the number of bytes the packing routines fill: every packing write is inside, and every byte of the buffer is initialised afterwards. For A, B, and C with K-first or M-first: always. For C with N-first: exactly when the blocks tile the padded matrix (the condition of C16); otherwise the packing is undefined or leaves an element uninitialised.", "quantifier": "all sizes, thread counts, tiles and schedules", "why_tests_cant": "An off-by-one-block size is only visible for particular remainders.", "anchors": ["src/pack_helper.cpp:cake_sgemm_packed_A_size", "src/pack_helper.cpp:cake_sgemm_packed_B_size", "src/pack_helper.cpp:cake_sgemm_packed_C_size"]}
{"id": "C19", "title": "Automatic tile sizes are legal", "statement": "Whenever the L2 estimate leaves room for at least one m_r row panel, the automatically chosen m_c and n_c are positive multiples of m_r and n_r and k_c is positive, for every schedule. With a smaller L2 the sizing code divides by zero.", "quantifier": "all cache sizes, core counts, matrix sizes and schedules; every value of the floating-point estimates", "why_tests_cant": "Depends on the machine's cache sizes.", "anchors": ["src/block_sizing.cpp:get_cache_dims"]}
{"id": "C20", "title": "Blocks tile the iteration space exactly", "statement": "The block counts, remainder sizes and per-core sizes computed by init_block_dims partition rows, columns and the k range: every index belongs to exactly one (block, core, offset) triple, padding is less than one register tile, and no core gets a non-positive share.", "quantifier": "all sizes, p, tile sizes and schedules", "why_tests_cant": "Unboundedly many remainder combinations.", "anchors": ["src/block_sizing.cpp:init_block_dims"]}
{"id": "C21", "title": "Block sizing is history independent", "statement": "The tile sizes chosen for a call depend only on the sizes, p, schedule and hardware fields of the context, not on earlier calls made with the same context.", "quantifier": "all histories of calls on one context", "why_tests_cant": "Quantifies over call histories; the context field alpha_n is mutated by each call.", "anchors": ["src/block_sizing.cpp:get_cache_dims"]}
{"id": "C22", "title": "Schedule selection", "statement": "If the caller passes KMN, MKN or NKM that schedule is used; if NA, a valid schedule is always chosen, so the 'unknown schedule' exit is unreachable from the entry points.", "quantifier": "all inputs and all outcomes of the floating-point comparisons (including NaN)", "why_tests_cant": "The cut-over expressions can be NaN or infinite for extreme sizes.", "anchors": ["src/block_sizing.cpp:derive_schedule", "src/block_sizing.cpp:get_cache_dims", "src/cake_sgemm.cpp:schedule"]}
{"id": "C23", "title": "User tile sizes are honoured safely", "statement": "With mcu,kcu,ncu all positive: if mcu and ncu are multiples of m_r and n_r the result is A*B with every schedule. Otherwise, as soon as one full block is used, there is an element of C, fixed by the sizes, that no finished call computes: it is 0 or what it was before, whatever A and B are. If no full block is used the result is A*B, except in the K-first schedule when what one core computes at a time, in whole register tiles, exceeds mcu*ncu elements: then the call runs past the end of the buffer it allocated.", "quantifier": "all sizes, cores, mcu,kcu,ncu > 0, schedules, matrices and executions", "why_tests_cant": "Tests never pass unaligned tiles.", "anchors": ["src/block_sizing.cpp:get_cache_dims", "src/cake_sgemm_k_first.cpp:schedule_KMN"]}
{"id": "C24", "title": "Changing the register tile keeps the result right", "statement": "After update_mr_nr(ctx,m,n) with a generated kernel size, cake_sgemm with the K-first schedule and cake_sgemm_online still compute A*B. On the M-first, N-first, 2d and 2d_small paths, which always call the smallest kernel, no finished execution computes the elements of a register tile beyond the size of that kernel: each is 0 or what it was before the call, whatever A and B are.", "quantifier": "all generated (m_r,n_r) pairs (positive half), all positive (m_r,n_r) (negative half), all matrices, sizes, cores and executions", "why_tests_cant": "Tests run with the default register tile.", "anchors": ["src/block_sizing.cpp:update_mr_nr", "python/kernel_gen.py:gen_dense_kernel_headers", "include/kernel_wrapper.h:cake_sgemm_ukernel"]}
{"id": "C25", "title": "When the choice of a core grid is defined", "statement": "The grid selection used by the 2d entry points is defined exactly when the divisor table has a row for p and the number of columns aimed for, or some number between it and 1, divides p. An even p in the table always has a grid. When defined, it returns pn with 1 <= pn <= p, pn dividing p and, among the divisors other than 1, nearest to the aim. Otherwise (e.g. every prime p unless the aim is 1 or p, and p above the build-time core count) it uses an uninitialised variable or reads outside the table.", "quantifier": "all p, core counts and aspect ratios", "why_tests_cant": "The uninitialised read only happens for particular p and N/M ratios.", "anchors": ["src/block_sizing.cpp:grid_dims_2d", "python/grid_gen.py:gen_factor_table"]}
{"id": "C26", "title": "Microkernel computes an outer-product accumulation", "statement": "For every k>=0 (multiple of the unroll factor or not) the m_r x n_r microkernel replaces its C tile by the fma accumulation of k outer products, reads exactly k*m_r floats of A and k rows of n_r floats of B, and writes only its tile.", "quantifier": "all k, all generated tile sizes, all element values", "why_tests_cant": "k is unbounded and the remainder loop runs for k mod 4 in {1,2,3}.", "anchors": ["src/kernels/haswell/dense.cpp:cake_sgemm_haswell_6x16", "src/kernels/armv8/dense.cpp:cake_sgemm_armv8_8x12", "python/kernel_gen.py:gen_kernel"]}
{"id": "C27", "title": "When transpose_mat is right", "statement": "transpose_mat(A,At,K,N,Kt,Nt) sets At[n*K+k]=A[k*N+n] for every k<K, n<N, touches nothing else, stays in bounds and has no data race exactly when 8 divides K or the columns fit in one tile; otherwise two threads write the same element. With one thread it is right for all sizes, and so is transpose.", "quantifier": "all K,N>=0 and all tile arguments, all interleavings", "why_tests_cant": "Edge tiles smaller than 8x8 and tile arguments below 8 take different paths.", "anchors": ["src/transpose.cpp:transpose_mat", "src/kernels/haswell/transpose_haswell.cpp:transpose_mxn"]}
{"id": "C28", "title": "8x8 register transpose network is exact", "statement": "The unpack/shuffle/permute network of transpose_8x8 stores exactly the transpose of the 8x8 tile for arbitrary lane contents and leading dimensions.", "quantifier": "all 64 lane values of any type, all leading dimensions >= 8", "why_tests_cant": "A lane mix-up can be masked by symmetric test data; values are unbounded.", "anchors": ["src/kernels/haswell/transpose_haswell.cpp:transpose_8x8"]}
{"id": "C29", "title": "What cake_sgemm_checker accepts", "statement": "cake_sgemm_checker returns 0 exactly when the binary32 difference of every element of C and of the reference product is at most the tolerance, or is NaN. (So a C full of NaN is reported CORRECT.) It changes nothing else.", "quantifier": "all matrices and sizes, all float values", "why_tests_cant": "The checker is the test oracle itself.", "anchors": ["src/util.cpp:cake_sgemm_checker", "src/util.cpp:mat_equals"]}
{"id": "C30", "title": "lcm returns the least common multiple", "statement": "lcm(a,b) terminates for all positive a,b and returns their least common multiple.", "quantifier": "all positive integers", "why_tests_cant": "Unbounded search loop.", "anchors": ["src/block_sizing.cpp:lcm"]}
{"id": "C31", "title": "clamp_val", "statement": "For min<=max and d not NaN, clamp_val(d,min,max) lies in [min,max] and equals d when d is already inside; NaN is returned as it is. The integer version likewise.", "quantifier": "all values", "why_tests_cant": "Infinite domain.", "anchors": ["src/block_sizing.cpp:clamp_val"]}
{"id": "C32", "title": "What cake_sgemm_test computes", "statement": "cake_sgemm_test, an entry point with the signature of cake_sgemm, never multiplies: in every call with legal arguments C is set to 0 if beta = 0 and left as it was otherwise, without undefined behaviour, and nothing else changes (the schedule dispatcher does nothing for K-first).", "quantifier": "all inputs", "why_tests_cant": "No test calls it.", "anchors": ["src/cake_sgemm.cpp:cake_sgemm_test", "src/cake_sgemm.cpp:schedule"]}
{"id": "C33", "title": "Double-precision ceiling division is exact", "statement": "Every (int) ceil(((double) a)/b) in the sizing code equals the mathematical ceiling of a/b for all non-negative 32-bit a and positive 32-bit b.", "quantifier": "all pairs of 32-bit integers", "why_tests_cant": "2^62 pairs.", "anchors": ["src/block_sizing.cpp:init_block_dims", "src/pack_helper.cpp:cake_sgemm_packed_A_size"]}
{"id": "C34", "title": "No signed overflow below the size limit", "statement": "If the padded operand sizes, the products of the tile sizes with each other and with the number of cores, and the intermediate tile sizes fit in a 32-bit int, no int index or size expression evaluated by cake_sgemm overflows (for the N-first schedule with beta != 0, the packed C plus one row block must fit too). With automatic tiles on IEEE arithmetic and ordinary caches the tile conditions hold by themselves for the K-first and M-first schedules. The same holds for cake_sgemm_online, cake_sgemm_2d and cake_sgemm_2d_small: their grid choice, sizing, packing and schedules evaluate no int expression that overflows while the padded operands (for the grids with one more row of C), the tiles and the packed buffers have fewer than 2^31 elements. Beyond the limit the size computation itself overflows (for example M=K=65536).", "quantifier": "all sizes below the limit, all schedules and tiles, all executions; and all sizes whose padded A is beyond it", "why_tests_cant": "Needs matrices of 2^31 elements.", "anchors": ["src/pack_helper.cpp", "src/cake_sgemm_k_first.cpp:schedule_KMN", "src/pack_k_first.cpp", "src/block_sizing.cpp:init_block_dims_2d", "src/cake_sgemm_k_first.cpp:schedule_KMN_2d", "src/cake_sgemm_k_first.cpp:schedule_KMN_online"]}
{"id": "C35", "title": "A context from cake_query_cntx_torch is usable", "statement": "A context returned by cake_query_cntx_torch can be passed to cake_sgemm, and gives the right product, whatever its uninitialised fields m_map and n_map hold, unless the library works K-first (asked for or chosen by itself). When it does, the call is right if both fields happen to be 0 and otherwise every execution of every call with work to do is undefined.", "quantifier": "all L2, L3, garbage, sizes, thread counts, schedules, legal tile sizes or none, interleavings", "why_tests_cant": "Reads of uninitialised heap memory usually yield plausible values.", "anchors": ["src/block_sizing.cpp:cake_query_cntx_torch", "src/cake_sgemm_k_first.cpp:schedule_KMN"]}
{"id": "C36", "title": "Aligned vector loads are aligned", "statement": "Every aligned 32-byte load in the kernels hits a 32-byte aligned address when B was packed by the library.", "quantifier": "all sizes, tiles, schedules", "why_tests_cant": "Depends on all remainder combinations.", "anchors": ["src/kernels/haswell/dense.cpp", "src/cake_sgemm.cpp:cake_sgemm"]}
{"id": "C37", "title": "Degenerate sizes", "statement": "With M=0 or N=0 cake_sgemm writes nothing; with K=0 it sets C to 0 (beta=0). No undefined behaviour occurs. The same holds of cake_sgemm_online; K=0 is the same for the two-dimensional functions too, but these are undefined with M=0, and cake_sgemm_2d with N=0, and cake_sgemm_2d_small with N=0 and K>0 (with N=0 and K=0 it returns and changes nothing).", "quantifier": "all p, tile sizes, schedules and remaining dimensions", "why_tests_cant": "Combination with every other parameter.", "anchors": ["src/cake_sgemm.cpp:cake_sgemm", "src/block_sizing.cpp:init_block_dims", "src/cake_sgemm.cpp:cake_sgemm_online", "src/cake_sgemm.cpp:cake_sgemm_2d", "src/cake_sgemm.cpp:cake_sgemm_2d_small", "src/block_sizing.cpp:grid_dims_2d"]}
{"id": "C38", "title": "C packing round trip", "statement": "Packing C and unpacking it again for the same schedule and sizes leaves C unchanged (K-first and M-first).", "quantifier": "all sizes, p, tiles, interleavings", "why_tests_cant": "All remainder combinations.", "anchors": ["src/pack_k_first.cpp:pack_C_single_buf_k_first", "src/unpack_k_first.cpp", "src/pack_m_first.cpp:pack_C_single_buf_m_first", "src/unpack_m_first.cpp"]}
{"id": "C39", "title": "Kernel-based packing equals plain packing", "statement": "pack_A_single_buf_k_first_blis and pack_B_k_first_blis fill the packed buffer with the same values as the plain versions whenever both stay in bounds.", "quantifier": "all sizes, p, tiles", "why_tests_cant": "Relates two implementations over all inputs.", "anchors": ["src/pack_k_first.cpp:pack_A_single_buf_k_first_blis", "src/pack_k_first.cpp:pack_B_k_first_blis"]}
{"id": "C40", "title": "Repeated calls are idempotent", "statement": "Calling cake_sgemm (beta=0) twice with the same arguments gives the same C; the result does not depend on what C or freshly allocated memory contained before. More generally, after any sequence of calls of the multiplication functions with one context, C is what the last call alone would have left.", "quantifier": "all inputs and all initial contents of C and of malloc'd memory, all sequences of calls", "why_tests_cant": "Quantifies over garbage memory contents.", "anchors": ["src/cake_sgemm.cpp:cake_sgemm", "src/cake_sgemm.cpp:cake_sgemm_online", "src/cake_sgemm.cpp:cake_sgemm_2d", "src/cake_sgemm.cpp:cake_sgemm_2d_small"]}
{"id": "C41", "title": "set_schedule decision table", "statement": "set_schedule returns the caller's choice unchanged when it is not NA and otherwise never returns NA.", "quantifier": "all M,N,K", "why_tests_cant": "Infinite domain.", "anchors": ["src/cake_sgemm.cpp:set_schedule"]}
{"id": "C42", "title": "add_checker is sound and complete up to tolerance", "statement": "add_checker(C_arr,C,M,N,p) returns 0 exactly when every element of C differs from the sum of the corresponding elements of the p arrays by at most the tolerance, and changes nothing.", "quantifier": "all sizes, all numbers of arrays, all element values, any comparison", "why_tests_cant": "The checker is itself the test oracle.", "anchors": ["src/util.cpp:add_checker"]}
{"id": "C43", "title": "Which tile sizes the autotuner proposes", "statement": "Every (m_c,k_c,n_c) the simulated-annealing autotuner proposes is positive and not beyond a core's padded share. Starting from legal sizes, all points it can visit are legal for cake_sgemm (multiples of the register tile) if and only if m_r divides 30 and n_r divides 128, its step sizes: so with the 6x16 tile of Haswell, not with the 8x12 tile of ARMv8.", "quantifier": "all sizes, core grids, register tiles, searches and random steps", "why_tests_cant": "The candidate depends on random numbers.", "anchors": ["src/autotune_sa.cpp:get_candidate", "src/autotune_sa.cpp:clamp_val_int"]}
{"id": "C44", "title": "Automatic tiles fit the L2 cache", "statement": "With automatic tile sizes, a core's working set in the K-first and M-first schedules (its m_c x k_c block of A with n_r-wide panels of B and C) fills at most half of L2, and m_c is the largest multiple of m_r with that property when there are enough rows for all cores. (The same for N-first is refuted: there the tile is scaled by alpha_n and can exceed all of L2.)", "quantifier": "all cache sizes below 2^31 bytes, core counts up to 1024, matrix sizes; IEEE binary64 arithmetic", "why_tests_cant": "The tile comes from a rounded square root over 2^31 cache sizes; a tile one step too large shows only as lost speed.", "anchors": ["src/block_sizing.cpp:get_cache_dims"]}
{"id": "C45", "title": "Automatic blocks fit the L3 cache", "statement": "With automatic tile sizes, not more cores than the context counts and an L3 tile at least as large as the L2 tile, the block all cores work on together (K-first and M-first) fills at most half of L3. (Without the last condition refuted, when L2 is large compared to L3.)", "quantifier": "all cache sizes, core counts and matrix sizes; IEEE arithmetic", "why_tests_cant": "Same as C44; exceeding L3 shows only as lost bandwidth.", "anchors": ["src/block_sizing.cpp:get_cache_dims"]}
{"id": "C46", "title": "The automatic schedule follows the documented rule", "statement": "With schedule NA the library uses M-first if N<=M and K<=2Mk/(M+k), else N-first if M<=N and K<=2Nk/(N+k), else K-first, where k=p*m_c: exactly while max(M,N)*k<=2^22, and for all sizes below 2^24 except that when K exceeds the cut-off by at most one part in 2^22 the schedule of the larger extent may replace K-first (this does happen); for all ints the rule decides whenever the quantities compared differ by more than one part in 2^22. If no tile fits L3 the schedule is K-first.", "quantifier": "all matrix sizes, core counts and cache sizes; IEEE binary32/binary64 arithmetic", "why_tests_cant": "The comparison is between rounded quotients, and the boundary has to be checked for every size.", "anchors": ["src/block_sizing.cpp:derive_schedule"]}
{"id": "C47", "title": "Automatic tiles of the 2d variants", "statement": "k_c is the greatest depth for which the panels of A and B and one register tile of C fit L1, and m_c is computed as the greatest size for which two m x m blocks and an m x n_r panel fit L2; both are legal as soon as one register tile fits. (A further claim, that the block fits L2, is refuted: it need not fit L2, since k_c is taken from L1 alone.)", "quantifier": "all cache sizes (L1 below 16M, L2 below 2^31) and register tiles; IEEE arithmetic", "why_tests_cant": "Rounded quotients and square roots over all cache sizes.", "anchors": ["src/block_sizing.cpp:init_block_dims_2d"]}
{"id": "C48", "title": "The grid aimed for is the nearest to sqrt(pN/M), up to single precision", "statement": "The number of core columns the 2d variants aim for is the integer nearest to sqrt(p*N/M), the larger in case of a tie: exactly for p*N<=2^19, and for p*N<=2^45 except that a root below n-1/2 by at most one part in 2^22 of its square may give n (this does happen).", "quantifier": "all p, N, M; IEEE binary32 arithmetic and roundf", "why_tests_cant": "2^93 triples; errors occur only next to half-integers.", "anchors": ["src/block_sizing.cpp:grid_dims_2d"]}
{"id": "C49", "title": "Kernels on operands in place", "statement": "Each of the four 6x16 kernels for operands that are not all packed (nothing packed; only A; only B; only C) adds the product of a 6-row column-stored tile of A and a 16-column tile of B to the 6x16 tile of C, changes nothing else and is never undefined, even if the operands overlap.", "quantifier": "all depths k, leading dimensions, offsets, contents and number systems", "why_tests_cant": "Depths, strides and contents are unbounded, and the depth is split 4 + remainder.", "anchors": ["src/kernels/haswell/dense.cpp:cake_sgemm_haswell_6x16_unpacked", "src/kernels/haswell/dense.cpp:cake_sgemm_haswell_6x16_C_packed", "include/kernel_wrapper.h:cake_sgemm_small_ukernel"]}
{"id": "C50", "title": "Sparse kernels multiply the matrix their lists describe", "statement": "The 6x16 (x86) and 8x12 (ARM) sparse kernels add to C every listed nonzero of A times the row of B of its column, in the order listed, which in exact arithmetic is the dense product; nothing else changes. This holds when no group of four columns that begins with an empty one is followed by nonzeros in the groups, for instance when empty columns are listed last. For every other pattern some values give a wrong result, because the rest of the groups is skipped.", "quantifier": "all depths, sparsity patterns, orders of columns, values", "why_tests_cant": "Exponentially many sparsity patterns; the early exit is taken for some only.", "anchors": ["src/kernels/haswell/sparse.cpp:cake_sp_sgemm_haswell_6x16", "src/kernels/armv8/sparse.cpp:cake_sp_sgemm_armv8_8x12"]}
{"id": "C51", "title": "PyTorch layer: forward pass", "statement": "The forward pass of the PyTorch layer returns X times the transpose of the weights, plus the bias in every row when there is one, exactly when either the library works K-first and the two context fields the layer leaves uninitialised are 0, or it does not and the 16-column panels it reads stay inside the weights (always so if 16 divides the number of outputs). In every other call with work to do, every execution is undefined. A weight matrix of the wrong size, data that are not at least a matrix and a weight with no dimension are refused with an exception.", "quantifier": "all batch sizes, numbers of inputs and outputs, contents, cache sizes, interleavings", "why_tests_cant": "Sizes and interleavings are unbounded; the uninitialised fields usually happen to be 0 in tests.", "anchors": ["src/linear.cpp:linear_forward", "src/linear.cpp:cake_query_cntx_torch"]}
{"id": "C52", "title": "PyTorch layer: backward pass", "statement": "The backward pass returns G*W as the gradient of the input and G^T*X as the gradient of the weights exactly when both products satisfy the condition of the forward pass; otherwise every execution is undefined. The gradient of the bias it returns is the column sums of G for a batch of one row or a single output, and differs from them for some gradient at every other size. A gradient or weight that is not at least a matrix is refused with an exception.", "quantifier": "all batch sizes, numbers of inputs and outputs, contents, cache sizes, interleavings", "why_tests_cant": "Sizes and interleavings are unbounded.", "anchors": ["src/linear.cpp:linear_backward"]}
{"id": "C53", "title": "Accuracy in single precision", "statement": "On finite float matrices every element of C differs from the exact product by at most ((1+2^-24)^K - 1) times the sum of the absolute values of its terms, plus the underflow, and is finite if those absolute values cannot reach 2^128; for every schedule, tile size, thread count and interleaving, and for cake_sgemm_online, cake_sgemm_2d and cake_sgemm_2d_small as well. Where beta makes the call add to C (M-first and N-first) the same bound holds for C + A*B, the absolute value of the old element counting as one more term.", "quantifier": "all sizes, finite contents, schedules, tile sizes, thread counts, interleavings", "why_tests_cant": "A bound for all float inputs and sizes; tests compare with a tolerance on samples.", "anchors": ["src/cake_sgemm.cpp:cake_sgemm", "src/kernels/haswell/dense.cpp", "src/kernels/armv8/dense.cpp"]}
{"id": "C54", "title": "Integer matrices are multiplied exactly", "statement": "If the entries are integers and the absolute values of the terms of every element sum up to at most 2^24, C is the exact product, whatever the configuration and the entry point. The same for C + A*B where the call adds to C, the old elements being integers and counted in the sum. (Beyond that, changing the tile sizes changes the result.)", "quantifier": "all sizes, integer contents, schedules, tile sizes, thread counts, interleavings", "why_tests_cant": "Ranges over all integer matrices and configurations.", "anchors": ["src/cake_sgemm.cpp:cake_sgemm"]}
{"id": "C55", "title": "The checker accepts what the multiplication computes", "statement": "cake_sgemm, or any sequence of calls of the multiplication functions, followed by cake_sgemm_checker on the same matrices reports success whenever the rounding error bounds of both are below 1/1000. (Without that bound refuted: a correct product is reported as wrong.)", "quantifier": "all sizes, finite contents, schedules, tile sizes, thread counts, interleavings", "why_tests_cant": "The checker is the test; whether it can raise a false alarm ranges over all inputs.", "anchors": ["src/util.cpp:cake_sgemm_checker", "src/util.cpp:mat_equals", "src/cake_sgemm.cpp:cake_sgemm", "src/cake_sgemm.cpp:cake_sgemm_online", "src/cake_sgemm.cpp:cake_sgemm_2d", "src/cake_sgemm.cpp:cake_sgemm_2d_small"]}
{"id": "C56", "title": "All packing kernels produce the same panels", "statement": "A library compiled with the packing kernels of BLIS for Haswell or ARMv8 packs every full panel of A and B into exactly the layout CAKE's own packing produces, reads nothing outside the panel and writes nothing else. For any other number of rows or columns than the one they are made for the BLIS kernels write nothing at all, whatever the operands. They pack matrices stored by rows and by columns alike, and pack nothing when neither stride is 1 or, on Haswell, when the scaling factor is a number other than 1.", "quantifier": "all panel depths, strides, leading dimensions, offsets and contents, the three choices of packing kernel", "why_tests_cant": "A macro selects one kernel at compile time; the vector shuffles, the edge loops and the range of reads must be right for every depth and stride.", "anchors": ["include/packing.h:A_packing_kernel", "include/packing.h:B_packing_kernel", "src/kernels/haswell/blis_pack_haswell.cpp", "src/kernels/armv8/blis_pack_armv8.cpp"]}
{"id": "C57", "title": "The cache sizes found are the machine's", "statement": "Without a context of the caller the library uses, for the ten processors of its table, the cache sizes of the table, and for every other one the first size lscpu lists for the level. (Holds if the size is a whole number of K or M, all sizes listed for the level have the same unit and together at most 15 characters, and the digits of the first lscpu line with the word Model form an int. Otherwise: a size such as 1.3M is always taken as 3M, mixed units give the first number with the last unit, of a longer listing only 15 characters are read and the result is 0 if the last of them is a digit, sizes in G or no listing give 0, 32K and 512K, and a model name without digits or with too many makes the query undefined.)", "quantifier": "all texts lscpu can print, all levels", "why_tests_cant": "A test sees the text of the machine it runs on.", "anchors": ["src/block_sizing.cpp:get_cache_size"]}
{"id": "C58", "title": "The number of cores found", "statement": "The number of cores of the default context is the number of processors divided by threads per core times sockets, i.e. the physical cores of one socket; it is the number of physical cores of the machine only with one socket. If lscpu shows no number of threads or sockets (e.g. 'Socket(s): -') or /proc/cpuinfo cannot be read, the query is undefined.", "quantifier": "all texts lscpu and /proc/cpuinfo can show", "why_tests_cant": "A test sees the text of the machine it runs on.", "anchors": ["src/block_sizing.cpp:get_num_physical_cores"]}
{"id": "C59", "title": "A call with all defaults computes the product", "statement": "cake_sgemm with a NULL context and no tile sizes leaves A*B in C for every schedule, on every machine where the query finds 16K to 2G of L2, up to 128M of L3, up to 16M of L1 and 1 to 1024 cores, in particular on every machine of the built-in table. (Schedules other than K-first may read up to a register tile past the last column of B, see C10.)", "quantifier": "all machines, sizes with M+8p<2^24, schedules, contents, interleavings; IEEE arithmetic in the sizing", "why_tests_cant": "The tiles depend on the machine; sizes and interleavings are unbounded.", "anchors": ["src/block_sizing.cpp:cake_query_cntx", "src/cake_sgemm.cpp:cake_sgemm"]}
{"id": "C60", "title": "Random matrices", "statement": "rand_init sets exactly the r*c elements of the matrix, each to a number between -1 and 1 (inclusive, never NaN or infinite) whatever rand() returns; the uniform numbers behind normalRandom are greater than 0 and at most 1, so their logarithm is finite.", "quantifier": "all sizes, all results of rand() in 0..RAND_MAX; IEEE arithmetic", "why_tests_cant": "A test sees a few of the 2^31 results, and rounding decides the ends of the range.", "anchors": ["src/util.cpp:rand_init", "src/util.cpp:rand_gen"]}
{"id": "C61", "title": "What run_tests can tell", "statement": "run_tests is the library's own check. (It tests nothing on one core. On two or more cores every execution is undefined, whatever the random numbers, because the first test multiplies matrices of one element with cake_sgemm_2d, which reads past them; the same holds of every test of cake_sgemm_2d and cake_sgemm_online whose sizes are not multiples of the register tile.)", "quantifier": "all contexts, cache sizes that hold a register tile, results of rand(), interleavings", "why_tests_cant": "A run that survives reading past an allocation shows nothing about others.", "anchors": ["src/util.cpp:run_tests", "src/cake_sgemm.cpp:cake_sgemm_2d"]}
{"id": "C62", "title": "A test of cake_sgemm reports no false failure", "statement": "Filling operands at random, multiplying with cake_sgemm and checking with cake_sgemm_checker reports success and releases all memory, for K-first or N a multiple of n_r, whenever the inner dimension is at most 91, whatever the random numbers. (With inner dimension 960, which run_tests uses, there are random numbers for which every such test reports failure although the result has the accuracy of C53.) The same holds of tests of the other multiplication functions, and of several in sequence, on operands of whole register tiles.", "quantifier": "all sizes, tiles, schedules, results of rand(), interleavings; IEEE arithmetic", "why_tests_cant": "The rounding errors depend on the random numbers and the order of summation.", "anchors": ["src/util.cpp:run_tests", "src/util.cpp:cake_sgemm_checker", "src/cake_sgemm.cpp:cake_sgemm"]}
{"id": "C63", "title": "Searches by the autotuner", "statement": "Over any history of calls get_candidate never proposes the same tile sizes twice, until as many sizes have been tried as there are steps of 30 x 20 x 128 in the whole matrix (the limit); from then on it returns at once and leaves the candidate unchanged. A proposal is a whole number of such steps from the current sizes, brought into the range from one register tile to the share of one core. A call returns exactly if the limit is reached or the random numbers lead to sizes not tried yet. When the current point has fewer different proposals than the limit, as on several cores, a search that stays at the point hangs for all random numbers after the last of them.", "quantifier": "all matrix sizes, core grids, register tiles, histories of calls, and sequences of random numbers", "why_tests_cant": "The set of tried sizes persists across calls and the loop depends on an unbounded random sequence; non-termination cannot be observed by a test.", "anchors": ["src/autotune_sa.cpp:get_candidate", "src/autotune_sa.cpp:visited_params"]}
{"id": "C64", "title": "Packing and unpacking one block", "statement": "Each exported routine that packs one block of A, B or C (with a pointer to the block or with the matrix and the position of the block, by one thread or by a team) puts every element of the block in its place in the packed panels or tiles, zeros where the block reaches beyond the matrix, and writes nothing else. Unpacking a block of C writes exactly the elements of the matrix in the block, from the same places; packing and unpacking changes nothing but the packed copy. A block that reaches below the last row and is packed without asking for padding reads beyond the matrix (the routine for A that takes a pointer always pads).", "quantifier": "all matrix sizes, positions and sizes of the block, register tiles, contents, and executions", "why_tests_cant": "All block positions and sizes relative to the edges of the matrix, and all interleavings of the team.", "anchors": ["src/pack_ob.cpp:pack_ob_A_single_buf", "src/pack_ob.cpp:pack_ob_A_multiple_buf", "src/pack_ob.cpp:pack_ob_B_single_buf", "src/pack_ob.cpp:pack_ob_B_parallel", "src/pack_ob.cpp:pack_ob_C_single_buf", "src/pack_ob.cpp:pack_ob_C_multiple_buf", "src/pack_ob.cpp:unpack_ob_C_single_buf", "src/pack_ob.cpp:unpack_ob_C_multiple_buf"]}
{"id": "C65", "title": "Running out of memory", "statement": "If the memory for a packed copy of A or B that the call needs is refused, the call ends the process by exit(1), in every execution: it is never undefined and never returns with an unfinished C. The same holds for the packed C of the M-first and N-first schedules with beta other than 0. If what is refused is not needed (operands given already packed) the call is right as usual. The accumulators of the K-first schedule and the packed C with beta 0 are requested without a test: when the first one is refused, every call of positive sizes is undefined; so is every legal call of positive sizes of the functions that pack as they go (online and both two-dimensional ones).", "quantifier": "all sizes, core counts, schedules, tiles, sets of refused requests, matrices and executions; all four multiplication entry points", "why_tests_cant": "Memory seldom runs out in tests, and which of the requests fails is not under their control; undefined behaviour through a null pointer with an offset need not crash.", "anchors": ["src/cake_sgemm.cpp:cake_sgemm", "src/cake_sgemm.cpp:cake_sgemm_online", "src/cake_sgemm.cpp:cake_sgemm_2d", "src/cake_sgemm.cpp:cake_sgemm_2d_small"]}
{"id": "C66", "title": "Matrices that overlap, or lie anywhere", "statement": "A, B and C may be any three pointers into the caller's memory. cake_sgemm (operands not given packed), with any schedule, and cake_sgemm_2d_small leave at C the product of the matrices that were at A and B before the call, even if C overlaps A or B or is one of them, and change nothing else. cake_sgemm_online and cake_sgemm_2d do so when C does not overlap what they read of A and B (A and B may overlap each other, and all three may be parts of one array); with C = A they can leave a wrong product.", "quantifier": "all sizes, core counts, tiles, contents, positions and overlaps of the three matrices, and all interleavings of the threads", "why_tests_cant": "All ways three matrices can overlap, combined with all schedules of blocks and threads.", "anchors": ["src/cake_sgemm.cpp:cake_sgemm", "src/cake_sgemm.cpp:cake_sgemm_online", "src/cake_sgemm.cpp:cake_sgemm_2d", "src/cake_sgemm.cpp:cake_sgemm_2d_small"]}
{"id": "C67", "title": "Generated kernels", "statement": "python/kernel_gen.py writes, for each target and every height m and width n with n a multiple of the vector width, a kernel that adds to the m x n tile of C the product of the packed panels of A (m x k) and B (k x n), in increasing order of k, and changes nothing else. Whatever limits it is given, entry (i, j) of the table in the header it writes is the kernel of the size the library computes for (i, j), that kernel is defined in the source it writes, and with the arguments of install.sh the constants are those the library is built with. With a width that leaves at least a vector over, the kernel is undefined.", "quantifier": "both targets, all kernel sizes and limits, all k, all contents and positions of the panels and the tile", "why_tests_cant": "The generator is run for a few sizes only; the claim is about every size it can be asked for and every input of the code it writes.", "anchors": ["python/kernel_gen.py:gen_kernel", "python/kernel_gen.py:gen_dense_kernel_headers", "python/kernel_gen.py:gen_all_kernels", "include/kernels.h", "install.sh"]}
{"id": "C68", "title": "Generated table of core grids", "statement": "python/grid_gen.py, run on a machine with p cores, writes a table with a row for every number of cores n from p down to max(1, p/10 rounded) and p columns, where the entry for n cores and f is 1 exactly when f divides n. It is the table the grid entry points of the library look up, including where it ends.", "quantifier": "all numbers of cores p, both ways of rounding ties, any square root not below the integer square root", "why_tests_cant": "A test sees the table of the machine it runs on.", "anchors": ["python/grid_gen.py:gen_factor_table", "python/grid_gen.py:factors", "src/block_sizing.cpp:grid_dims_2d"]}
{"id": "C69", "title": "Matrix-vector product", "statement": "With m_r = 8, a number of rows that is a multiple of eight and tile sizes with m_c a multiple of eight (or chosen by the program), cake_sgemv adds A*B to C on every number of cores, each element in ascending order of k, and changes nothing else. This depends on a field of the block description that is never assigned holding KMN: left indeterminate, or holding MKN, the call is undefined, otherwise the process exits. With other row counts or a smaller m_r, and C of exactly M elements, every execution is undefined; with m_c below eight that divides the rows evenly nothing is computed. The checker that compares the result has a data race as soon as A has two columns.", "quantifier": "all M, K, p, cache sizes, tile sizes, contents, thread interleavings and number systems", "why_tests_cant": "The result depends on what malloc returned, on the schedule of the threads and on the remainders of the sizes.", "anchors": ["examples/cake_gemv.cpp:cake_sgemv", "examples/cake_gemv.cpp:schedule_mvm", "examples/cake_gemv.cpp:cake_sgemv_haswell_8x8_col", "examples/cake_gemv.cpp:get_cache_dims_mvm", "examples/cake_gemv.cpp:init_block_dims_mvm", "examples/cake_gemv.cpp:cake_sgemv_checker"]}
{"id": "C70", "title": "Convolution", "statement": "With 3x3 filters, a number of output channels that is a multiple of six and an input at least two rows and two columns larger than the output, cake_sconv adds the convolution to the output columns below the last multiple of sixteen on every number of cores, the terms of all elements in the same order, whatever the stride argument, and changes nothing else; the remaining columns are not computed. Any other number of output channels, an input with fewer rows, smaller filters, or a block depth of zero make every execution undefined when the arrays have exactly their sizes; the call in the example's own main is such a case. im_2_col returns the matrix whose product with the filters is the same convolution, and reads past the input when that has too few rows.", "quantifier": "all shapes, numbers of cores, cache sizes, contents, thread interleavings and number systems", "why_tests_cant": "The result depends on remainders of the sizes, on the schedule of the threads, and on reads past the end that usually go unnoticed.", "anchors": ["examples/cake_conv.cpp:cake_sconv", "examples/cake_conv.cpp:schedule_KMN_conv", "examples/cake_conv.cpp:pack_filters", "examples/cake_conv.cpp:pack_ob_A_single_buf_conv", "examples/cake_conv.cpp:cake_conv_haswell_6x16", "examples/cake_conv.cpp:get_cache_dims_conv", "examples/cake_conv.cpp:init_block_dims_conv", "examples/cake_conv.cpp:im_2_col"]}
{"id": "C71", "title": "Generated sparse kernels", "statement": "kernel_gen.py in sparse mode writes, for every height and every width that is a multiple of the vector width, two kernels that take a tile of A by its nonzeros and change only the tile of C. The kernel called new adds the products of all nonzeros in the order listed, whatever the order of the columns. The other does so exactly when no group of four columns with a nonzero follows, or is, a group whose first column is empty; for every other pattern there are values that give a wrong row. Every entry of the two generated tables is the kernel of the size the table promises, and that kernel is defined. The sparse kernels in the library are the generated 6x16 and 8x12 kernels.", "quantifier": "all kernel sizes, limits given to the generator, targets, patterns and values of nonzeros, orders of columns, depths, offsets and number systems", "why_tests_cant": "The generator can be asked for infinitely many kernels, and the effect of the order of the columns shows only on patterns with an empty column at the head of a group.", "anchors": ["python/kernel_gen.py:Haswell.Sparse", "python/kernel_gen.py:Armv8.Sparse", "python/kernel_gen.py:gen_kernel", "python/kernel_gen.py:gen_sparse_kernel_headers", "python/kernel_gen.py:gen_all_kernels"]}
{"id": "C72", "title": "The example program", "statement": "The example program, built for ARM and without its cache flush, run with all its arguments and at least one trial, multiplies two random matrices, finds the result correct and releases all memory, for every size with inner dimension at most 91, any number of cores and trials and any random numbers. It does not do so as it stands: with its cache flush every execution is undefined, because it adds to elements of a fresh array, and even with the arrays initialised two threads race; built for Haswell every execution is undefined, because it asks for a register tile smaller than the kernel it names; and with fewer than five arguments, of which it demands only two, it reads past its arguments.", "quantifier": "all sizes, numbers of cores, trials and arguments, sizes of the flushed array, results of rand(), machines with caches of usual size, and schedules of the threads", "why_tests_cant": "A run that happens to end says nothing about other sizes, machines or schedules, and an undefined execution may look right.", "anchors": ["examples/cake_sgemm_test.cpp:main", "src/util.cpp:cake_sgemm_checker", "src/cake_sgemm.cpp:cake_sgemm", "src/block_sizing.cpp:cake_query_cntx"]}
{"id": "C73", "title": "Multiplying straight into C", "statement": "schedule_KMN_C_unpacked, given operands packed by the library and a row-major C whose rows and columns are padded to whole register tiles, adds the product to C when C is no wider than one register tile: each element is summed over every index once in an order fixed by the shape, every execution ends well and nothing else changes. For a wider C it does not: with a packed B of the size the library asks for, every execution is undefined as soon as the last block of the common dimension is deeper than one, and with blocks of any depth no finished execution writes the last element of the last row of a register tile.", "quantifier": "all sizes, tile sizes, numbers of cores, number systems, contents and schedules of the threads", "why_tests_cant": "Reading past the packed B may go unnoticed in a test, and the sizes, core counts and interleavings for which a narrow C must come out right are unbounded.", "anchors": ["include/cake.h:schedule_KMN_C_unpacked", "src/cake_sgemm_k_first.cpp:schedule_KMN_C_unpacked", "include/kernel_wrapper.h:cake_sgemm_ukernel"]}
{"id": "C74", "title": "The convolution example", "statement": "main of the convolution example convolves the filters with the input directly and as a product of matrices, compares the two outputs and says how many elements are far apart. For 3x3 filters, an input two rows and two columns larger than the output, output channels in sixes, every execution ends well: both outputs hold the convolution, each element with its terms in some order, but the direct one is zero beyond the last multiple of sixteen columns; filters and input are unchanged, and the numbers said are right. Where sums can be reordered and the columns come in sixteens both outputs are equal and it says so. With other numbers of output channels every execution is undefined. With the sizes written into main the input has too few rows, and every execution is undefined.", "quantifier": "all shapes, numbers of cores, tile sizes, caches, contents, number systems, notions of far apart, and schedules of the threads", "why_tests_cant": "A run shows one shape, machine and schedule, and one that reads past its input may still look right.", "anchors": ["examples/cake_conv.cpp:main", "examples/cake_conv.cpp:conv_gemm_checker", "examples/cake_conv.cpp:cake_sconv", "examples/cake_conv.cpp:im_2_col", "src/cake_sgemm.cpp:cake_sgemm"]}
{"id": "C75", "title": "The matrix-vector example", "statement": "main of the matrix-vector example multiplies a random matrix by a random vector, checks the product and says whether it is right. As it stands every execution is undefined, because the field that selects the blocking is never assigned. Were the field set, the example would find its result correct for every matrix of at most one column whose rows are a multiple of eight, though it never releases the array it checks with; with two columns or more its check has a data race; with another number of rows every execution is undefined. It demands two arguments and reads three. The comparison itself says rightly whether two arrays agree and in how many elements they do not.", "quantifier": "all sizes, numbers of cores and arguments, random numbers, number systems, notions of far apart, and schedules of the threads", "why_tests_cant": "A run on one machine may find the field set by chance and the race may not show.", "anchors": ["examples/cake_gemv.cpp:main", "examples/cake_gemv.cpp:cake_sgemv_checker", "examples/cake_gemv.cpp:cake_sgemv", "src/util.cpp:rand_init"]}
{"id": "C76", "title": "The row-major kernel of the matrix-vector example", "statement": "The kernel for matrices stored by rows adds the product of eight rows and a vector to eight elements of C. It does not: with k a positive multiple of 64 it leaves in element i the sum of all eight elements of C and of the products of rows 0 to i, each with the first 64 elements of the vector repeated, and changes nothing else. With 64 columns the result is right exactly when each element of C was the sum of all elements of C and of the products of the rows above it; from C = 0, exactly when the products of the first seven rows are zero. With another number of rows than eight, or nothing to sum, every execution is undefined.", "quantifier": "all multiples of 64 as depth, distances between rows, integer contents of A, B and C; for the undefined calls all numbers of rows, depths, number systems and memories", "why_tests_cant": "A test whose first seven rows have zero products finds the right result; what is left depends on all rows at once.", "anchors": ["examples/cake_gemv.cpp:cake_sgemv_haswell_inner_1x64x1"]}
{"id": "C77", "title": "pack_test1 packs A in panels of six rows", "statement": "pack_test1, declared in the public header, copies a row-major A to panels of six rows, element (i, j) to place (i / 6) * 6 * K + 6 * j + i mod 6, and changes nothing else, with CAKE's own packing kernel and with BLIS's for Haswell; it reads and packs whole panels, so A must have a multiple of six rows. With six rows as register tile and one block of depth this is exactly what pack_A leaves for the K-first schedule. If A has exactly M rows and M is no multiple of six, every execution is undefined. With BLIS's kernel for ARMv8 nothing is packed at all.", "quantifier": "all sizes, contents, number systems, packing kernels, plans of a legal K-first multiplication, and interleavings of the threads", "why_tests_cant": "The layout must hold for every size and schedule of the threads; reading past A need not show in a test.", "anchors": ["src/pack_k_first.cpp:pack_test1", "include/packing.h:pack_test1", "include/packing.h:A_packing_kernel", "src/pack_k_first.cpp:pack_A_single_buf_k_first"]}
{"id": "C78", "title": "Printed matrices", "statement": "print_array and print_mat print the elements of the array in order, print_mat one row of the matrix a line, and print_feature_map prints the planes of the input or output of a convolution, each row of each plane under the right channel. print_filters prints the filters the convolution uses when there is one channel or the filters have one element; otherwise it reads them in another order, and elements that are all different are shown under the wrong channel. Printing an element never assigned or past the end is undefined. print_schedule names the schedule and ends the program for any other value.", "quantifier": "all sizes, places, contents and number systems", "why_tests_cant": "The output is for people and no test reads it; a wrong order shows only in some shapes.", "anchors": ["src/util.cpp:print_array", "src/util.cpp:print_mat", "src/util.cpp:print_schedule", "examples/cake_conv.cpp:print_filters", "examples/cake_conv.cpp:print_feature_map"]}
{"id": "C79", "title": "The functions for small matrices multiply nothing", "statement": "cake_gemm_small returns true, as if it had multiplied the matrices, and changes nothing. The three schedules for small matrices of the header end and leave all memory as it was, for every plan and number of cores; with a register tile of zero columns they are undefined. The function that runs a schedule does nothing if its flag for sparse or for small matrices is set or the schedule is KMN, ends the program for an unknown schedule, and otherwise runs the M-first or N-first schedule.", "quantifier": "all plans, contexts, numbers of cores, memories, number systems and thread interleavings", "why_tests_cant": "A test sees one plan; that a function never writes anything is a statement about all of them.", "anchors": ["include/cake.h:cake_gemm_small", "src/cake_sgemm_small.cpp:schedule_KMN_small", "src/cake_sgemm_small.cpp:schedule_MKN_small", "src/cake_sgemm_small.cpp:schedule_NKM_small", "src/cake_sgemm.cpp:schedule"]}
{"id": "C80", "title": "Normally distributed numbers and the autotuner's steps are bounded", "statement": "normalRandom returns a number between -7 and 7, never NaN or infinite, whatever rand() returns; rand_gaussian sets exactly the r*c elements to such numbers. A step of the autotuner is such a number made whole away from zero, so at most 7 steps, and 7 is reached. From sizes in range get_candidate proposes sizes in range at most 210 rows, 140 of K and 896 columns away. Hence a search that stays at one point has at most 3375 proposals, and once they are tried get_candidate never returns if the matrix has more points.", "quantifier": "all results of rand(), all sizes, grids of cores, contexts and histories of the search; every cos with values from -1 to 1 and every log within 1 of the exact one", "why_tests_cant": "The extremes have probability around 2^-31 per draw, and rounding decides whether a step of 8 is possible.", "anchors": ["src/util.cpp:normalRandom", "src/util.cpp:rand_gaussian", "src/autotune_sa.cpp:get_random_step", "src/autotune_sa.cpp:get_candidate"]}
{"id": "C81", "title": "Hashes of tile sizes collide, and it does not matter", "statement": "The hash of tile sizes is a 64-bit number; sizes that differ in n_c only have different hashes, but some different sizes within the range of one search have the same. Nevertheless the set of tried sizes, kept as a hash table with this hash function, contains exactly the sizes put into it and counts them, and every call of get_candidate behaves as with an ideal set.", "quantifier": "all sizes (ints), all sequences of insertions, every number of buckets and every policy of changing it, all random numbers; the table theorems hold for every hash function", "why_tests_cant": "Collisions are rare among the sizes a test tries, and the behaviour depends on when the table is enlarged.", "anchors": ["include/autotune.h:hash_combine", "include/autotune.h:hash_tuple::hash", "src/autotune_sa.cpp:visited_params", "src/autotune_sa.cpp:get_candidate"]}
{"id": "C82", "title": "The autotuner's ints", "statement": "If the number of points of the search and the largest sizes plus seven steps are ints, get_candidate has no int overflow, whatever rand() returns, and does what it does with unbounded ints. If the number of points (for example for square matrices of 60000) or a largest size is not an int, every call is undefined.", "quantifier": "all sizes, grids of cores, contexts, current sizes in range, histories and random numbers, any number of turns of the loop", "why_tests_cant": "Overflow shows only for large matrices and extreme random numbers, and signed overflow need not be visible.", "anchors": ["src/autotune_sa.cpp:get_candidate", "src/autotune_sa.cpp:get_random_step"]}
{"id": "C83", "title": "The ints of the checkers, the random matrices, the transpositions and print_mat", "statement": "If the number of elements of the result (for the checkers) or of the random matrix is an int, and the indices of the elements of the operands are, no int overflows in cake_sgemm_checker, add_checker, rand_init, rand_gaussian and transpose, and they do what they do with unbounded ints: the checkers tell exactly whether an element is far from the reference, the matrix is filled, the transpose is written. In every other case, for example 46341 x 46341 matrices, every call is undefined. transpose_mat needs room for one tile more in either direction: if the last tile reaches so far below the matrix that a row offset is not an int every call is undefined, also for matrices of fewer than 2^31 elements. print_mat prints the matrix if its last index is an int and is undefined otherwise.", "quantifier": "all sizes, matrices, comparison functions, element types, random numbers and interleavings", "why_tests_cant": "Overflow needs matrices of more than 2^31 elements (8 GB each), and signed overflow need not be visible.", "anchors": ["src/util.cpp:cake_sgemm_checker", "src/util.cpp:mat_equals", "src/util.cpp:add_checker", "src/util.cpp:rand_init", "src/util.cpp:rand_gaussian", "src/util.cpp:transpose", "src/transpose.cpp:transpose_mat", "src/kernels/haswell/transpose_haswell.cpp:transpose_8x8", "src/util.cpp:print_mat"]}
