{
 "claims": [
  {
   "property": "C01",
   "status": "proved",
   "theorems": [
    "C01_K_first_product",
    "C01_null_context_product",
    "C01_ieee_automatic_tiles_product"
   ],
   "note": "all executions, all sizes >= 0"
  },
  {
   "property": "C02",
   "status": "proved",
   "theorems": [
    "C02_M_first_product"
   ],
   "note": "under B_rim: the elements of B past column N that the packing reads exist (vacuous when n_r divides N)"
  },
  {
   "property": "C03",
   "status": "proved",
   "theorems": [
    "C03_N_first_product"
   ],
   "note": "under B_rim, as C02"
  },
  {
   "property": "C04",
   "status": "proved",
   "theorems": [
    "C04_mathematical_product",
    "C04_configuration_independent",
    "C04_any_functions_product",
    "C04_functions_agree"
   ],
   "note": ""
  },
  {
   "property": "C05",
   "status": "proved",
   "theorems": [
    "C05_online_product",
    "C05_online_product_null_context",
    "C05_online_same_as_K_first",
    "C05_online_deterministic",
    "C05_online_race",
    "C11_online_safe_iff",
    "C05_online_shared_variable_race_refuted"
   ],
   "note": "proved for every size, tile size, thread count and interleaving with the assignment every thread makes to the shared variable A_offset left out, and as written when at most one thread has work; in every other call the code as written has a data race (C05_online_race)"
  },
  {
   "property": "C06",
   "status": "proved",
   "theorems": [
    "C06_grid_product",
    "C06_grid_product_null_context",
    "C06_grid_deterministic",
    "C06_grid_product_even_cores"
   ],
   "note": "every size, grid, tile size and interleaving; A and B readable up to the padded size, as the property says"
  },
  {
   "property": "C07",
   "status": "proved",
   "theorems": [
    "C07_small_grid_product",
    "C07_small_grid_safe_iff",
    "C07_small_grid_exact_size",
    "C07_small_grid_undefined",
    "C07_small_grid_memory_safe",
    "C07_one_core",
    "C07_small_grid_refuted"
   ],
   "note": "exact condition in both directions: the product (summed in the order k = 0..K-1) whenever the pieces of M and N given to the cores lie inside the padded matrix (always on one core); in every other call with K>0 every execution is undefined. The unconditional claim is refuted, e.g. 12 rows on two cores"
  },
  {
   "property": "C08",
   "status": "proved",
   "theorems": [
    "C08_deterministic",
    "C08_every_call",
    "C08_M_first_beta",
    "C08_N_first_beta",
    "C08_small_grid",
    "C05_online_deterministic",
    "C06_grid_deterministic",
    "C05_online_shared_variable_race_refuted"
   ],
   "note": "race freedom is proved for the legal calls of each function; cake_sgemm_online as written races on its shared variable A_offset (refuted, with a witness), and is deterministic without that store; for any other call: if no interleaving is undefined all agree"
  },
  {
   "property": "C09",
   "status": "proved",
   "theorems": [
    "C09_K_first_memory_safe"
   ],
   "note": ""
  },
  {
   "property": "C10",
   "status": "proved",
   "theorems": [
    "C10_MN_first_safe_iff",
    "C10_MN_first_exact_size",
    "C10_MN_first_exact_size_auto",
    "C10_MN_first_undefined",
    "C10_MN_first_memory_safe",
    "C10_MN_first_memory_safe_refuted"
   ],
   "note": "exact condition in both directions, for every size, tile size, thread count and interleaving: for B of exactly K*N elements the call is safe iff the overhang of the rows before the last share stays inside B (in particular if n_r divides N); where it fails every execution is undefined. The unconditional claim is refuted"
  },
  {
   "property": "C11",
   "status": "proved",
   "theorems": [
    "C11_online_safe_iff",
    "C11_online_exact_size",
    "C11_online_undefined_A",
    "C11_online_undefined_B",
    "C11_grid_safe_iff",
    "C11_grid_exact_size",
    "C11_grid_undefined_A",
    "C11_grid_undefined_B",
    "C11_online_memory_safe",
    "C11_online_memory_safe_refuted",
    "C11_grid_memory_safe",
    "C11_grid_memory_safe_refuted"
   ],
   "note": "exact condition in both directions for both entry points: with operands of exactly M*K and K*N elements the call is safe iff m_r divides M and n_r divides N (and, for the online variant as written, at most one thread has work); where it fails every execution is undefined. The unconditional claim is refuted"
  },
  {
   "property": "C12",
   "status": "proved",
   "theorems": [
    "C12_every_call",
    "C12_only_C_written"
   ],
   "note": "C12_every_call: A, B and the other objects of the caller, every entry point, no legality assumed; that of C only the M*N elements change is C12_only_C_written and, for the other functions, only_C_changed in C05, C06, C07, C15, C16, C32"
  },
  {
   "property": "C13",
   "status": "proved",
   "theorems": [
    "C13_every_call",
    "C13_every_null_call",
    "C13_no_leak",
    "C13_null_context_leaks_one"
   ],
   "note": "the first two: every finished call of every entry point, no legality assumed"
  },
  {
   "property": "C14",
   "status": "proved",
   "theorems": [
    "C14_computed",
    "C14_alpha_beta_iff",
    "C14_alpha_ignored",
    "C14_alpha_beta_refuted"
   ],
   "note": "what every alpha and beta compute, and the exact condition for it to be alpha*A*B + beta*C; N-first with beta <> 0 is C16. The claim one expects, C = alpha*A*B + beta*C in every call, is refuted"
  },
  {
   "property": "C15",
   "status": "proved",
   "theorems": [
    "C15_M_first_accumulates"
   ],
   "note": ""
  },
  {
   "property": "C16",
   "status": "proved",
   "theorems": [
    "C16_N_first_accumulates",
    "C16_N_first_accumulates_any_tiles",
    "C16_otherwise_undefined",
    "C16_exactly_when",
    "C16_N_first_accumulates_refuted"
   ],
   "note": "both directions of the exact condition; the unconditional promise is refuted"
  },
  {
   "property": "C17",
   "status": "proved",
   "theorems": [
    "C17_prepacked_same_result"
   ],
   "note": "All schedules, any choice of pre-packed operands; packed B must be 64-byte aligned (C36). For the M-first and N-first schedules beta is zero and the B rim condition of C02/C03 applies to the plain matrix."
  },
  {
   "property": "C18",
   "status": "proved",
   "theorems": [
    "C18_packed_A_size_exact",
    "C18_packed_B_size_exact",
    "C18_packed_C_size_exact",
    "C18_packed_C_exactly_when",
    "C18_packed_C_size_refuted"
   ],
   "note": "A and B for every schedule; C with the exact condition, which only restricts N-first. That the N-first packing fits without it is refuted."
  },
  {
   "property": "C19",
   "status": "proved",
   "theorems": [
    "C19_automatic_tiles_legal",
    "C19_small_L2_undefined",
    "C19_ieee_automatic_tiles_legal",
    "C19_ieee_small_L2_undefined"
   ],
   "note": "for every value of the floating-point estimates, and without assumption on them in IEEE arithmetic"
  },
  {
   "property": "C20",
   "status": "proved",
   "theorems": [
    "C20_blocks_cover_exactly"
   ],
   "note": ""
  },
  {
   "property": "C21",
   "status": "proved",
   "theorems": [
    "C21_history_independent"
   ],
   "note": ""
  },
  {
   "property": "C22",
   "status": "proved",
   "theorems": [
    "C22_schedule_selection"
   ],
   "note": ""
  },
  {
   "property": "C23",
   "status": "proved",
   "theorems": [
    "C23_user_tiles",
    "C23_user_tiles_K_first",
    "C23_user_tiles_refuted",
    "C23_misfit_misses",
    "C23_misfit_wrong",
    "C23_fitting_tiles",
    "C23_share_too_big"
   ],
   "note": "right for multiples of the register tile, every schedule. Otherwise, as soon as a full block is used, one fixed element of C is computed by no finished execution. When no full block is used the result is right, except K-first with tiles smaller than what a core computes at a time, where every execution is undefined."
  },
  {
   "property": "C24",
   "status": "proved",
   "theorems": [
    "C24_register_tile_K_first",
    "C24_register_tile_online",
    "C24_register_tile_M_N_first_refuted",
    "C24_larger_tile_M_N_first",
    "C24_larger_tile_2d",
    "C24_larger_tile_2d_small"
   ],
   "note": "right on the K-first and online paths; on the M-first, N-first and both 2d paths, which always run the smallest kernel, every finished execution leaves the rest of each larger tile 0 or as it was, whatever the matrices"
  },
  {
   "property": "C25",
   "status": "proved",
   "theorems": [
    "C25_grid_divides",
    "C25_grid_defined",
    "C25_even_cores",
    "C25_grid_prime_refuted",
    "C25_grid_too_many_cores_refuted",
    "C25_three_cores_refuted"
   ],
   "note": "exact condition for the choice to be defined; when it is, it divides p and is the nearest divisor other than 1. Undefined for every prime p unless the width aimed for is 1 or p, and for p above the core count of the table"
  },
  {
   "property": "C26",
   "status": "proved",
   "theorems": [
    "C26_microkernel_outer_products"
   ],
   "note": ""
  },
  {
   "property": "C27",
   "status": "proved",
   "theorems": [
    "C27_transpose_mat",
    "C27_transpose_mat_iff",
    "C27_transpose_mat_refuted",
    "C27_one_thread",
    "C27_transpose"
   ],
   "note": "right and race free in every interleaving if 8|K or the columns fit one tile; in every other case two threads write the same element (undefined). With one thread it is always right. The plain transpose is always right."
  },
  {
   "property": "C28",
   "status": "proved",
   "theorems": [
    "C28_transpose_8x8"
   ],
   "note": "Any element type, offsets and leading dimensions (ldb >= 8)."
  },
  {
   "property": "C29",
   "status": "proved",
   "theorems": [
    "C29_checker",
    "C29_checker_binary32",
    "C29_nan_refuted"
   ],
   "note": "for an arbitrary comparison, and for binary32, where NaN is accepted: a C full of NaN is reported correct"
  },
  {
   "property": "C30",
   "status": "proved",
   "theorems": [
    "C30_lcm"
   ],
   "note": ""
  },
  {
   "property": "C31",
   "status": "proved",
   "theorems": [
    "C31_clamp",
    "C31_clamp_nan",
    "C31_clamp_int"
   ],
   "note": "all doubles; NaN is passed through"
  },
  {
   "property": "C32",
   "status": "proved",
   "theorems": [
    "C32_test_entry",
    "C32_test_entry_refuted"
   ],
   "note": "every legal call leaves zeros, or C as it was; that it computes the product is refuted"
  },
  {
   "property": "C33",
   "status": "proved",
   "theorems": [
    "C33_ceiling_exact",
    "C33_ceiling_used"
   ],
   "note": "binary64 of Flocq, all non-negative ints"
  },
  {
   "property": "C34",
   "status": "proved",
   "theorems": [
    "C34_no_overflow",
    "C34_product",
    "C34_no_overflow_user_tiles",
    "C34_no_overflow_ieee",
    "C34_overflow_beyond",
    "C34_N_first_pack_C_refuted",
    "C34_online_no_overflow",
    "C34_online_product",
    "C34_grid_no_overflow",
    "C34_grid_product",
    "C34_small_grid_no_overflow",
    "C34_small_grid_product",
    "C34_expressions_exact",
    "C34_loops_exact"
   ],
   "note": "every int expression of cake_sgemm, its sizing, packing and schedules is checked in ModelInt.v, those of the online and grid entry points in ModelIntGrid.v; the kernels index with the offsets computed there"
  },
  {
   "property": "C35",
   "status": "proved",
   "theorems": [
    "C35_torch_context",
    "C35_otherwise_undefined",
    "C35_torch_context_armv8",
    "C35_otherwise_undefined_armv8",
    "C35_wrong_kernel_undefined",
    "C35_torch_context_refuted"
   ],
   "note": "exact for K-first; for the other schedules the buffer of B must contain the 16-column rim, whose necessity is C04"
  },
  {
   "property": "C36",
   "status": "proved",
   "theorems": [
    "C17_prepacked_same_result",
    "C01_K_first_product",
    "C02_M_first_product",
    "C03_N_first_product",
    "C36_unaligned_prepacked_refuted"
   ],
   "note": "Aligned loads are checked by the model (undefined otherwise), so the correctness theorems include the claim; the refutation shows that a caller's unaligned pre-packed B breaks it."
  },
  {
   "property": "C37",
   "status": "proved",
   "theorems": [
    "C37_empty_result_writes_nothing",
    "C37_empty_sum_gives_zero",
    "C37_empty_sum_any_function",
    "C37_empty_result_any_function",
    "C37_no_rows_2d_undefined",
    "C37_no_columns_2d_undefined",
    "C37_no_columns_2d_small_undefined",
    "C37_neither_columns_nor_sum_2d_small"
   ],
   "note": ""
  },
  {
   "property": "C38",
   "status": "proved",
   "theorems": [
    "C38_C_round_trip"
   ],
   "note": "N-first only when C_aligned, see C18."
  },
  {
   "property": "C39",
   "status": "proved",
   "theorems": [
    "C39_panel_packing_A_same",
    "C39_panel_packing_B_same"
   ],
   "note": ""
  },
  {
   "property": "C40",
   "status": "proved",
   "theorems": [
    "C40_idempotent",
    "C40_garbage_independent",
    "C40_last_call_decides"
   ],
   "note": ""
  },
  {
   "property": "C41",
   "status": "proved",
   "theorems": [
    "C41_set_schedule"
   ],
   "note": ""
  },
  {
   "property": "C42",
   "status": "proved",
   "theorems": [
    "C42_add_checker"
   ],
   "note": ""
  },
  {
   "property": "C43",
   "status": "proved",
   "theorems": [
    "C43_candidates_range",
    "C43_candidates_legal",
    "C43_candidates_refuted"
   ],
   "note": "in range always; multiples of the register tile at every point of every search iff m_r divides 30 and n_r divides 128: true of 6x16 (Haswell), false of 8x12 (ARMv8)"
  },
  {
   "property": "C44",
   "status": "proved",
   "theorems": [
    "C44_tile_fits_L2",
    "C44_N_first_fits_refuted"
   ],
   "note": "K-first and M-first for all cache sizes, which is what the property says; the same claim for N-first is refuted"
  },
  {
   "property": "C45",
   "status": "proved",
   "theorems": [
    "C45_block_fits_L3",
    "C45_small_L3_refuted"
   ],
   "note": "under the conditions the property names; without them refuted"
  },
  {
   "property": "C46",
   "status": "proved",
   "theorems": [
    "C46_schedule_rule_moderate",
    "C46_schedule_one_way",
    "C46_schedule_all_sizes",
    "C46_schedule_all_ints",
    "C46_schedule_no_L3",
    "C46_schedule_rule_refuted"
   ],
   "note": "the exact rule for max(M,N)*p*m_c <= 2^22; for all sizes the rule up to one part in 2^22 at the cut-off, in one direction only below 2^24; the exact rule is false in general (_refuted)"
  },
  {
   "property": "C47",
   "status": "proved",
   "theorems": [
    "C47_grid_tiles",
    "C47_grid_tiles_legal",
    "C47_grid_tiles_fit_L2_refuted"
   ],
   "note": "the sizes computed and their legality; that the block also fits L2 is refuted"
  },
  {
   "property": "C48",
   "status": "proved",
   "theorems": [
    "C48_grid_width_moderate",
    "C48_grid_width_all_sizes",
    "C48_grid_width_refuted"
   ],
   "note": "exact for p*N <= 2^19; up to one part in 2^22 below a half-integer for p*N <= 2^45; exactness is false there (_refuted)"
  },
  {
   "property": "C49",
   "status": "proved",
   "theorems": [
    "C49_kernel_unpacked",
    "C49_kernel_A_packed",
    "C49_kernel_B_packed",
    "C49_kernel_C_packed",
    "C49_small_ukernel"
   ],
   "note": "row and column strides are parameters"
  },
  {
   "property": "C50",
   "status": "proved",
   "theorems": [
    "C50_sparse_haswell_6x16",
    "C50_sparse_armv8_8x12",
    "C50_sparse_is_dense",
    "C50_empty_last_enough",
    "C50_any_order",
    "C50_skipped_refuted",
    "C50_empty_column_first_refuted"
   ],
   "note": "exact: the effect is given for every order of the columns, the product is right when no column with nonzeros is skipped, and for every other pattern some values give a wrong result. The 3x32 sparse kernel uses undeclared variables and is not modelled"
  },
  {
   "property": "C51",
   "status": "proved",
   "theorems": [
    "C51_forward",
    "C51_forward_otherwise_undefined",
    "C51_forward_ieee",
    "C51_forward_mismatch",
    "C51_forward_dimensions",
    "C51_forward_refuted",
    "C51_forward_junk_refuted"
   ],
   "note": "exact condition; two instances of the undefined case"
  },
  {
   "property": "C52",
   "status": "proved",
   "theorems": [
    "C52_backward",
    "C52_backward_otherwise_undefined",
    "C52_backward_dimensions",
    "C52_grad_bias",
    "C52_grad_bias_refuted"
   ],
   "note": "exact condition; gradient of the bias false for some gradient for every batch and layer size above 1"
  },
  {
   "property": "C53",
   "status": "proved",
   "theorems": [
    "C53_accuracy",
    "C53_factor",
    "C53_online_accuracy",
    "C53_grid_accuracy",
    "C53_small_grid_accuracy",
    "C53_M_first_accumulate_accuracy",
    "C53_N_first_accumulate_accuracy"
   ],
   "note": "binary32 of Flocq with fused multiply-add, round to nearest even, no flush of subnormals"
  },
  {
   "property": "C54",
   "status": "proved",
   "theorems": [
    "C54_exact_integers",
    "C54_larger_integers_refuted",
    "C54_online_exact_integers",
    "C54_grid_exact_integers",
    "C54_small_grid_exact_integers",
    "C54_M_first_accumulate_exact_integers",
    "C54_N_first_accumulate_exact_integers"
   ],
   "note": "the refutation shows the bound 2^24 is needed"
  },
  {
   "property": "C55",
   "status": "proved",
   "theorems": [
    "C55_checker_accepts",
    "C55_checker_accepts_any_function",
    "C55_checker_rejects_refuted"
   ],
   "note": "under the bound the property names; without it a false alarm is possible (refuted)"
  },
  {
   "property": "C56",
   "status": "proved",
   "theorems": [
    "C56_A_panel",
    "C56_B_panel",
    "C56_other_sizes",
    "C56_A_any_layout",
    "C56_B_any_layout",
    "C56_not_packed"
   ],
   "note": "full panels of the size the kernel is made for, matrices stored by rows or by columns; for any other size, for two strides other than 1 and (Haswell) for kappa other than 1 the BLIS kernels do nothing"
  },
  {
   "property": "C57",
   "status": "proved",
   "theorems": [
    "C57_table",
    "C57_listed",
    "C57_units_refuted",
    "C57_long",
    "C57_fraction_refuted",
    "C57_not_listed",
    "C57_model_undefined"
   ],
   "note": "the conditions the property names, and what happens otherwise"
  },
  {
   "property": "C58",
   "status": "proved",
   "theorems": [
    "C58_cores",
    "C58_sockets_refuted",
    "C58_undefined"
   ],
   "note": ""
  },
  {
   "property": "C59",
   "status": "proved",
   "theorems": [
    "C59_default_call",
    "C59_context",
    "C59_table_usual"
   ],
   "note": "composition of the query, the sizing in IEEE arithmetic and the multiplication"
  },
  {
   "property": "C60",
   "status": "proved",
   "theorems": [
    "C60_rand_init",
    "C60_rand_init_range",
    "C60_rand_gen_range"
   ],
   "note": "RAND_MAX of glibc"
  },
  {
   "property": "C61",
   "status": "proved",
   "theorems": [
    "C61_run_tests_undefined",
    "C61_run_tests_undefined_ieee",
    "C61_one_core",
    "C61_grid_test_undefined",
    "C61_online_test_undefined"
   ],
   "note": "that run_tests is a meaningful check is refuted for every machine with two or more cores"
  },
  {
   "property": "C62",
   "status": "proved",
   "theorems": [
    "C62_test_accepts",
    "C62_test_accepts_any_function",
    "C62_large_refuted"
   ],
   "note": "inner dimension at most 91, as the property says; refuted for 960"
  },
  {
   "property": "C63",
   "status": "proved",
   "theorems": [
    "C63_call",
    "C63_never_twice",
    "C63_afterwards",
    "C63_returns",
    "C63_hangs",
    "C63_one_point",
    "C63_always_returns_refuted",
    "C63_proposals"
   ],
   "note": "exact for every history and every sequence of random steps; the random steps are any ints (normalRandom is not modelled)"
  },
  {
   "property": "C64",
   "status": "proved",
   "theorems": [
    "C64_pack_A",
    "C64_pack_B",
    "C64_pack_C",
    "C64_unpack_C",
    "C64_round_trip",
    "C64_A_without_padding",
    "C64_C_without_padding"
   ],
   "note": "the six routines for one block and their variants that take the whole matrix"
  },
  {
   "property": "C65",
   "status": "proved",
   "theorems": [
    "C65_no_memory_for_copies",
    "C65_no_memory_online",
    "C65_no_memory_2d",
    "C65_no_memory_2d_small",
    "C65_no_memory_for_C",
    "C65_no_memory_for_accumulator",
    "C65_no_accumulator_online",
    "C65_no_accumulator_2d",
    "C65_no_accumulator_2d_small"
   ],
   "note": "a refused malloc of the structures themselves is undefined by definition of the model and is not a theorem"
  },
  {
   "property": "C66",
   "status": "proved",
   "theorems": [
    "C66_overlap_K_first",
    "C66_overlap_other_schedules",
    "C66_overlap_general",
    "C66_overlap_small_grid",
    "C66_disjoint_C_online",
    "C66_disjoint_C_grid",
    "C66_overlap_refuted"
   ],
   "note": "operands not given packed; for cake_sgemm_online and cake_sgemm_2d C must not overlap what is read of A and B, rims included, and the claim without this proviso is refuted"
  },
  {
   "property": "C67",
   "status": "proved",
   "theorems": [
    "C67_kernel_multiplies",
    "C67_library_kernels",
    "C67_float_factors_commute",
    "C67_table",
    "C67_installed",
    "C67_width_refuted"
   ],
   "note": "dense kernels of both targets; widths that are no multiple of the vector width are refuted when the remainders of all rows make a vector"
  },
  {
   "property": "C68",
   "status": "proved",
   "theorems": [
    "C68_table",
    "C68_library_table"
   ],
   "note": "the number of cores found at installation is any number; floating-point results enter through the bounds the property names"
  },
  {
   "property": "C69",
   "status": "proved",
   "theorems": [
    "C69_product",
    "C69_kernel",
    "C69_kernel_packed",
    "C69_rows_refuted",
    "C69_small_tile_refuted",
    "C69_field_refuted",
    "C69_checker_refuted"
   ],
   "note": "the square root behind the automatic tile size is any nonnegative number; the claim without its provisos is refuted case by case"
  },
  {
   "property": "C70",
   "status": "proved",
   "theorems": [
    "C70_convolution",
    "C70_whole",
    "C70_tail_refuted",
    "C70_channels_refuted",
    "C70_input_refuted",
    "C70_filters_refuted",
    "C70_depth_refuted",
    "C70_main_refuted",
    "C70_im2col",
    "C70_im2col_product",
    "C70_im2col_refuted"
   ],
   "note": "the two floating-point results behind the block sizes are any functions, the first nonnegative, the second nonzero where the claim says so; the claim without its provisos is refuted case by case"
  },
  {
   "property": "C71",
   "status": "proved",
   "theorems": [
    "C71_new_multiplies",
    "C71_plain_multiplies",
    "C71_plain_any_order",
    "C71_plain_skips_refuted",
    "C71_table",
    "C71_library_kernels"
   ],
   "note": "the kernels with the break multiply under a condition on the order of the columns that is shown exact"
  },
  {
   "property": "C72",
   "status": "proved",
   "theorems": [
    "C72_armv8",
    "C72_haswell_refuted",
    "C72_flush_refuted",
    "C72_flush_race_refuted",
    "C72_flush_loop",
    "C72_flush_sum",
    "C72_few_arguments_refuted"
   ],
   "note": "the positive part is about the program without its cache flush, as the statement says; the rest is refuted for all inputs"
  },
  {
   "property": "C73",
   "status": "proved",
   "theorems": [
    "C73_narrow_exact",
    "C73_wide_undefined",
    "C73_wide_never_written",
    "C73_wide_wrong_refuted"
   ],
   "note": "right for a C of one register tile width; for wider C the function is shown undefined for all inputs when the last block of the common dimension is deeper than one; at any depth no finished execution writes the last element of the last row of a register tile; with fewer rows than a register tile wrong by a witness"
  },
  {
   "property": "C74",
   "status": "proved",
   "theorems": [
    "C74_convolutions",
    "C74_agree",
    "C74_comparison",
    "C74_rows_refuted",
    "C74_channels_refuted",
    "C74_own_sizes_refuted"
   ],
   "note": "printing, the random values of F and In and the calls of free are left out; the claim without its provisos, and for the sizes in main, is refuted"
  },
  {
   "property": "C75",
   "status": "proved",
   "theorems": [
    "C75_as_written_refuted",
    "C75_one_column",
    "C75_columns_refuted",
    "C75_rows_refuted",
    "C75_arguments_refuted",
    "C75_comparison"
   ],
   "note": "what the example does when the field happens to be set is proved case by case; printing and timing are left out"
  },
  {
   "property": "C76",
   "status": "proved",
   "theorems": [
    "C76_leaves",
    "C76_right_iff",
    "C76_from_zero",
    "C76_rows_refuted"
   ],
   "note": "the intended product is refuted by what is exactly left; integers stand for the numbers, since the code adds in another order; undefined calls for every number system"
  },
  {
   "property": "C77",
   "status": "proved",
   "theorems": [
    "C77_packs",
    "C77_same_as_pack_A",
    "C77_rows_refuted",
    "C77_armv8_refuted"
   ],
   "note": "A with whole panels; otherwise, and with the ARMv8 kernel of BLIS, refuted for all inputs"
  },
  {
   "property": "C78",
   "status": "proved",
   "theorems": [
    "C78_array",
    "C78_mat",
    "C78_feature_map",
    "C78_undefined",
    "C78_filters_iff",
    "C78_filters_one",
    "C78_filters_refuted",
    "C78_schedule"
   ],
   "note": "how %f renders a number is left open; ints unbounded"
  },
  {
   "property": "C79",
   "status": "proved",
   "theorems": [
    "C79_gemm_small_refuted",
    "C79_small_schedules",
    "C79_no_columns_refuted",
    "C79_flags",
    "C79_dispatch"
   ],
   "note": "the kernel calls of these functions are in comments; the index computations beside them are left out"
  },
  {
   "property": "C80",
   "status": "proved",
   "theorems": [
    "C80_normal",
    "C80_gaussian",
    "C80_step",
    "C80_seven",
    "C80_none",
    "C80_bad_log",
    "C80_drawn",
    "C80_near",
    "C80_returns_refuted"
   ],
   "note": "cos and log of the C library are arguments, real functions; the other operations are exact with rounding; ints unbounded; the set of tried sizes in C80_returns_refuted is all proposals of the point"
  },
  {
   "property": "C81",
   "status": "proved",
   "theorems": [
    "C81_hash",
    "C81_distinct_refuted",
    "C81_table",
    "C81_candidate"
   ],
   "note": "std::hash<int> is the conversion to a 64-bit size_t; std::unordered_set is modelled as buckets with a search in one bucket and any rehashing"
  },
  {
   "property": "C82",
   "status": "proved",
   "theorems": [
    "C82_no_overflow",
    "C82_points_overflow_refuted",
    "C82_sizes_overflow_refuted"
   ],
   "note": "between the two bounds on the largest sizes (within seven steps of INT_MAX) nothing is claimed"
  },
  {
   "property": "C83",
   "status": "proved",
   "theorems": [
    "C83_checker",
    "C83_checker_overflow_refuted",
    "C83_checker_index_refuted",
    "C83_add_checker",
    "C83_add_checker_overflow_refuted",
    "C83_rand_init",
    "C83_rand_init_overflow_refuted",
    "C83_transpose",
    "C83_transpose_index_refuted",
    "C83_transpose_mat",
    "C83_transpose_mat_tile_refuted",
    "C83_print_mat",
    "C83_print_mat_index_refuted"
   ],
   "note": "exact bounds on the sizes, apart from transpose_mat: on either side of them the theorems say what happens; the counter of wrong elements, never above the index, is left out"
  }
 ]
}