{
 "claims": [
  {
   "property": "C01",
   "status": "proved",
   "theorems": [
    "C01_third_law",
    "C01_central_softened",
    "C01_third_law_binary64"
   ],
   "note": "Real-number semantics, every positive softening constant; the third law also in binary64 (round to nearest even), bit for bit up to the sign of zeros."
  },
  {
   "property": "C02",
   "status": "proved",
   "theorems": [
    "C02_simple_no_net_force",
    "C02_block_no_net_force",
    "C02_ah_no_net_force",
    "C02_ah_run_no_net_force"
   ],
   "note": "simple, block (multiples of 64) and ah (full recompute) engines; the openmp engine returns the same memory as the simple one by C05. C02_ah_run_no_net_force covers stale neighbour lists."
  },
  {
   "property": "C03",
   "status": "proved",
   "theorems": [
    "C03_simple_no_net_torque",
    "C03_block_no_net_torque",
    "C03_ah_no_net_torque"
   ],
   "note": "Same scope as C02."
  },
  {
   "property": "C04",
   "status": "proved",
   "theorems": [
    "C04_newtonian_rhs",
    "C04_layout"
   ],
   "note": "C04_layout holds in any arithmetic (bit for bit); C04_newtonian_rhs over the reals."
  },
  {
   "property": "C05",
   "status": "proved",
   "theorems": [
    "C05_copy",
    "C05_fill",
    "C05_fmadd_inplace",
    "C05_fmadd",
    "C05_fcompute",
    "C05_clamp",
    "C05_fmaddn_corr"
   ],
   "note": "Any arithmetic, every schedule and interleaving; the max reduction is C13_reduction and C13_reduction_binary64."
  },
  {
   "property": "C06",
   "status": "proved",
   "theorems": [
    "C06_block_equals_simple"
   ],
   "note": "Real-number semantics."
  },
  {
   "property": "C07",
   "status": "partial",
   "theorems": [
    "C07_block_safe_iff",
    "C07_block_memory_safety_refuted"
   ],
   "note": "REFUTED as stated. C07_block_safe_iff gives the exact guard: safe iff the count is a multiple of 64."
  },
  {
   "property": "C08",
   "status": "proved",
   "theorems": [
    "C08_full_and_immediate_sparse"
   ],
   "note": "Real-number semantics."
  },
  {
   "property": "C09",
   "status": "partial",
   "theorems": [
    "C09_neighbour_data_iff",
    "C09_neighbour_data_refuted"
   ],
   "note": "REFUTED as stated. C09_neighbour_data_iff gives the exact guard: the first fcompute must be at a multiple of the rate."
  },
  {
   "property": "C10",
   "status": "proved",
   "theorems": [
    "C10_init_get_data"
   ],
   "note": "Any arithmetic. CPU engine layout; the GPU engines' init is not covered."
  },
  {
   "property": "C11",
   "status": "proved",
   "theorems": [
    "C11_copy",
    "C11_fill",
    "C11_read_write",
    "C11_fmadd_inplace",
    "C11_fmadd",
    "C11_fmaddn_inplace",
    "C11_fmaddn_corr"
   ],
   "note": "copy, fill, read, write, fmadd, fmadd_inplace in any arithmetic; the weighted sums over the reals."
  },
  {
   "property": "C12",
   "status": "partial",
   "theorems": [
    "C12_fmaddn_with_base",
    "C12_fmaddn_without_base",
    "C12_fmaddn_zero_weights_refuted"
   ],
   "note": "REFUTED as stated: with a base buffer and only zero weights the target keeps its old contents. The positive theorems give the exact guard."
  },
  {
   "property": "C13",
   "status": "proved",
   "theorems": [
    "C13_fmaxabs",
    "C13_reduction",
    "C13_reduction_binary64"
   ],
   "note": "Reals; the reduction also bit for bit in binary64 for buffers without NaN."
  },
  {
   "property": "C14",
   "status": "proved",
   "theorems": [
    "C14_clamp"
   ],
   "note": "Real-number semantics."
  },
  {
   "property": "C15",
   "status": "proved",
   "theorems": [
    "C15_create_buffers"
   ],
   "note": ""
  },
  {
   "property": "C16",
   "status": "proved",
   "theorems": [
    "C16_summation_scalar",
    "C16_summation_vector",
    "C16_summation_range"
   ],
   "note": "Real-number semantics."
  },
  {
   "property": "C17",
   "status": "proved",
   "theorems": [
    "C17_tree_summaries",
    "C17_heap_summaries"
   ],
   "note": "Real-number semantics, positive masses. The oracle for std::nth_element is only assumed to permute its range."
  },
  {
   "property": "C18",
   "status": "proved",
   "theorems": [
    "C18_exactly_once",
    "C18_ratio_zero_self_attraction"
   ],
   "note": "Real-number semantics; tree layout, and by C19 both heap layouts. C18_ratio_zero_self_attraction shows what happens outside the guard ratio >= 1."
  },
  {
   "property": "C19",
   "status": "proved",
   "theorems": [
    "C19_heap_equals_tree",
    "C19_stackless_equals_tree",
    "C19_stackless_gcc_equals_tree"
   ],
   "note": "Any arithmetic, whole sequences of evaluations, any rebuild rate; the gcc bit trick for up to 2^30 bodies."
  },
  {
   "property": "C20",
   "status": "partial",
   "theorems": [
    "C20_heap_bounds_iff",
    "C20_heap_cells",
    "C20_heap_bounds_refuted"
   ],
   "note": "REFUTED as stated. C20_heap_bounds_iff gives the exact guard: the count is a power of two."
  },
  {
   "property": "C21",
   "status": "proved",
   "theorems": [
    "C21_stackless_preorder",
    "C21_stackless_gcc_preorder",
    "C21_heap_preorder"
   ],
   "note": "Heaps of twice a power of two cells, all accept predicates."
  },
  {
   "property": "C22",
   "status": "proved",
   "theorems": [
    "C22_next_node",
    "C22_variants_agree",
    "C22_variants_undefined",
    "C22_guard_needed"
   ],
   "note": "gcc and CUDA variants modelled on 64-bit indices with a 32-bit bit scan."
  },
  {
   "property": "C23",
   "status": "proved",
   "theorems": [
    "C23_tree_stack",
    "C23_heap_stack",
    "C23_stack_limit"
   ],
   "note": "Any accept predicate; C23_stack_limit shows the bound is sharp."
  },
  {
   "property": "C24",
   "status": "proved",
   "theorems": [
    "C24_direct_sum",
    "C24_heap_direct_sum"
   ],
   "note": "Real-number semantics."
  },
  {
   "property": "C25",
   "status": "proved",
   "theorems": [
    "C25_tree_rebuild",
    "C25_heap_rebuild"
   ],
   "note": "Any arithmetic. Cell 0 of the heap is not a node and is excluded."
  },
  {
   "property": "C26",
   "status": "partial",
   "theorems": [
    "C26_heap_nested",
    "C26_tree_nested_any",
    "C26_tree_nested_run",
    "C26_tree_nested_refuted"
   ],
   "note": "REFUTED for the pointer tree; C26_tree_nested_any gives the exact guard, C26_heap_nested the heap layout."
  },
  {
   "property": "C27",
   "status": "partial",
   "theorems": [
    "C27_time",
    "C27_history",
    "C27_bulirsch_stoer_steps",
    "C27_bulirsch_stoer_steps_refuted"
   ],
   "note": "Any number type, engine and solver state. REFUTED for the step counter of Bulirsch-Stoer (C27_bulirsch_stoer_steps gives the exact count); holds for every solver not using it."
  },
  {
   "property": "C28",
   "status": "proved",
   "theorems": [
    "C28_momentum_simple",
    "C28_momentum_block",
    "C28_momentum_ah"
   ],
   "note": "Real-number semantics; any history of advise calls from a fresh solver of any kind (Adams with any starter), engines simple, block (multiples of 64) and ah (stale neighbour lists included); the result exists for simple and block. At least one body (with none, the error estimate reads a[0])."
  },
  {
   "property": "C29",
   "status": "proved",
   "theorems": [
    "C29_centre_simple",
    "C29_centre_block",
    "C29_centre_ah",
    "C29_tables_consistent"
   ],
   "note": "Real-number semantics; whole histories, also Adams. C29_tables_consistent covers the rational tables and rkgl; the Feagin tables are decimal roundings whose weights do not sum to exactly one. A stage row of zeros without correction leaves the stage buffer unchanged (see C12), hence the condition in [consistent]."
  },
  {
   "property": "C30",
   "status": "proved",
   "theorems": [
    "C30_cover",
    "C30_replay",
    "C30_tables"
   ],
   "note": "Covering over the reals for every engine; for a right-hand side that is a function and explicit tables the state is also the composition of the textbook steps of the accepted substeps."
  },
  {
   "property": "C31",
   "status": "proved",
   "theorems": [
    "C31_threshold"
   ],
   "note": "Any arithmetic, any engine: 'error <= threshold' is 'not threshold < error'."
  },
  {
   "property": "C32",
   "status": "proved",
   "theorems": [
    "C32_rk4_order_4",
    "C32_rkf_order_8",
    "C32_rkck_order_4",
    "C32_rkdp_order_4",
    "C32_rkdverk_order_5",
    "C32_row_sums"
   ],
   "note": "All rooted trees by reflection over exact rationals; rkf's stepping row even has order 8."
  },
  {
   "property": "C33",
   "status": "partial",
   "theorems": [
    "C33_rkf_order_7",
    "C33_rkdverk_order_5",
    "C33_first_rows",
    "C33_second_rows",
    "C33_orders_refuted"
   ],
   "note": "REFUTED for rkck, rkdp (order 4, not 5), rkgl (2, not 6) and rklc (2, not 4): the code steps with the second row. True for rkf and rkdverk, and for the unused first rows. For the implicit tables the conditions are those of the method whose stage equations are solved exactly."
  },
  {
   "property": "C34",
   "status": "proved",
   "theorems": [
    "C34_history",
    "C34_starter"
   ],
   "note": "Real-number semantics, pure right-hand side, any starter; C34_starter in any arithmetic."
  },
  {
   "property": "C35",
   "status": "proved",
   "theorems": [
    "C35_polynomials",
    "C35_rows",
    "C35_solver"
   ],
   "note": "Also the solver itself: on polynomial right-hand sides it stays on the solution once the starter values are."
  },
  {
   "property": "C36",
   "status": "proved",
   "theorems": [
    "C36_exact_for_polynomials",
    "C36_error_estimate"
   ],
   "note": "Real-number semantics; any order, any positive pairwise different substep counts (C38: the code's sequence is such)."
  },
  {
   "property": "C37",
   "status": "proved",
   "theorems": [
    "C37_affine",
    "C37_error_estimate",
    "C37_newest_unused"
   ],
   "note": "Real-number semantics; strictly increasing positive counts (then the weight sum is not zero). C37_newest_unused: extrapolate(level) ignores the approximation of that level."
  },
  {
   "property": "C38",
   "status": "proved",
   "theorems": [
    "C38_sequence",
    "C38_bulirsch_stoer",
    "C38_good_counts"
   ],
   "note": "Natural-number counts (no wrap at 2^64)."
  },
  {
   "property": "C39",
   "status": "proved",
   "theorems": [
    "C39_run_ends",
    "C39_run_ends_simple",
    "C39_binary64_endless"
   ],
   "note": ""
  },
  {
   "property": "C40",
   "status": "proved",
   "theorems": [
    "C40_outputs",
    "C40_every",
    "C40_spacing"
   ],
   "note": ""
  },
  {
   "property": "C41",
   "status": "proved",
   "theorems": [
    "C41_round_trip",
    "C41_zero_box_not_loadable"
   ],
   "note": "Masses and colours are those of the frame written first; times as printed. Hypotheses: sizes nonzero and in the range of their columns, times print as one readable word. Outside them: C41_zero_box_not_loadable, a box size of zero is recorded but cannot be loaded."
  },
  {
   "property": "C42",
   "status": "proved",
   "theorems": [
    "C42_parts"
   ],
   "note": ""
  },
  {
   "property": "C43",
   "status": "partial",
   "theorems": [
    "C43_crash",
    "C43_crash_resumed",
    "C43_torn_line_refuted",
    "C43_bogus_frame_refuted",
    "C43_overwrite_refuted"
   ],
   "note": "REFUTED as stated; C43_crash and C43_crash_resumed prove the part about the data (every completely indexed frame is completely there at every crash point, torn writes included; replayable if no index line is torn). C43_torn_line_refuted: a torn index line makes load fail; C43_bogus_frame_refuted: a torn offset makes it replay a frame never recorded; C43_overwrite_refuted: recording over an old stream truncates data before the index."
  },
  {
   "property": "C44",
   "status": "proved",
   "theorems": [
    "C44_resume",
    "C44_resumable",
    "C44_resume_no_frame"
   ],
   "note": ""
  },
  {
   "property": "C45",
   "status": "partial",
   "theorems": [
    "C45_random_access",
    "C45_seek_then_read",
    "C45_refuted"
   ],
   "note": "REFUTED as stated: re-seeking to the last frame after reading it (C45_refuted). C45_random_access gives the exact behaviour for all interleavings, C45_seek_then_read the guarded property."
  },
  {
   "property": "C46",
   "status": "partial",
   "theorems": [
    "C46_reuse_never_loads",
    "C46_refuted"
   ],
   "note": "REFUTED; C46_reuse_never_loads proves that the second stream of a reused writer is never loadable."
  },
  {
   "property": "C47",
   "status": "partial",
   "theorems": [
    "C47_unused_reader",
    "C47_used_reader",
    "C47_refuted"
   ],
   "note": "REFUTED for readers that have read a frame (C47_refuted, C47_used_reader); true for readers that have not (C47_unused_reader)."
  },
  {
   "property": "C48",
   "status": "proved",
   "theorems": [
    "C48_round_trip",
    "C48_exact"
   ],
   "note": "For every rectangular table whose printed numbers are single words that read back. Printing and reading of single numbers is a parameter; C48_exact: with a printer that loses nothing the tables are equal."
  },
  {
   "property": "C49",
   "status": "proved",
   "theorems": [
    "C49_load",
    "C49_reports",
    "C49_unopened",
    "C49_lines"
   ],
   "note": "True of every text; the line grammar (comments, blanks, at least seven numeric columns) is a separate specification."
  },
  {
   "property": "C50",
   "status": "proved",
   "theorems": [
    "C50_round_up",
    "C50_whole_blocks",
    "C50_ends",
    "C50_zero_wraps"
   ],
   "note": "round_up with 64-bit wrap-around; ending is equivalent to enough samples in the ball; n = 0 wraps."
  },
  {
   "property": "C51",
   "status": "proved",
   "theorems": [
    "C51_rectangular",
    "C51_safe",
    "C51_clock"
   ],
   "note": "All histories over add_body, resize, clear, stores, all loaders and both generators."
  },
  {
   "property": "C52",
   "status": "proved",
   "theorems": [
    "C52_real",
    "C52_laws",
    "C52_binary64",
    "C52_nan_equals"
   ],
   "note": "Exact meaning over the reals; laws over binary64 including NaN and infinities; NaN equals everything shown."
  },
  {
   "property": "C53",
   "status": "proved",
   "theorems": [
    "C53_totals",
    "C53_reference_fixed",
    "C53_first_report",
    "C53_last_values",
    "C53_unasked"
   ],
   "note": "Real-number semantics for the totals; the reference-value logic in any arithmetic. Timing and printing are not modelled."
  },
  {
   "property": "C54",
   "status": "proved",
   "theorems": [
    "C54_last_wins",
    "C54_default",
    "C54_malformed",
    "C54_total"
   ],
   "note": ""
  },
  {
   "property": "C55",
   "status": "partial",
   "theorems": [
    "C55_answers",
    "C55_ends",
    "C55_answers_refuted",
    "C55_parameters"
   ],
   "note": "REFUTED as stated: adams started by adams never returns (C55_answers_refuted); C55_ends proves that this is the only case, C55_answers and C55_parameters that every other argument list gives the requested type with the requested parameters"
  },
  {
   "property": "C56",
   "status": "partial",
   "theorems": [
    "C56_accepted",
    "C56_y",
    "C56_f",
    "C56_sum",
    "C56_sum_covers",
    "C56_host_y",
    "C56_host_f",
    "C56_host_sum",
    "C56_refuted",
    "C56_sum_float_refuted"
   ],
   "note": "Proved for every power-of-two device count (the only ones the OpenCL engine accepts), every buffer content and every interleaving of the transfers of a round, for the pairwise exchange of y and f and the summing exchange (reals), and for the host-side exchanges of OpenCL for every device count. REFUTED for three devices, which the CUDA engine accepts; in binary64 the summing exchange may leave different sums on different devices from four devices on. The NCCL branches are not modelled."
  },
  {
   "property": "C57",
   "status": "proved",
   "theorems": [
    "C57_rk4_textbook",
    "C57_rk4_equals_tableau"
   ],
   "note": "Non-zero step lengths for the equality with the tableau solver."
  },
  {
   "property": "C58",
   "status": "proved",
   "theorems": [
    "C58_accuracy_criterion"
   ],
   "note": "Real-number semantics; tree layout, and by C19 both heap layouts."
  },
  {
   "property": "C59",
   "status": "partial",
   "theorems": [
    "C59_same_count",
    "C59_smaller_count_refuted"
   ],
   "note": "REFUTED as stated; C59_same_count is the positive case."
  },
  {
   "property": "C60",
   "status": "proved",
   "theorems": [
    "C60_fixed_solvers"
   ],
   "note": "Pure right-hand side."
  },
  {
   "property": "C61",
   "status": "partial",
   "theorems": [
    "C61_durable",
    "C61_data_flush_refuted",
    "C61_index_flush_refuted",
    "C61_failed_part",
    "C61_failed_header",
    "C61_not_open"
   ],
   "note": "REFUTED when flushes fail (two witnesses); C61_durable proves it when they succeed."
  },
  {
   "property": "C62",
   "status": "partial",
   "theorems": [
    "C62_names",
    "C62_refuted"
   ],
   "note": "REFUTED; C62_names gives the exact condition."
  },
  {
   "property": "C63",
   "status": "proved",
   "theorems": [
    "C63_galaxy",
    "C63_universe"
   ],
   "note": "The random numbers are arbitrary. std::pow(x,3) is taken as x^3."
  },
  {
   "property": "C64",
   "status": "partial",
   "theorems": [
    "C64_box",
    "C64_inside_refuted",
    "C64_nan_refuted",
    "C64_defined_refuted",
    "C64_defined",
    "C64_types"
   ],
   "note": "REFUTED in part: containment in the box and definedness fail (three witnesses); the exact box value is proved."
  },
  {
   "property": "C65",
   "status": "partial",
   "theorems": [
    "C65_units",
    "C65_softened_refuted"
   ],
   "note": "REFUTED for softened pairs; proved for all others."
  },
  {
   "property": "C66",
   "status": "partial",
   "theorems": [
    "C66_zeno",
    "C66_numbers_refuted",
    "C66_failed_refuted"
   ],
   "note": "REFUTED in part: unreadable numbers become zero silently and a failed load leaves bodies; the exact acceptance condition and contents are proved."
  },
  {
   "property": "C67",
   "status": "proved",
   "theorems": [
    "C67_engine"
   ],
   "note": "build without CUDA and OpenCL, as in the model"
  },
  {
   "property": "C68",
   "status": "partial",
   "theorems": [
    "C68_cuda",
    "C68_opencl",
    "C68_deterministic",
    "C68_refuted",
    "C68_uneven_refuted",
    "C68_opencl_refuses"
   ],
   "note": "PARTIAL: proved in full for body counts that are multiples of (devices x block size); REFUTED for other counts on CUDA (C68_refuted, C68_uneven_refuted); OpenCL refuses exactly those (C68_opencl_refuses). Blocks of a grid are run one after another in the model."
  },
  {
   "property": "C69",
   "status": "proved",
   "theorems": [
    "C69_fixed",
    "C69_accepted",
    "C69_solves",
    "C69_unique_solution",
    "C69_convergence",
    "C69_tables"
   ],
   "note": "proved over the reals for every implicit table; both tables of the code meet the hypotheses"
  },
  {
   "property": "C70",
   "status": "partial",
   "theorems": [
    "C70_clients",
    "C70_clients_exact",
    "C70_midpoint",
    "C70_tail_refuted",
    "C70_max_refuted"
   ],
   "note": "PARTIAL: proved in full for body counts that are multiples of D*block and D*64 (and an even number of blocks for the OpenCL fmaxabs); REFUTED for other counts (C70_tail_refuted, C70_max_refuted). The OpenCL program's relaxed floating-point rules are not modelled."
  },
  {
   "property": "C71",
   "status": "partial",
   "theorems": [
    "C71_equals_cpu",
    "C71_direct_sum",
    "C71_size_refuted",
    "C71_rounding_refuted"
   ],
   "note": "PARTIAL Proved over the reals for every engine, device count 2^d and 64..2^30 bodies (a power of two). REFUTED for other sizes (192 bodies: C71_size_refuted) and bit for bit in binary64 (C71_rounding_refuted)."
  },
  {
   "property": "C72",
   "status": "proved",
   "theorems": [
    "C72_result"
   ],
   "note": "Exact result over R for an engine whose right-hand side is a function; every history from a new solver."
  },
  {
   "property": "C73",
   "status": "partial",
   "theorems": [
    "C73_solver_safe",
    "C73_runs_iff",
    "C73_size",
    "C73_command_line_refuted",
    "C73_crash_cases_refuted"
   ],
   "note": "REFUTED as a guarantee for all documented command lines: the crash cases are witnesses; the exact condition is C73_runs_iff. Nested traversal of the pointer tree not covered (see C26)."
  },
  {
   "property": "C74",
   "status": "proved",
   "theorems": [
    "C74_every_call",
    "C74_block",
    "C74_ah_full",
    "C74_ah_sparse",
    "C74_bh_bodies",
    "C74_heap_leaves"
   ],
   "note": "All CPU engines; GPU grids are C67-C71."
  },
  {
   "property": "C75",
   "status": "partial",
   "theorems": [
    "C75_shows_selected",
    "C75_last_gesture",
    "C75_first_frame_not_shown",
    "C75_recording_complete",
    "C75_start_refuted",
    "C75_recording_refuted"
   ],
   "note": "REFUTED for the start (blank instead of frame 0) and for two recordings that lose frames; everything else is proved: the frame shown is the one selected last, recordings are in order, and the exact condition for a complete recording."
  },
  {
   "property": "C76",
   "status": "partial",
   "theorems": [
    "C76_color",
    "C76_frame",
    "C76_refuted"
   ],
   "note": "REFUTED: the colour table is read outside its bounds for speeds between 3/4 of and the whole diagonal of the velocity box; the exact set of values with a colour, and the colours there, are proved. The refutation in binary64 covers bodies at rest (0/0)."
  },
  {
   "property": "C77",
   "status": "proved",
   "theorems": [
    "C77_box",
    "C77_box_fixed",
    "C77_tiling",
    "C77_double_click",
    "C77_double_click_back"
   ],
   "note": "Real-number semantics for the boxes; integer and rational arithmetic for the layout (splits are multiples of 1/2 in the code, so the doubles are exact)."
  },
  {
   "property": "C78",
   "status": "partial",
   "theorems": [
    "C78_names",
    "C78_queue",
    "C78_files",
    "C78_refuted"
   ],
   "note": "REFUTED for directory names with markers; proved for every name without a percent sign before 0, 1 or L."
  },
  {
   "property": "C79",
   "status": "partial",
   "theorems": [
    "C79_resume",
    "C79_engines",
    "C79_simple",
    "C79_tables",
    "C79_memory_refuted"
   ],
   "note": "REFUTED as stated; C79_resume holds for solvers and engines without memory (C79_engines, C79_tables say which are), and C79_memory_refuted gives a solver of each of the other four kinds that goes on differently. The stream is taken to give back the frame it was given (C40, C44); the printed statistics are not compared (their cadence restarts at the resumed time)."
  },
  {
   "property": "C80",
   "status": "partial",
   "theorems": [
    "C80_all_or_nothing",
    "C80_refuses",
    "C80_records",
    "C80_parts",
    "C80_resume",
    "C80_clamp_refuted",
    "C80_masses_refuted"
   ],
   "note": "REFUTED as stated: C80_clamp_refuted (a resumed simulation forgets the box) and C80_masses_refuted (a lost mass file goes unnoticed). Proved in general: C80_all_or_nothing, C80_refuses, C80_records, and C80_resume for engines and solvers without memory, without clamping and with numbers that come back from the files (times are printed with six digits, so not every time does)."
  },
  {
   "property": "C81",
   "status": "proved",
   "theorems": [
    "C81_rkfeagin10",
    "C81_rkfeagin12",
    "C81_no_further",
    "C81_rkfeagin14",
    "C81_no_further14"
   ],
   "note": "In exact arithmetic, with the stated absolute tolerances; 50-bit fixed point balls on the standard library's native integers, whose axioms these theorems list."
  },
  {
   "property": "C82",
   "status": "proved",
   "theorems": [
    "C82_convergence",
    "C82_newton",
    "C82_limit",
    "C82_no_defect",
    "C82_factory",
    "C82_defect_stays",
    "C82_command_line",
    "C82_motion",
    "C82_settles",
    "C82_agree"
   ],
   "note": "In exact arithmetic, first order in h (the orders of the methods are C32, C33, C35 and C81). The constant is existential. Feagin's methods keep a defect of at most 1e-9, shown to be unavoidable for weights that do not add up to one. C82_command_line and C82_factory use C81 and so its native integers."
  },
  {
   "property": "C83",
   "status": "partial",
   "theorems": [
    "C83_motion",
    "C83_apart",
    "C83_reports",
    "C83_energy_refuted",
    "C83_drift",
    "C83_run"
   ],
   "note": "REFUTED for the energy (C83_energy_refuted: two bodies inside the minimum distance, reported energy 0 and then 1/32). Proved: impulse, angular momentum, mass centre; the corrected energy for every motion (C83_motion), the reported energy between times with all pairs apart (C83_apart), and the drift of every solver's runs (C83_drift). Exact arithmetic."
  },
  {
   "property": "C84",
   "status": "proved",
   "theorems": [
    "C84_first_order",
    "C84_second_order",
    "C84_nested",
    "C84_heap",
    "C84_gpu",
    "C84_net_force",
    "C84_limit"
   ],
   "note": "over the reals; the bounds are per component and relative to the added sizes of the attractions, not to their vector sum"
  },
  {
   "property": "C85",
   "status": "proved",
   "theorems": [
    "C85_approximate",
    "C85_tree",
    "C85_heap",
    "C85_limit"
   ],
   "note": ""
  },
  {
   "property": "C86",
   "status": "proved",
   "theorems": [
    "C86_symmetry",
    "C86_relabel"
   ],
   "note": ""
  },
  {
   "property": "C87",
   "status": "proved",
   "theorems": [
    "C87_cuda",
    "C87_opencl"
   ],
   "note": ""
  },
  {
   "property": "C88",
   "status": "proved",
   "theorems": [
    "C88_galileo",
    "C88_block"
   ],
   "note": ""
  },
  {
   "property": "C89",
   "status": "partial",
   "theorems": [
    "C89_per_cent",
    "C89_together",
    "C89_without_P",
    "C89_without_E",
    "C89_shown_refuted",
    "C89_finite_refuted"
   ],
   "note": "REFUTED as stated: C89_shown_refuted and C89_finite_refuted; C89_together, C89_without_P and C89_without_E say what is shown instead, C89_per_cent what the errors are."
  },
  {
   "property": "C90",
   "status": "proved",
   "theorems": [
    "C90_cost",
    "C90_exact",
    "C90_multistep",
    "C90_same_run"
   ],
   "note": ""
  },
  {
   "property": "C91",
   "status": "proved",
   "theorems": [
    "C91_load",
    "C91_totals",
    "C91_bad_line"
   ],
   "note": ""
  },
  {
   "property": "C92",
   "status": "partial",
   "theorems": [
    "C92_cuda",
    "C92_opencl",
    "C92_cuda_count_refuted",
    "C92_opencl_again_refuted",
    "C92_opencl_grows",
    "C92_numbers"
   ],
   "note": "REFUTED in its last sentence: C92_cuda_count_refuted (three CUDA devices are accepted) and C92_opencl_again_refuted (a second OpenCL selection adds to the first; a failed one leaves the devices it got to). Everything else is proved: which texts are accepted and what they select (C92_cuda, C92_opencl, C92_numbers), and that OpenCL selections only ever add devices (C92_opencl_grows)."
  },
  {
   "property": "C93",
   "status": "partial",
   "theorems": [
    "C93_visible",
    "C93_empty",
    "C93_ports",
    "C93_eyes",
    "C93_box",
    "C93_axes",
    "C93_refuted",
    "C93_scale"
   ],
   "note": "REFUTED in the visibility of every body: C93_refuted (two bodies 1/10 apart, and two bodies 2000 apart, are in none of the pictures of a new view at 100%), C93_empty says when every picture is empty. Proved: when every body is visible (C93_visible), where the cameras and eyes are (C93_axes, C93_ports, C93_eyes, C93_scale), the box (C93_box). Trusted: SpecCamera.v as a description of gluLookAt and gluPerspective."
  },
  {
   "property": "C94",
   "status": "partial",
   "theorems": [
    "C94_engine",
    "C94_plain",
    "C94_block_size_refuted"
   ],
   "note": "REFUTED in its last sentence: C94_block_size_refuted (--block_size=64x makes an engine with block size 0 on every machine with a CUDA device). Everything else is proved (C94_engine, C94_plain)."
  },
  {
   "property": "C95",
   "status": "partial",
   "theorems": [
    "C95_memory",
    "C95_factory",
    "C95_command_line",
    "C95_underflow_refuted"
   ],
   "note": "REFUTED for binary64 steps whose weights underflow: C95_underflow_refuted (method of Dormand and Prince, default parameters, a step of 2^-1074: a velocity is NaN or 1 depending on the rubbish). Proved for every arithmetic where each row keeps a weight (C95_memory), and without that condition for all solvers of the factory over the reals (C95_factory, C95_command_line). Engines with a memory of their own (ah, simple_bh) are outside."
  },
  {
   "property": "C96",
   "status": "proved",
   "theorems": [
    "C96_mirror",
    "C96_planar"
   ],
   "note": "binary64 by Coq's spec_float. Engines with a memory of their own (ah, simple_bh) and clamp are outside. Relabelling bodies or axes is not exact in floating point (the order of sums changes); over the reals see C86."
  },
  {
   "property": "C97",
   "status": "partial",
   "theorems": [
    "C97_live",
    "C97_when",
    "C97_retry_refuted",
    "C97_again_refuted",
    "C97_masses_refuted",
    "C97_closed_refuted"
   ],
   "note": "REFUTED as stated: C97_retry_refuted (a read that failed on a short file, repeated when the file has grown, succeeds with shifted bytes), C97_again_refuted (the last frame read again after the recorder went on gives the next frame under the old step) C97_masses_refuted (success without masses) and C97_closed_refuted (a read after close is undefined behaviour). Proved in general: C97_live and C97_when for reads that follow a load, a seek to another frame, or a read that moved on. File number SIZE_MAX is excluded (the reader then does not open the file)."
  },
  {
   "property": "C98",
   "status": "proved",
   "theorems": [
    "C98_any_time",
    "C98_clock"
   ],
   "note": "GPU engines and the clock in floating point (see C27) are outside."
  },
  {
   "property": "C99",
   "status": "partial",
   "theorems": [
    "C99_buttons",
    "C99_jumps",
    "C99_plays",
    "C99_pause",
    "C99_all_frames",
    "C99_continue_refuted"
   ],
   "note": "REFUTED as stated: C99_continue_refuted (moving the stopped timeline and pressing Start plays from the first frame; moving it while paused and pressing Start jumps back), and C99_all_frames (some frame is never shown exactly when the stream has more than 5001 frames). Proved in general: C99_buttons, C99_jumps, C99_plays, C99_pause. Qt's animation and slider are restated in ModelControl.v; the interpolated frame is computed exactly instead of in double precision."
  },
  {
   "property": "C100",
   "status": "partial",
   "theorems": [
    "C100_test_bodies",
    "C100_field",
    "C100_nan",
    "C100_nan_openmp",
    "C100_others_refuted"
   ],
   "note": "REFUTED as stated for the engine simple: it divides the force on a body by its mass, so in binary64 the acceleration of a massless body is not a number whatever the state (C100_nan), and this spreads to the massive bodies within four steps (C100_others_refuted). Proved in exact arithmetic for the engine block, which does not divide by the mass (C100_test_bodies, C100_field). Solvers with a step control are left out: their error estimate looks at the massless bodies too. C100_nan_openmp carries C100_nan over to the engine openmp under every schedule."
  },
  {
   "property": "C101",
   "status": "partial",
   "theorems": [
    "C101_inside",
    "C101_pictures",
    "C101_frames",
    "C101_refuted"
   ],
   "note": "REFUTED as stated: the lines of a QImage begin at multiples of four bytes while the matrix is made without a step, so pictures arrive undistorted exactly for widths that are multiples of four or at most one line (C101_pictures, an equivalence; C101_refuted has a window 5 pixels wide and a frame lost because the file could not be opened). Proved in general: C101_inside (no access outside the picture), C101_frames (from the first successful opening on, every frame in order)."
  },
  {
   "property": "C102",
   "status": "partial",
   "theorems": [
    "C102_max",
    "C102_max_refuted",
    "C102_step_refuted",
    "C102_compare",
    "C102_compare_refuted"
   ],
   "note": "REFUTED as stated: C102_max_refuted (a component that is not a number behind the first goes unnoticed), C102_step_refuted (a step of Runge-Kutta-Fehlberg with default parameters from a finite state is accepted at the first level although its error estimate is not a number), C102_compare_refuted (a state without numbers has largest deviation 0). Proved in general: C102_max (exactly which components count in binary64) and C102_compare (mean and largest distance in exact arithmetic)."
  }
 ]
}