{
 "claims": [
  {
   "property": "C01",
   "status": "proved",
   "theorems": [
    "C01_respects",
    "C01_conflict_order"
   ],
   "note": "Point updates are atomic list elements; the reference order must itself respect the dependences (enough allocated steps), stated as a hypothesis."
  },
  {
   "property": "C02",
   "status": "proved",
   "theorems": [
    "C02_once_in_order_same_values",
    "C02_own_points",
    "C02_needed_points",
    "C02_equals_untiled"
   ],
   "note": "One rank, all tile sizes, depths, stages, halos, thread interleavings: each instance once (with the shrinking extension next to other ranks), conflicting instances in step order, same memory as the step-by-step run; without neighbours, same memory as the untiled run. Assumed of the stencil: writes at own point, reads within halo, no conflict inside a stage."
  },
  {
   "property": "C03",
   "status": "partial",
   "theorems": [
    "C03_blocks_partial",
    "C03_small_last_block_refuted"
   ],
   "note": "False when the last block of a mega-block is narrower than the movement of its sides (refuted with a wrong final value). Proved for all other block sizes: each once, dependence order, no conflict between concurrent blocks, all interleavings, same memory as step by step; at most 8 dims."
  },
  {
   "property": "C04",
   "status": "partial",
   "theorems": [
    "C04_split_job_partial",
    "C04_split_same_memory_partial",
    "C04_split_own_points_partial",
    "C04_split_once_partial",
    "C04_small_last_block_refuted"
   ],
   "note": "Any number of ranks with halo exchange, overlapped or not, both directions, all tile depths: the two runs leave the same values at all points and halos; one rank without neighbours: the same memory. With temporal blocking under the room condition of C03; without it false (C04_small_last_block_refuted)."
  },
  {
   "property": "C05",
   "status": "partial",
   "theorems": [
    "C05_cover",
    "C05_empty_range_refuted"
   ],
   "note": "Exact cover, non-empty, inside the parent, proved for every loop style and any nesting when begin < end. For begin = end a misaligned begin yields one empty sub-range (C05_empty_range_refuted)."
  },
  {
   "property": "C06",
   "status": "proved",
   "theorems": [
    "C06_permutation",
    "C06_grid"
   ],
   "note": "All path options, any number of dims and nested loop statements."
  },
  {
   "property": "C07",
   "status": "partial",
   "theorems": [
    "C07_aligned_partial",
    "C07_levels",
    "C07_vectors_not_split",
    "C07_refuted"
   ],
   "note": "Proved when the (capped) alignment divides the stride, which holds for every stride set by ScanIndices; false otherwise (C07_refuted)."
  },
  {
   "property": "C08",
   "status": "partial",
   "theorems": [
    "C08_nested_partial",
    "C08_flat_partial",
    "C08_aligned_partial",
    "C08_two_inverted_refuted",
    "C08_misaligned_refuted",
    "C08_manual_refuted"
   ],
   "note": "Nested unaligned loops: any empty dims. Flat unaligned loops: one empty dim. Aligned loops: only sub-ranges empty in that dim. Refuted for two inverted dims, misaligned empty range, manual distribution."
  },
  {
   "property": "C09",
   "status": "partial",
   "theorems": [
    "C09_parallel_for_partial",
    "C09_parallel_for_refuted",
    "C09_sequential_for"
   ],
   "note": "Nested-thread branch is refuted for begin <> 0 (C09_parallel_for_refuted): the sub-ranges start at 0. Proved for all other configurations."
  },
  {
   "property": "C10",
   "status": "proved",
   "theorems": [
    "C10_div_equally"
   ],
   "note": "Full property for all N >= 0, P >= 1."
  },
  {
   "property": "C11",
   "status": "proved",
   "theorems": [
    "C11_tiles",
    "C11_auto"
   ],
   "note": "setup_rank on all ranks, explicit or automatic positions and sizes; int overflow not modelled; rank grid factoring is C44."
  },
  {
   "property": "C12",
   "status": "proved",
   "theorems": [
    "C12_same_points_once"
   ],
   "note": "Any borders of the interior (none, one side, empty interior): exteriors and interior together evaluate the instances of the run without overlap, each once, same memory."
  },
  {
   "property": "C13",
   "status": "partial",
   "theorems": [
    "C13_agree",
    "C13_same_vars",
    "C13_exchange",
    "C13_auto_aligned",
    "C13_stale_refuted"
   ],
   "note": "agreement of sender and receiver, same vars on all ranks, own points untouched and owner values delivered proved for all jobs (values: when ranks of whole vectors begin at whole vectors, which automatic sizes guarantee); refuted for misaligned explicit rank sizes (stale corner value)"
  },
  {
   "property": "C14",
   "status": "partial",
   "theorems": [
    "C14_fresh_partial",
    "C14_windows_refuted",
    "C14_halo_write_refuted"
   ],
   "note": "For every history of element and slice writes and runs (with or without overlap) in which ranks write their own points and slices are written on all ranks at the same steps, every halo point holds the last value written by its owner and no rank waits in vain. Refuted: a slice written on one rank only moves the valid steps of that rank (C14_windows_refuted); a write into a rank's own halo is not refreshed (C14_halo_write_refuted)."
  },
  {
   "property": "C15",
   "status": "proved",
   "theorems": [
    "C15_handover",
    "C15_no_deadlock",
    "C15_can_finish"
   ],
   "note": "All interleavings of the single-location loads and stores of the two ranks (sequential consistency assumed), any messages."
  },
  {
   "property": "C16",
   "status": "proved",
   "theorems": [
    "C16_part",
    "C16_all_stages",
    "C16_eval"
   ],
   "note": "Every condition, domain and thread count: the search ends; boxes are disjoint and hold exactly the points where the condition holds; overall box and point count right; sharing through the cache and trimming to a range keep this."
  },
  {
   "property": "C17",
   "status": "partial",
   "theorems": [
    "C17_cover",
    "C17_position_partial",
    "C17_position_refuted"
   ],
   "note": "Every point of the micro-block computed exactly once by one thread: proved. Thread depends on position only: proved when the slab width divides 4096 + alignment offset, refuted otherwise."
  },
  {
   "property": "C18",
   "status": "proved",
   "theorems": [
    "C18_element_storage"
   ],
   "note": "Any number of dims, any layout order."
  },
  {
   "property": "C19",
   "status": "proved",
   "theorems": [
    "C19_folded_storage",
    "C19_vector_lanes",
    "C19_lanes_distinct"
   ],
   "note": "In bounds, collision-free, and lane-by-lane agreement for pads and offsets that are multiples of the vector lengths (which resize and _set_local_offset enforce)."
  },
  {
   "property": "C20",
   "status": "proved",
   "theorems": [
    "C20_layout_bijection",
    "C20_strides"
   ],
   "note": "All dimension counts, permutations and sizes >= 1; strides included."
  },
  {
   "property": "C21",
   "status": "proved",
   "theorems": [
    "C21_step_wrap"
   ],
   "note": "All integers."
  },
  {
   "property": "C22",
   "status": "partial",
   "theorems": [
    "C22_window_update",
    "C22_window_after_history",
    "C22_last_write_readable",
    "C22_valid_steps_hold_their_values",
    "C22_set_element_moves_window_refuted"
   ],
   "note": "Window updates by step evaluation proved for all histories; refuted for set_element, which does not move the window as its documentation says."
  },
  {
   "property": "C23",
   "status": "proved",
   "theorems": [
    "C23_element_access"
   ],
   "note": "Element and folded vars; set, add and get."
  },
  {
   "property": "C24",
   "status": "proved",
   "theorems": [
    "C24_get_slice",
    "C24_set_slice",
    "C24_round_trip",
    "C24_errors"
   ],
   "note": "set/get round trip, confinement and errors for arbitrary folds, orders, threads (element-wise path; the whole-vector copy used by halo exchange is not part of this claim)."
  },
  {
   "property": "C25",
   "status": "partial",
   "theorems": [
    "C25_nonstrict_set_partial",
    "C25_nonstrict_reduce_partial",
    "C25_slice_outside_refuted",
    "C25_window_moved_refuted"
   ],
   "note": "Proved when the slice meets the allocation in every dim and steps are valid; refuted for slices that miss the allocation (a boundary element is written and counted) and for steps beyond the window (the window moves)."
  },
  {
   "property": "C26",
   "status": "partial",
   "theorems": [
    "C26_reductions_partial",
    "C26_max_refuted",
    "C26_sum_squares_refuted",
    "C26_min_refuted"
   ],
   "note": "Sum, product and count exact; max/min characterised incl. their initial values; refuted: max of all-negative data, sum of squares, min without the sum bit."
  },
  {
   "property": "C27",
   "status": "proved",
   "theorems": [
    "C27_resize",
    "C27_new_var",
    "C27_any_calls",
    "C27_well_formed",
    "C27_failed_setter_refuted"
   ],
   "note": "After any successful setting calls pads, halos, offsets and alloc sizes satisfy the padding invariant. Finding: a setter whose resize throws keeps its assignment (C27_failed_setter_refuted)."
  },
  {
   "property": "C28",
   "status": "partial",
   "theorems": [
    "C28_order",
    "C28_vars",
    "C28_buffers",
    "C28_shared_buffer",
    "C28_scratch_partial",
    "C28_scratch_slot_refuted"
   ],
   "note": "Vars and message buffers (with locks) are proved disjoint, inside and aligned for all inputs, and a shared receive buffer is proved to be the send buffer of the other rank. Scratch vars: proved when all vars of a slot have the same size; refuted in general (C28_scratch_slot_refuted): the room of a slot is that of its first var."
  },
  {
   "property": "C29",
   "status": "partial",
   "theorems": [
    "C29_coherent",
    "C29_api_reads",
    "C29_run_ref_refuted",
    "C29_set_all_assert_refuted"
   ],
   "note": "State machine and all library calls but run_ref proved; refuted: run_ref modifies host data without recording it, and the assertion in mod_both always fails after setting all elements."
  },
  {
   "property": "C30",
   "status": "partial",
   "theorems": [
    "C30_closure",
    "C30_equations_partial",
    "C30_cond_refuted",
    "C30_stages_refuted"
   ],
   "note": "Closure and cycle detection are exact for the dependency graph and for the equations; refuted as stated: reads inside step conditions are ignored (C30_cond_refuted), and merging parts into stages can report a cycle for acyclic equations (C30_stages_refuted)."
  },
  {
   "property": "C31",
   "status": "partial",
   "theorems": [
    "C31_topo_sort",
    "C31_parts",
    "C31_stages_partial"
   ],
   "note": "Topological sort, parts and stages proved to be ordered after their dependencies for all inputs; what is missing is that an acyclic input is never rejected when stages are made, which is false (C30_stages_refuted)."
  },
  {
   "property": "C32",
   "status": "partial",
   "theorems": [
    "C32_accepted_partial",
    "C32_forward",
    "C32_backward_refuted",
    "C32_scratch_refuted"
   ],
   "note": "Forward direction proved; refuted for the backward direction (the code compares the step direction with -11) and for scratch equations, whose step indices are not checked."
  },
  {
   "property": "C33",
   "status": "proved",
   "theorems": [
    "C33_halos_cover"
   ],
   "note": "Every read at every domain point, directly or through chains of scratch vars of any depth, is inside the halo computed by calc_halos for the var, stage and step, for all legal equations accepted by the compiler (parts and stages as built by the model)."
  },
  {
   "property": "C34",
   "status": "partial",
   "theorems": [
    "C34_dist_partial",
    "C34_one_dim_partial",
    "C34_refuted"
   ],
   "note": "Proved for direct reads, for chains whose offsets do not cancel, and for one domain dim. Refuted in general: s(x,y)=u(x+1,y), u=s(x-1,y)+s(x,y-1) reads u diagonally but the recorded distance is 1."
  },
  {
   "property": "C35",
   "status": "partial",
   "theorems": [
    "C35_kept_partial",
    "C35_two_stages_refuted",
    "C35_written_back_refuted"
   ],
   "note": "No value is lost in any evaluation in step and stage order for reads that meet explicit conditions (safe_read). Refuted in general: a var read at t in a later stage than the one writing t+1 (C35_two_stages_refuted), and a written-back var read by another equation (C35_written_back_refuted). Temporal tiling is not covered."
  },
  {
   "property": "C36",
   "status": "partial",
   "theorems": [
    "C36_refuted",
    "C36_overrides_ignored",
    "C36_computed_partial"
   ],
   "note": "Refuted: the computed size is stored after the overrides, so set_step_alloc_size has no effect at all; it is honoured exactly if it equals the computed size."
  },
  {
   "property": "C37",
   "status": "partial",
   "theorems": [
    "C37_slots",
    "C37_stage_partial",
    "C37_shared_part_refuted"
   ],
   "note": "Two scratch vars sharing a slot are never in use at the same time in stage order: proved. Stage evaluation with shared slots equals evaluation with private slots when no scratch part is needed by two parts of a stage; refuted otherwise (C37_shared_part_refuted)."
  },
  {
   "property": "C38",
   "status": "partial",
   "theorems": [
    "C38_build",
    "C38_combine",
    "C38_reorder",
    "C38_cse_partial",
    "C38_cse_refuted"
   ],
   "note": "Building, combination and reordering keep values; CSE keeps values if negation and subtraction do not both occur; with both it does not (refuted: NegExpr::is_same accepts a SubExpr)."
  },
  {
   "property": "C39",
   "status": "proved",
   "theorems": [
    "C39_offset",
    "C39_const",
    "C39_replaced",
    "C39_replaced_again"
   ],
   "note": "is_offset_from, is_const_val and get_int_val on all expression trees, any rounding that keeps integers; the expression put in place has the same value."
  },
  {
   "property": "C40",
   "status": "proved",
   "theorems": [
    "C40_read",
    "C40_unaligned_load"
   ],
   "note": "All kinds of reads (full, partial, scalar; simple, AVX2 and AVX-512 constructions; plain unaligned load): each lane holds the element of its own point, for every fold, point and order of the aligned vectors."
  },
  {
   "property": "C41",
   "status": "partial",
   "theorems": [
    "C41_one_erase_partial",
    "C41_back_erases_partial",
    "C41_erase_twice_refuted",
    "C41_remove_part_refuted"
   ],
   "note": "Proved for histories in which every erase but the last removes the newest element; refuted otherwise: erase leaves stale positions, so a second erase is undefined behaviour (C41_erase_twice_refuted), reachable from the compiler trial-adding a part with two equations (C41_remove_part_refuted)."
  },
  {
   "property": "C42",
   "status": "partial",
   "theorems": [
    "C42_layout",
    "C42_indices_visit",
    "C42_tuple_visit_partial",
    "C42_tuple_visit_refuted"
   ],
   "note": "Proved for the kernel Indices version (zero sizes included) and for Tuple with sizes >= 1; the Tuple version is refuted for zero sizes (visits one point of an empty box)."
  },
  {
   "property": "C43",
   "status": "proved",
   "theorems": [
    "C43_tuple_order"
   ],
   "note": "Full property, with the derived operators."
  },
  {
   "property": "C44",
   "status": "partial",
   "theorems": [
    "C44_factors_partial",
    "C44_preset_changed_refuted",
    "C44_one_refuted"
   ],
   "note": "Product and most-compact choice proved when no preset factors conflict; refuted: preset factors are changed when they do not divide the total, and a total of one with preset."
  },
  {
   "property": "C45",
   "status": "partial",
   "theorems": [
    "C45_enumeration_partial",
    "C45_coefficient",
    "C45_work_array_refuted",
    "C45_overflow_refuted"
   ],
   "note": "Enumeration is a bijection for n <= 29 items and k <= 8; refuted outside: work array of fixed size 8 overflows, 32-bit coefficient overflows."
  },
  {
   "property": "C46",
   "status": "partial",
   "theorems": [
    "C46_exact_on_polynomials",
    "C46_center",
    "C46_forward",
    "C46_backward",
    "C46_errors",
    "C46_few_points_refuted"
   ],
   "note": "Exactness on polynomials proved for all orders and distinct points when there are at least order+1 points (in exact rational arithmetic); refuted below that: the work array is read out of bounds."
  },
  {
   "property": "C47",
   "status": "partial",
   "theorems": [
    "C47_round_trip_partial",
    "C47_exact",
    "C47_remainder_partial",
    "C47_round_trip_refuted"
   ],
   "note": "Round trip proved exactly for the arguments that are non-empty, hold no quote characters and whose white space includes a blank, tab, CR or LF (condition shown necessary and sufficient); refuted otherwise: the helper puts the wrong kind of quotes around text containing quotes."
  },
  {
   "property": "C48",
   "status": "proved",
   "theorems": [
    "C48_parse",
    "C48_accepts",
    "C48_last_wins",
    "C48_int_value_refuted"
   ],
   "note": "All option sets and token sequences; the converse needs that no token belongs to two options. Also found: int options silently truncate 64-bit numbers (C48_int_value_refuted)."
  },
  {
   "property": "C49",
   "status": "proved",
   "theorems": [
    "C49_elapsed",
    "C49_get_anywhere",
    "C49_stop_value",
    "C49_queries_harmless"
   ],
   "note": "All histories of start/stop/get/since/clear in which stop follows start; exact nanoseconds instead of rounded doubles."
  },
  {
   "property": "C50",
   "status": "proved",
   "theorems": [
    "C50_stops",
    "C50_legal",
    "C50_call_back",
    "C50_zero_time_refuted"
   ],
   "note": "All measurement sequences with at least one step and a positive time between call-backs: no error, sizes legal, none tried twice, best one applied, done after a bound that depends on the settings only. With zero measured times the first target ends in a null dereference (C50_zero_time_refuted)."
  },
  {
   "property": "C51",
   "status": "proved",
   "theorems": [
    "C51_nested",
    "C51_aligned",
    "C51_again",
    "C51_counts",
    "C51_slabs",
    "C51_tiling_conditions",
    "C51_one_dim_share_refuted",
    "C51_loop_tiles_refuted"
   ],
   "note": "All six nesting levels, any sizes given; every size fits the enclosing one, whole folds or all of the rank; adjusting again changes nothing; 64-bit overflow not modelled. Findings: one-dim slab default uses the size in the step dim; tile sizes inside generated loops stay 0 because USE_TILING is never defined."
  },
  {
   "property": "C52",
   "status": "proved",
   "theorems": [
    "C52_budget",
    "C52_configured"
   ],
   "note": "All integer settings."
  },
  {
   "property": "C53",
   "status": "partial",
   "theorems": [
    "C53_spans_partial",
    "C53_one_writer_partial",
    "C53_refuted"
   ],
   "note": "False in general: scratch parts that write the same scratch var under different conditions are handled one by one, so the span of the first grows after its reads have been recorded. Proved for all solutions in which parts that share a scratch var write the same vars (in particular when every scratch var has one equation): every read of every equation of a needed scratch part, at every point of its span, is inside the halo of the var read."
  },
  {
   "property": "C54",
   "status": "partial",
   "theorems": [
    "C54_as_if_prepared_partial",
    "C54_same_results_partial",
    "C54_mega_refuted"
   ],
   "note": "False when mega-blocks are among the targets: the wave-front angle stays that of the old sizes (refuted with a wrong final value). Proved for all other targets: parameters as if freshly prepared, same instances, same memory; with temporal blocking under the room condition of C03."
  },
  {
   "property": "C55",
   "status": "partial",
   "theorems": [
    "C55_passes_do_not_fail",
    "C55_passes_are_the_run",
    "C55_job_gives_reference_partial",
    "C55_rank_count_irrelevant_partial",
    "C55_set_up",
    "C55_messages",
    "C55_set_up_job_partial",
    "C55_set_up_jobs_agree_partial",
    "C55_flag_exchange",
    "C55_flag_job_partial",
    "C55_flag_jobs_agree_partial"
   ],
   "note": "Passes, overlapped exterior/interior, halo exchange between passes, dirty flags; the job equals the step-by-step run over the whole domain, for any ranks and settings. Shown for exchanges that deliver the packed values of the owner, for the job as the code sets it up (ranks of setup_rank, messages of C13, interiors of alloc_mpi_data), and with the flags set by the calls and choosing the messages (nothing left to assume of the exchange; whole-vector ranks must be aligned, C13). With temporal blocking under the room condition of C03."
  },
  {
   "property": "C56",
   "status": "proved",
   "theorems": [
    "C56_nano_block_exactly_once"
   ],
   "note": "All ranges, offsets, folds up to 63 points, up to 8 dims (with 9 n_choose_k_set leaves its work array). Stencil arithmetic left out: the result is the list of vectors with masks."
  },
  {
   "property": "C57",
   "status": "proved",
   "theorems": [
    "C57_range_exactly_once",
    "C57_stage_parts_once",
    "C57_scratch_init"
   ],
   "note": "All ranges, sub-domains, numbers of inner threads with or without binding, folds up to 63 points, up to 8 dims. Stencil arithmetic left out: the result is a log of initialisations and writes. That the required parts are listed with what they need first is taken from the compiler (C31)."
  },
  {
   "property": "C58",
   "status": "proved",
   "theorems": [
    "C58_loop",
    "C58_settings_agree"
   ],
   "note": "Generator and generated code are both modelled; the equality is between running the generated code and a plain loop over memory. That parts meet the two conditions on reads and writes is C30/C31 (dependences inside a part) and C35 (no slot shared by points read at offsets)."
  },
  {
   "property": "C59",
   "status": "proved",
   "theorems": [
    "C59_vector_position",
    "C59_base_pointer",
    "C59_base_pointer_refuted"
   ],
   "note": "Positions in the storage of Var_Model for all pointer settings. Finding: the base pointers of relocated scratch vars, and of folded vars with the safe-pointer setting, lie outside of the storage although the addresses computed from them are right."
  },
  {
   "property": "C60",
   "status": "partial",
   "theorems": [
    "C60_unaligned_load_partial",
    "C60_unaligned_load_refuted"
   ],
   "note": "False: the compiler stops at an assertion for every unaligned load, and without assertions the vector index is used as the global element index. What is left is the case where both are the same number. The load itself, given the right index, is C40_unaligned_load."
  },
  {
   "property": "C61",
   "status": "partial",
   "theorems": [
    "C61_printed_value_partial",
    "C61_pairing_partial",
    "C61_compiled_value_partial",
    "C61_pairing_refuted",
    "C61_division_refuted",
    "C61_negation_refuted",
    "C61_overflow_refuted",
    "C61_index_refuted"
   ],
   "note": "Proved for every graph of printable expressions, and for the code after common-sub-expression elimination and pairing of functions; the refutations show that the excluded cases (quotients of integer constants, repeated negation, large integer products, domain indices, negation together with subtraction) really fail. Not covered: index variables and modulo on the right-hand side in general."
  },
  {
   "property": "C62",
   "status": "partial",
   "theorems": [
    "C62_constants_partial",
    "C62_read_back_partial",
    "C62_precision_refuted",
    "C62_power_refuted",
    "C62_range_refuted"
   ],
   "note": "Proved: 16 correct digits below 2^31, hence the same double for constants that were written with at most 16 digits (powers of two aside). False in general: three witnesses. Assumes correctly rounded conversions by the C++ library and compiler, and doubles without exponent limits."
  },
  {
   "property": "C63",
   "status": "partial",
   "theorems": [
    "C63_layout_identical",
    "C63_fuse_user_partial",
    "C63_alias_partial",
    "C63_halos_partial",
    "C63_fixed_size_partial",
    "C63_check_refuted",
    "C63_halos_refuted",
    "C63_exchange_refuted",
    "C63_fixed_size_refuted",
    "C63_alias_refuted"
   ],
   "note": "False for a var of the solution that is merged with a var of the user (wrong way round test of is_user_var): nothing is checked, its halos are not counted and not exchanged. Proved: the comparison of layouts, merging into a var of the user, that merged vars stay one var, and sizes and halos after calls that merge no user var into the solution."
  },
  {
   "property": "C64",
   "status": "partial",
   "theorems": [
    "C64_domain_partial",
    "C64_step_partial",
    "C64_modulo_refuted",
    "C64_division_refuted",
    "C64_precision_refuted",
    "C64_negation_refuted",
    "C64_overflow_refuted",
    "C64_range_refuted",
    "C64_modulo_real_refuted"
   ],
   "note": "Proved for all conditions of comparisons, and, or, not over sums, differences, products, negations and modulo of indices, first/last indices and constants within the stated ranges; each refutation shows what happens outside one of the ranges. Var reads in conditions are not covered."
  },
  {
   "property": "C65",
   "status": "partial",
   "theorems": [
    "C65_scratch_values_exist",
    "C65_required_parts",
    "C65_micro_blocks_compute_the_stage",
    "C65_reference_computes_the_stage",
    "C65_same_as_reference_run",
    "C65_scratch_left_uninitialised_refuted"
   ],
   "note": "False with the default of the option -init_scratch_vars (off): where no condition applies, a micro-block reads what was in the scratch var before. Proved for all stencils, conditions, cuts and numbers of steps with the option on or without conditions on scratch parts, for one rank and micro-blocks one after the other (no temporal blocking), given what C37, C53 and the dependency checker provide (spans wide enough, writers required and before readers, at most one equation of a scratch var applies at a point)."
  },
  {
   "property": "C66",
   "status": "proved",
   "theorems": [
    "C66_each_result_compared_once",
    "C66_passed_iff_all_accepted",
    "C66_other_sizes_do_not_pass",
    "C66_other_number_of_vars_does_not_pass",
    "C66_accepted_is_close",
    "C66_close_is_accepted"
   ],
   "note": "Comparison of a var, of all output vars, and the tolerance for any monotone, symmetric rounding that keeps the numbers of the type. NaN is never accepted, not even where the reference is NaN too, and elements outside the domain are not compared (as the code says)."
  },
  {
   "property": "C67",
   "status": "partial",
   "theorems": [
    "C67_dims_found",
    "C67_accepted_iff",
    "C67_inner_loop",
    "C67_fold_sizes",
    "C67_request_kept",
    "C67_plain_fold",
    "C67_layout",
    "C67_foldable",
    "C67_all_legal_accepted_refuted",
    "C67_one_kind_refuted"
   ],
   "note": "All parts proved, except that two are false of the code: C67_all_legal_accepted_refuted (with one-dim folding, a solution whose inner-loop dim is the last domain dim but one is rejected with an internal fault unless the sizes asked for give the vector length; C67_accepted_iff shows that this is the only such case) and C67_one_kind_refuted (a name can be a step and a domain dim). Evenness (C67_request_kept) is about the dims other than the inner-loop dim, which is what the code aims at."
  },
  {
   "property": "C68",
   "status": "proved",
   "theorems": [
    "C68_stages_meet_the_conditions",
    "C68_runs_apply_the_equations",
    "C68_equations_leave_no_choice",
    "C68_computed_sizes_leave_room"
   ],
   "note": "Discharges the hypotheses of C65 from the models of the compiler (C37, C53 and the equation and part analyses). Stated conditions: option -init_scratch_vars on or no conditions on scratch vars (C65 shows that it fails otherwise), parts that share a scratch var write the same vars (C53 shows that it fails otherwise), equations of one var exclude each other, enough steps kept (C68_computed_sizes_leave_room: the number of steps that the compiler computes is enough for the stated kinds of reads), no misc dims; one rank, micro-blocks one after the other (no temporal blocking), exact right-hand sides (a function of the values read)."
  },
  {
   "property": "C69",
   "status": "partial",
   "theorems": [
    "C69_stage",
    "C69_steps",
    "C69_writes_partial",
    "C69_step_condition_refuted",
    "C69_scratch_refuted",
    "C69_overlap_refuted",
    "C69_reference_run_refuted"
   ],
   "note": "Proved: points of every part and required scratch part, sums over stages and ranks, steps of any sequence of runs. Refuted: work of parts with a step condition is counted in every step (the counter per stage ignores the condition, against the comment in run_solution), writes of scratch vars are counted as writes of output vars, points in the overlap of ranks are counted twice with wave-fronts, and steps of the reference run are counted as steps of run_solution() but without work."
  },
  {
   "property": "C70",
   "status": "proved",
   "theorems": [
    "C70_ranks_agree",
    "C70_runs_made",
    "C70_calibration",
    "C70_steps_chosen",
    "C70_best",
    "C70_printed_rank",
    "C70_median",
    "C70_throughput",
    "C70_unchecked_warmup_refuted",
    "C70_nearest_rank_refuted",
    "C70_two_trials_refuted",
    "C70_zero_throughput_refuted"
   ],
   "note": "Times are whole nanoseconds and rates exact (no rounding of double); runs and the auto-tuner are oracles. The ranks must agree on whether to warm up and whether a trial time is wanted, which the code does not compare (C70_unchecked_warmup_refuted). Chosen steps in the range of int. The order of trials with equal times is that of a stable sort. The report is wrong for the percentile of an even number of trials, the deviation of two trials and the minimum if a trial has no throughput (three theorems _refuted)."
  },
  {
   "property": "C71",
   "status": "partial",
   "theorems": [
    "C71_created",
    "C71_rejected_partial",
    "C71_repeated_dims_refuted",
    "C71_failed_call_refuted"
   ],
   "note": "Valid requests (no repeated dim, no negative size): proved. Rejection: proved for lists of dims without repetition; with a repeated dim it is false (C71_repeated_dims_refuted), and a rejected request can leave new misc dims behind (C71_failed_call_refuted). Only the sizes of the new var are followed; local offsets and device copies are left out; idx_t is unbounded."
  },
  {
   "property": "C72",
   "status": "partial",
   "theorems": [
    "C72_same_vars",
    "C72_calls_agree_partial",
    "C72_one_node_partial",
    "C72_calls_iff",
    "C72_one_sided_refuted",
    "C72_spread_refuted"
   ],
   "note": "Proved: which vars have buffers, the same on all ranks; exactly when two ranks make the same calls (C72_calls_iff); hence the same sequence of collective calls for ranks that exchange some var with a rank next to them on the node, and for all ranks if all are on one node, with halos on both sides or none. Without these conditions it is false (C72_one_sided_refuted, C72_spread_refuted). Sizes in elements; only calls on the communicator of the node during the allocation of buffers are followed; option use_shm on."
  },
  {
   "property": "C73",
   "status": "proved",
   "theorems": [
    "C73_same_buffer",
    "C73_inside",
    "C73_apart"
   ],
   "note": "Assumes that ranks have different numbers on the node and that the size of a rank in a dim depends on its position in this dim only (C11); bytes are not bounded; the exchange of the table rows is that of C72."
  }
 ]
}