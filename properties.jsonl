{"id": "C01", "title": "Any dependence-respecting schedule gives the reference result", "statement": "If every grid point of every step of every stage is computed exactly once, and each computation happens after the points it reads have been written and before any storage slot it reads is reused for a later step, then the values left in all vars equal the values that the plain step-by-step reference run leaves, whatever the order in which the points were computed.", "quantifier": "all stencils (arbitrary read footprints and update functions), all initial data, all schedules (orders) of point updates that respect the dependences, all step-allocation sizes", "why_tests_cant": "The number of legal interleavings of point updates is astronomical; a test run exercises one schedule chosen by the OpenMP runtime on one grid size.", "anchors": ["src/kernel/lib/context.cpp:StencilContext::run_solution", "src/kernel/lib/context.cpp:StencilContext::run_ref", "src/kernel/lib/yk_var.hpp:YkVarBaseCore::_wrap_step"]}
{"id": "C02", "title": "Wave-front tiling does not change results", "statement": "Running a range of steps with temporal wave-front tiles (mega-blocks of any size, any number of steps per tile, any number of stages) visits every (step, stage, point) of the domain exactly once and never reads a point before it has been produced nor after its slot has been overwritten, so results equal those of the run without temporal tiling.", "quantifier": "all domain sizes, mega-block sizes, numbers of steps per tile, numbers of stages, halo widths not exceeding the tiling angle", "why_tests_cant": "The failure would appear only at particular combinations of remainder tiles, shifts and angles; the parameter space is unbounded and a race may produce the right value by luck.", "anchors": ["src/kernel/lib/context.cpp:StencilContext::run_solution", "src/kernel/lib/context.cpp:StencilContext::calc_mega_block", "src/kernel/lib/context.cpp:StencilContext::shift_mega_block", "src/kernel/lib/setup.cpp:StencilContext::update_var_info"]}
{"id": "C03", "title": "Concurrent temporal blocking does not change results", "statement": "With temporal blocking enabled inside a mega-block, the phases (trapezoids, then the bridges that fill the gaps) cover every (step, stage, point) exactly once, every value is produced in an earlier phase or earlier in the same block before it is read, and blocks that run concurrently in one phase never read or overwrite what another block of the same phase writes.", "quantifier": "all mega-block and block sizes (including remainder blocks), all temporal depths accepted by the settings code, all angles, all thread interleavings of blocks within a phase", "why_tests_cant": "A violated dependence between two concurrent blocks only shows under unlucky timing, for particular remainder sizes.", "anchors": ["src/kernel/lib/context.cpp:StencilContext::calc_mega_block", "src/kernel/lib/context.cpp:StencilContext::calc_block", "src/kernel/lib/context.cpp:StencilContext::shift_micro_block", "src/kernel/lib/setup.cpp:StencilContext::update_tb_info"]}
{"id": "C04", "title": "Splitting a run into several calls is equivalent to one call", "statement": "run_solution(a, c) leaves the same state as run_solution(a, b) followed by run_solution(b+1, c) (and symmetrically for decreasing step indices): every step index between the first and last, inclusive, is evaluated exactly once and in order.", "quantifier": "all first/last step indices, both step directions, all temporal tile depths", "why_tests_cant": "Off-by-one errors in the step loop depend on the relation between the number of steps and the tile depth; tests pick a few pairs.", "anchors": ["src/kernel/lib/context.cpp:StencilContext::run_solution", "include/aux/yk_solution_api.hpp:run_solution"]}
{"id": "C05", "title": "Every tiling level covers its parent range exactly once", "statement": "At each tiling level (mega-block, block, micro-block, nano-block, pico-block) the sub-ranges handed to the next level are pairwise disjoint, lie inside the parent range, are non-empty, and their union is the whole parent range, in any number of dimensions.", "quantifier": "all begin/end ranges with begin <= end, all strides >= 1, alignments and alignment offsets, any number of dimensions", "why_tests_cant": "Coverage bugs only appear at specific remainders of (begin, end, stride, align); exhaustive testing over 64-bit ranges is impossible.", "anchors": ["utils/bin/gen_loops.pl", "src/kernel/lib/indices.hpp:ScanIndices"]}
{"id": "C06", "title": "Loop traversal order options are permutations of the iteration space", "statement": "Choosing tiled, serpentine or square-wave traversal for a loop visits exactly the same set of sub-ranges as the plain nested order, each exactly once.", "quantifier": "all iteration counts per dimension, all tile sizes (including partial tiles), all numbers of dimensions handled by the path modifier", "why_tests_cant": "The index transforms use nested division/modulo with partial tiles; a missed or doubled index appears only for particular size combinations.", "anchors": ["utils/bin/gen_loops.pl"]}
{"id": "C07", "title": "Sub-tile boundaries respect the requested alignment", "statement": "Every sub-range boundary strictly inside the parent range is congruent to the alignment offset modulo the requested alignment (capped by the stride), so vector-cluster boundaries are never split between two tiles.", "quantifier": "all begin/end ranges, strides, alignments and offsets, negative indices included", "why_tests_cant": "Alignment of negative or offset indices depends on floor-division behaviour over the whole integer range.", "anchors": ["utils/bin/gen_loops.pl", "src/kernel/lib/indices.hpp:ScanIndices::create_inner", "src/common/idiv.hpp"]}
{"id": "C08", "title": "Scanning an empty region executes nothing", "statement": "If a region is empty in some dimension (its end does not exceed its begin) no sub-range is processed and no arithmetic fault occurs, in every loop style that can be generated.", "quantifier": "all begin/end pairs with end <= begin in at least one dimension, including several dimensions at once", "why_tests_cant": "Inverted ranges arise only from trimming at particular sizes; two simultaneously inverted dimensions are never tested.", "anchors": ["utils/bin/gen_loops.pl"]}
{"id": "C09", "title": "Parallel loops execute every iteration exactly once", "statement": "The library's parallel-for helper calls the user function on consecutive sub-ranges that partition [begin, end) exactly, for every stride and every thread/nesting configuration.", "quantifier": "all begin, end, stride, outer and inner thread counts, all nesting settings", "why_tests_cant": "Depends on the thread configuration of the machine; nested mode with non-zero begin is not exercised by unit tests.", "anchors": ["src/common/common_utils.hpp:yask_parallel_for", "src/common/common_utils.hpp:yask_for"]}
{"id": "C10", "title": "Work division among threads is complete and balanced", "statement": "Dividing N items among P workers gives consecutive, disjoint shares that cover all N items, and share sizes differ by at most one.", "quantifier": "all item counts N >= 0, all worker counts P >= 1", "why_tests_cant": "Unbounded parameter space.", "anchors": ["src/common/common_utils.hpp:div_equally_size_n", "src/common/common_utils.hpp:div_equally_cumu_size_n", "src/common/common_utils.hpp:div_equally_all_sizes"]}
{"id": "C11", "title": "Rank domains tile the global domain", "statement": "After prepare_solution() the rank domains (first..last rank-domain index) of all ranks are non-empty, pairwise disjoint and their union is the overall domain; or an exception is raised.", "quantifier": "all overall sizes, rank grids, fold lengths, explicit or automatic per-rank sizes", "why_tests_cant": "Needs every rank count and size combination; tests run a handful of MPI ranks.", "anchors": ["src/kernel/lib/setup.cpp:StencilContext::setup_rank"]}
{"id": "C12", "title": "Communication overlap does not drop or repeat points", "statement": "With overlapped halo exchange, the exterior sections followed by the interior section update exactly the points of the rank domain that the non-overlapped run updates, each exactly once.", "quantifier": "all rank domains, exterior widths (including widths that leave no interior), all sets of dimensions with neighbours", "why_tests_cant": "Corner double-counting or gaps appear only at special size relations in several dimensions at once.", "anchors": ["src/kernel/lib/context.cpp:StencilContext::run_solution", "src/kernel/lib/context.cpp:StencilContext::shift_mega_block", "src/kernel/lib/alloc.cpp:StencilContext::alloc_mpi_data"]}
{"id": "C13", "title": "Sender and receiver of a halo message agree on its contents", "statement": "For each pair of neighbouring ranks and each exchanged var, the set and order of global grid points packed by the sender equals the set and order unpacked by the receiver, so after a complete exchange every halo element equals the value owned by the neighbour.", "quantifier": "all rank grids and rank sizes, halo widths per side, neighbour directions in any number of dimensions, all var contents", "why_tests_cant": "An off-by-one in one side's buffer bounds only shows for asymmetric halos and particular neighbour directions; needs multi-rank runs at every size.", "anchors": ["src/kernel/lib/alloc.cpp:StencilContext::alloc_mpi_data", "src/kernel/lib/halo.cpp:StencilContext::exchange_halos", "src/kernel/lib/settings.cpp:MPIBuf::set_storage"]}
{"id": "C14", "title": "Dirty tracking never skips a needed halo exchange", "statement": "Whenever a rank reads a halo element after exchange_halos(), the value is the most recent one written by the owner, for every history of runs, element writes and exchanges: a var/step is only skipped if no rank wrote it since the last exchange.", "quantifier": "all histories of writes, run steps and exchanges on all ranks", "why_tests_cant": "Stale-halo bugs depend on the history of writes and exchanges; any finite test covers a few histories.", "anchors": ["src/kernel/lib/halo.cpp:StencilContext::exchange_halos", "src/kernel/lib/yk_var.cpp:YkVarBase::set_dirty", "src/kernel/lib/context.cpp:StencilContext::update_var_info"]}
{"id": "C15", "title": "Shared-memory halo buffers are handed over safely", "statement": "With direct shared-memory exchange, the producer never overwrites a buffer before the consumer has finished reading it, the consumer never reads a buffer before it has been filled, and each filled buffer is consumed exactly once, in order.", "quantifier": "all interleavings of producer and consumer operations, any number of exchanges", "why_tests_cant": "Race conditions: tests see only a few interleavings.", "anchors": ["src/kernel/lib/utils.hpp:SimpleLock", "src/kernel/lib/halo.cpp:StencilContext::exchange_halos"]}
{"id": "C16", "title": "Sub-domain boxes represent the sub-domain exactly", "statement": "For an equation with a domain condition, the list of full boxes on which it is evaluated consists of pairwise disjoint boxes containing exactly the points of the rank domain where the condition holds, independent of the number of threads used to find them.", "quantifier": "all conditions (arbitrary predicates on indices), all domain sizes, all thread counts", "why_tests_cant": "The condition is arbitrary code; number of point sets is exponential in the domain size.", "anchors": ["src/kernel/lib/setup.cpp:StencilPartBase::find_bounding_boxes", "src/kernel/lib/setup.cpp:StencilContext::find_bounding_boxes"]}
{"id": "C17", "title": "Bound threads compute every slab exactly once", "statement": "When blocks are bound to threads, every nano-block is computed by exactly one thread and the thread chosen depends only on the position, not on the tile that contains it.", "quantifier": "all positions (negative included), slab widths, thread counts", "why_tests_cant": "Depends on thread count and on negative positions.", "anchors": ["src/kernel/lib/stencil_calc.cpp:StencilPartBase::calc_micro_block"]}
{"id": "C18", "title": "Element storage is in bounds and collision-free", "statement": "For a var without folding, each tuple of valid indices (step, domain with padding, misc) maps to one location inside the allocated storage, and two tuples map to the same location only if they agree in all non-step indices and their step indices are congruent modulo the step allocation.", "quantifier": "all allocation sizes, paddings, offsets, index tuples in range, any number of dimensions, any layout order", "why_tests_cant": "Unbounded sizes and any number of dimensions.", "anchors": ["src/kernel/lib/yk_var.hpp:YkElemVarCore", "src/kernel/lib/indices.hpp:Layout", "utils/bin/gen_layouts.pl"]}
{"id": "C19", "title": "Folded storage agrees with element access", "statement": "For a vector-folded var, element access is in bounds and collision-free, and the vector read at a fold-aligned index contains, lane by lane, exactly the elements returned by element access at the corresponding indices.", "quantifier": "all fold shapes, paddings, offsets and indices, any number of dimensions", "why_tests_cant": "Every combination of fold lengths, offsets and negative indices.", "anchors": ["src/kernel/lib/yk_var.hpp:YkVecVarCore::get_elem_ptr", "src/kernel/lib/yk_var.hpp:YkVecVarCore::get_vec_ptr_norm"]}
{"id": "C20", "title": "Multi-dimensional linearisation is a bijection", "statement": "For every permutation of dimensions the generated layout maps index tuples one-to-one onto 0..size-1, its inverse recovers the tuple, and moving by one in a dimension moves the linear index by that dimension's reported stride.", "quantifier": "all dimension counts, all dimension orders, all sizes >= 1", "why_tests_cant": "Unbounded sizes; 720 permutations for six dimensions.", "anchors": ["utils/bin/gen_layouts.pl", "src/kernel/lib/indices.hpp:Layout", "src/kernel/lib/generic_var.hpp"]}
{"id": "C21", "title": "Step indices wrap correctly, also for negative steps", "statement": "A var with n steps of storage keeps any n consecutive step indices in distinct slots, and step t shares its slot exactly with t + k*n, for negative, zero and positive t.", "quantifier": "all step indices t (including negative), all allocations n >= 1", "why_tests_cant": "Needs all integers, including negative dividends where C++ % truncates.", "anchors": ["src/common/idiv.hpp:imod_flr", "src/kernel/lib/yk_var.hpp:YkVarBaseCore::_wrap_step"]}
{"id": "C22", "title": "Valid-step window tracks writes", "statement": "After any sequence of writes the window of valid step indices has exactly the allocated length, contains the step last written, and moves only as far as needed, so a value written at a step inside the window and not overwritten by a step sharing its slot is still readable.", "quantifier": "all histories of step writes, all allocation sizes", "why_tests_cant": "Depends on histories of writes with increasing and decreasing steps.", "anchors": ["src/kernel/lib/yk_var.cpp:YkVarBase::update_valid_step", "src/kernel/lib/yk_var_apis.cpp:set_element", "src/kernel/lib/yk_var.cpp:YkVarBase::check_indices"]}
{"id": "C23", "title": "Writing an element affects that element only", "statement": "set_element(v, i) followed by get_element(i) returns v; get_element at any other valid index that does not share storage is unchanged; with strict_indices false and an invalid non-step index nothing changes and 0 is returned; with strict_indices true an exception is raised.", "quantifier": "all vars, all indices (valid or not), all values, all prior contents", "why_tests_cant": "Aliasing of two elements can only be excluded by considering all pairs of indices.", "anchors": ["src/kernel/lib/yk_var_apis.cpp:set_element", "src/kernel/lib/yk_var_apis.cpp:get_element", "src/kernel/lib/yk_var_apis.cpp:add_to_element"]}
{"id": "C24", "title": "Slice writes and reads are inverse and confined", "statement": "set_elements_in_slice(buf, first, last) followed by get_elements_in_slice(first, last) returns buf in the same row-major order; elements outside the slice are unchanged; the number of elements reported equals the size of the slice; the vectorised fast path and the element-wise path give the same result.", "quantifier": "all slices within the allocation, all buffers, all var shapes and foldings", "why_tests_cant": "Slices can start and end inside a vector fold in every dimension; combinations are unbounded.", "anchors": ["src/kernel/lib/yk_var.hpp:_visit_elements_in_slice", "src/kernel/lib/yk_var.hpp:set_elements_in_slice", "src/kernel/lib/yk_var.hpp:get_elements_in_slice"]}
{"id": "C25", "title": "Non-strict slice operations ignore elements outside the allocation", "statement": "With strict_indices false, set_elements_in_slice_same and reduce_elements_in_slice touch exactly the elements of the slice that lie inside the local allocation: the count returned is the size of the intersection and nothing else is modified.", "quantifier": "all first/last indices, including slices partly or wholly outside the allocation", "why_tests_cant": "Slices that miss the local allocation entirely occur only on some ranks.", "anchors": ["src/kernel/lib/yk_var.cpp:YkVarBase::check_indices", "src/kernel/lib/yk_var.hpp:set_elements_in_slice_same", "include/aux/yk_var_api.hpp:set_elements_in_slice_same"]}
{"id": "C26", "title": "Reductions return the documented value", "statement": "reduce_elements_in_slice returns the sum, sum of squares, product, maximum and minimum of the values of the elements in the slice (0, 0, 1, lowest double, highest double when there are none), independent of how elements are divided among threads.", "quantifier": "all slices and contents (including all-negative data), all thread counts, all masks", "why_tests_cant": "Wrong identity elements only show for special data (all-negative); wrong joins only show with several threads.", "anchors": ["src/kernel/lib/yk_var.hpp:red_res", "src/kernel/lib/yk_var.hpp:reduce_elements_in_slice", "include/aux/yk_var_api.hpp:yk_reduction_result"]}
{"id": "C27", "title": "Allocated padding covers the halo and keeps vectors aligned", "statement": "Whenever storage sizes are (re)computed, the left and right paddings are at least the halo plus wave-front extension and any requested minimum, the allocation is a whole number of vectors, and the first domain element is vector-aligned.", "quantifier": "all domain sizes, halos, minimum pads, fold lengths, extension sizes", "why_tests_cant": "Rounding interacts with all sizes; buffer overruns only at special remainders.", "anchors": ["src/kernel/lib/yk_var.cpp:YkVarBase::resize"]}
{"id": "C28", "title": "Storage of different vars never overlaps", "statement": "After allocation the byte ranges given to the vars (and to the message buffers) placed in one memory chunk are pairwise disjoint, inside the chunk, and start at cache-line aligned offsets.", "quantifier": "all numbers of vars, sizes, NUMA preferences", "why_tests_cant": "All combinations of sizes.", "anchors": ["src/kernel/lib/alloc.cpp:StencilContext::alloc_var_data", "src/kernel/lib/alloc.cpp:StencilContext::alloc_mpi_data"]}
{"id": "C29", "title": "Host/device copies never lose an update", "statement": "For every sequence of host writes, device writes and copies that raises no exception, a copy never overwrites newer data, and whenever neither side is reported as needing an update both copies hold the most recent data.", "quantifier": "all sequences of coherency events", "why_tests_cant": "Unbounded event histories.", "anchors": ["src/kernel/lib/offload.hpp:Coherency"]}
{"id": "C30", "title": "Cyclic equation dependencies are detected exactly", "statement": "The compiler reports a circular dependency if and only if the user's equations are cyclic; otherwise the computed dependency relation is exactly the transitive closure of the direct dependencies.", "quantifier": "all finite dependency graphs", "why_tests_cant": "Number of graphs is super-exponential.", "anchors": ["src/compiler/lib/Eqs.hpp:Deps::_dfs_visit_deps", "src/compiler/lib/Eqs.hpp:Deps::find_all_deps"]}
{"id": "C31", "title": "Equations are ordered after their dependencies", "statement": "The order in which equations, parts and stages are emitted is a permutation of the input in which every item comes after everything it depends on, for every acyclic dependency relation; the sort always terminates.", "quantifier": "all finite acyclic dependency relations, all initial orders", "why_tests_cant": "Number of graphs and initial orders is super-exponential.", "anchors": ["src/compiler/lib/Eqs.hpp:DepGroup::topo_sort", "src/compiler/lib/Eqs.hpp:DepGroup::inherit_deps_from"]}
{"id": "C32", "title": "Equations reading from the future are rejected in both directions", "statement": "For forward and for backward stepping, an equation whose right side reads a step further in the stepping direction than the step it writes is rejected by the compiler.", "quantifier": "all left/right step offsets, both step directions", "why_tests_cant": "Needs all offsets and the rarely used reverse direction.", "anchors": ["src/compiler/lib/Eqs.cpp:Eqs::analyze_eqs"]}
{"id": "C33", "title": "Computed halos cover every read", "statement": "Every element read while evaluating the equations over the domain, directly or through any chain of scratch vars, lies inside the domain extended by the halo the compiler computed for that var and step.", "quantifier": "all systems of equations, all chains of scratch vars, all offsets, all domain points", "why_tests_cant": "Chains of scratch vars compose offsets; unbounded depth and offsets.", "anchors": ["src/compiler/lib/Eqs.cpp:Stages::calc_halos", "src/compiler/lib/Var.cpp:Var::update_halo"]}
{"id": "C34", "title": "Diagonal halo data is exchanged whenever it is read", "statement": "If evaluating the equations over a rank's domain (directly or via scratch vars) reads an element that lies outside the rank domain in k dimensions at once, then the exchange distance recorded for that var is at least k, so the corner/edge neighbour's data is exchanged.", "quantifier": "all systems of equations and offsets in any number of dimensions", "why_tests_cant": "Only visible in multi-rank runs with stencils whose diagonal reads arise by composition of offsets.", "anchors": ["src/compiler/lib/Var.cpp:Var::update_halo", "src/compiler/lib/Eqs.cpp:Stages::calc_halos", "src/kernel/lib/alloc.cpp:StencilContext::alloc_mpi_data"]}
{"id": "C35", "title": "Step allocation keeps every value until its last read", "statement": "With the number of steps allocated by the compiler, no value is overwritten by a later step while some stage still has to read it.", "quantifier": "all access patterns of step offsets over all stages", "why_tests_cant": "Every pattern of reads and writes over stages; wrong sizes can look right when data changes slowly.", "anchors": ["src/compiler/lib/Var.cpp:Var::get_step_dim_info", "src/compiler/lib/Eqs.cpp:Stages::calc_halos"]}
{"id": "C36", "title": "Explicit step allocation is honoured", "statement": "After set_step_alloc_size(n), get_step_alloc_size() returns n, also after the compiler has analysed the equations.", "quantifier": "all n, all equations", "why_tests_cant": "The override interacts with the analysis of every possible set of equations.", "anchors": ["src/compiler/lib/Var.cpp:Var::get_step_dim_info", "include/yask_compiler_api.hpp:set_step_alloc_size"]}
{"id": "C37", "title": "Scratch vars that share storage never clobber each other", "statement": "Two scratch vars placed in the same storage slot are never live at the same time, so each read of a scratch var returns the value most recently computed for that scratch var.", "quantifier": "all sets of scratch vars, lifespans and sizes; all groupings of equations in parts and stages", "why_tests_cant": "All lifespan patterns; sharing only happens with several scratch vars of equal size.", "anchors": ["src/compiler/lib/Eqs.cpp:Stages::calc_lifespans", "src/kernel/lib/stencil_calc.cpp:StencilPartBase::calc_micro_block", "src/kernel/lib/alloc.cpp:StencilContext::alloc_scratch_data"]}
{"id": "C38", "title": "Expression optimisations preserve values", "statement": "Common-sub-expression elimination, merging of nested sums/products and reordering of operands leave the value of every equation unchanged for every assignment of values to the points read (up to re-association and commutation of + and *).", "quantifier": "all expressions, all values of the points and indices", "why_tests_cant": "Unbounded expression trees.", "anchors": ["src/compiler/lib/ExprUtils.cpp:CseVisitor", "src/compiler/lib/ExprUtils.cpp:CombineVisitor", "src/compiler/lib/Expr.hpp:UnaryExpr::is_same", "src/compiler/lib/Vec.cpp:ExprReorderVisitor"]}
{"id": "C39", "title": "Recognised index offsets are exact", "statement": "When the compiler classifies an index expression as 'dimension plus constant k', the expression evaluates to the dimension's index plus k for every index value.", "quantifier": "all index expressions, all index values", "why_tests_cant": "Unbounded expression trees.", "anchors": ["src/compiler/lib/Expr.cpp:AddExpr::is_offset_from", "src/compiler/lib/Expr.cpp:SubExpr::is_offset_from"]}
{"id": "C40", "title": "Unaligned vector reads are assembled from the right elements", "statement": "For every read at constant offsets, lane e of the vector built from aligned vectors is exactly the element at (point + offset + position of lane e in the fold).", "quantifier": "all fold shapes, all offsets (negative included), all lanes", "why_tests_cant": "All fold shapes and offsets.", "anchors": ["src/compiler/lib/Vec.cpp:VecInfoVisitor::visit", "src/compiler/lib/Vec.hpp:fix_index_offset"]}
{"id": "C41", "title": "Ordered-set container behaves like an ordered set", "statement": "The insertion-ordered set used to group equations behaves, for every sequence of insert, erase, swap and look-up operations, like a duplicate-free list: size, order, membership and positions agree.", "quantifier": "all operation sequences", "why_tests_cant": "Needs operation sequences with at least two erases; unbounded histories.", "anchors": ["src/common/common_utils.hpp:vector_set"]}
{"id": "C42", "title": "Tuple layout and point enumeration are exact", "statement": "For a tuple of sizes, unlayout inverts layout, and visiting all points (sequentially or divided among any number of threads) calls the visitor exactly once per point of the box with the matching linear index, in increasing order per thread.", "quantifier": "all numbers of dimensions, all sizes (including zero), both first-inner settings, all thread counts", "why_tests_cant": "Unbounded sizes and thread counts.", "anchors": ["src/common/tuple.hpp:Tuple::visit_all_points", "src/common/tuple.hpp:Tuple::visit_all_points_in_parallel", "src/common/tuple.cpp:Tuple::layout", "src/common/tuple.cpp:Tuple::unlayout"]}
{"id": "C43", "title": "Tuple comparison is a strict total order consistent with equality", "statement": "Tuple < is irreflexive and transitive, and for two tuples exactly one of a < b, b < a, a == b holds, so tuples are safe as keys of ordered containers.", "quantifier": "all tuples over all dimension names", "why_tests_cant": "Order laws quantify over all triples.", "anchors": ["src/common/tuple.cpp:Tuple::operator<", "src/common/tuple.cpp:Tuple::operator=="]}
{"id": "C44", "title": "Automatic rank/thread grids multiply to the requested count", "statement": "The factorisation used for the default rank grid keeps every dimension the user fixed and returns factors whose product equals the requested count, choosing one with the smallest largest factor; if no such factorisation exists an exception is raised.", "quantifier": "all counts N >= 1, all partial user settings, any number of dimensions", "why_tests_cant": "All N and partial settings.", "anchors": ["src/common/tuple.cpp:Tuple::get_compact_factors", "src/kernel/lib/setup.cpp:StencilContext::setup_rank"]}
{"id": "C45", "title": "Combination enumeration is complete and duplicate-free", "statement": "Enumerating the k-element subsets of n dimensions by rank yields each subset exactly once, and the number of ranks equals the binomial coefficient.", "quantifier": "all n, all k <= n, all ranks", "why_tests_cant": "All n and k; the fixed-size work array is only exceeded for large k.", "anchors": ["src/common/combo.cpp:n_choose_k", "src/common/combo.cpp:n_choose_k_set", "src/kernel/lib/context.cpp:StencilContext::calc_block"]}
{"id": "C46", "title": "Finite-difference coefficients are exact on polynomials", "statement": "The coefficients returned for a derivative of a given order at a given evaluation point, on distinct sample points, reproduce that derivative exactly (in exact arithmetic) for every polynomial of degree below the number of points; with too few points the documented result is returned without touching memory outside the work arrays.", "quantifier": "all derivative orders, all numbers of points, all distinct point sets, all polynomials of admissible degree", "why_tests_cant": "Infinitely many point sets and polynomials; out-of-bounds reads are invisible without instrumentation.", "anchors": ["src/common/fd_coeff2.cpp", "src/contrib/coefficients/fd_coeff.cpp:fd_coeff"]}
{"id": "C47", "title": "Command-line strings survive quoting and tokenising", "statement": "Joining arguments with the library's quoting helper and splitting the result again with the library's tokeniser yields the original argument list; unrecognised arguments are returned unchanged and in order.", "quantifier": "all argument lists (any characters)", "why_tests_cant": "All strings, in particular mixtures of quotes and blanks.", "anchors": ["src/common/common_utils.cpp:command_line_parser::set_args", "src/common/common_utils.cpp:quote_whitespace", "src/common/common_utils.cpp:command_line_parser::parse_args"]}
{"id": "C48", "title": "Option parsing consumes exactly the option's arguments", "statement": "Parsing applies every recognised option in order, each option consumes exactly its own tokens, the last setting wins, and all other tokens appear in the returned remainder.", "quantifier": "all token sequences, all sets of declared options", "why_tests_cant": "All token sequences.", "anchors": ["src/common/common_utils.cpp:command_line_parser::parse_args", "src/common/common_utils.cpp:command_line_parser::bool_option::check_arg", "src/common/common_utils.cpp:command_line_parser::int_option::check_arg"]}
{"id": "C49", "title": "Elapsed time is the sum of the measured intervals", "statement": "For every sequence of start/stop calls on a timer the reported elapsed time equals the sum of the durations of the completed start-stop intervals since the last clear, and get-while-running does not disturb it.", "quantifier": "all sequences of timer calls and clock readings", "why_tests_cant": "Unbounded call histories.", "anchors": ["src/common/common_utils.hpp:YaskTimer", "src/common/common_utils.cpp:YaskTimer"]}
{"id": "C50", "title": "Auto-tuner only tries legal sizes and stops", "statement": "Every size the tuner proposes lies between the minimum and the size of the enclosing tile, and the search terminates after finitely many evaluations, for every performance measurement sequence.", "quantifier": "all measurement results, all domain and tile sizes", "why_tests_cant": "The tuner is driven by timing noise; measurements are not reproducible.", "anchors": ["src/kernel/lib/auto_tuner.cpp:AutoTuner::eval", "src/kernel/lib/auto_tuner.cpp:AutoTuner::check_sizes"]}
{"id": "C51", "title": "Adjusted tile sizes are nested and fold-aligned", "statement": "After settings are adjusted, each tile size is at least 1, a multiple of the vector fold where required, and not larger than the (rounded) size of the enclosing tile, for any sizes the user supplied (including zero or too large).", "quantifier": "all user-supplied sizes, all domain sizes, all fold lengths", "why_tests_cant": "All combinations of sizes at six nesting levels.", "anchors": ["src/kernel/lib/settings.cpp:KernelSettings::adjust_settings", "src/kernel/lib/settings.cpp:find_num_subsets"]}
{"id": "C52", "title": "Thread budget is never exceeded", "statement": "The numbers of outer and inner threads used for computation are at least one and their product does not exceed the configured maximum number of threads.", "quantifier": "all maximum thread counts, divisors and inner-thread requests (including zero, negative or over-large values)", "why_tests_cant": "All configurations; over-subscription only shows on particular machines.", "anchors": ["src/kernel/lib/settings.cpp:KernelStateBase::get_num_comp_threads"]}
{"id": "C53", "title": "Scratch evaluation spans stay within halos", "statement": "When a scratch part is evaluated over the domain extended by the largest halo of the scratch vars it writes, every read of its equations lies inside the domain extended by the halo of the var that is read.", "quantifier": "all systems of equations with scratch vars and conditions, all offsets, all points of the span", "why_tests_cant": "Needs particular combinations of conditional scratch equations that share scratch vars and bundles; out-of-halo reads often return plausible padding values.", "anchors": ["src/compiler/lib/Eqs.cpp:Stages::calc_halos", "src/kernel/lib/stencil_calc.cpp:StencilPartBase::adjust_scratch_span", "src/kernel/lib/setup.cpp:StencilPartBase::find_scratch_write_halos"]}
{"id": "C54", "title": "Tuning during a run does not change results", "statement": "At any time during or after auto-tuning, the tiling parameters in force are those that preparing the solution with the current sizes would give, so steps run with tuned sizes leave the same values in memory as steps run with the original sizes.", "quantifier": "all settings, tuner targets and sequences of measurements, all step ranges and stencils within the halos, any interleaving of concurrent blocks", "why_tests_cant": "Which sizes are tried depends on run-time measurements, so a test does not reproduce them; wrong values appear only near mega-block boundaries and only for some sizes.", "anchors": ["src/kernel/lib/auto_tuner.cpp:AutoTuner::adjust_settings", "src/kernel/lib/setup.cpp:StencilContext::update_tb_info", "src/kernel/lib/setup.cpp:StencilContext::update_var_info"]}
{"id": "C55", "title": "Results do not depend on the number of ranks", "statement": "After any number of steps every point of every variable has the same value whatever the number and sizes of the ranks, the tiling settings of each rank and whether communication is overlapped with computation, and all halos between ranks hold the values of the ranks that own the points.", "quantifier": "all domains, numbers and sizes of ranks, tile sizes, step counts and directions, stencils within the halos, any interleaving of concurrent blocks", "why_tests_cant": "All rank layouts and settings; a stale halo or an interior that overlaps the data being sent shows only for certain sizes and timings.", "anchors": ["src/kernel/lib/context.cpp:StencilContext::run_solution", "src/kernel/lib/halo.cpp:StencilContext::exchange_halos", "src/kernel/lib/alloc.cpp:StencilContext::alloc_mpi_data"]}
{"id": "C56", "title": "A nano-block is cut into full and masked vectors that write every point exactly once", "statement": "Evaluating a nano-block writes every point of its range exactly once and nothing outside of it: the range is cut into full vectors and, along faces, edges and corners, masked vectors whose masks together leave no point out and write none twice, even if the range begins and ends inside one vector.", "quantifier": "all ranges, rank offsets (also negative), fold sizes in each of up to 8 dims with at most 63 points per vector, either order of elements in a vector, all pico-block sizes and any inner-loop dim", "why_tests_cant": "There are 3^n - 1 kinds of border parts, each with its own mask and range, and inverted ranges arise for narrow blocks; tests hit few combinations of offset, fold and width.", "anchors": ["src/kernel/lib/stencil_calc.hpp:StencilPartTmpl::calc_nano_block_opt", "src/compiler/lib/YaskKernel.cpp:calc_vectors", "src/common/combo.cpp:n_choose_k_set"]}
{"id": "C57", "title": "A micro-block evaluates every required part once, on exactly its points", "statement": "When the parts of a stage are evaluated in a micro-block, every part that is needed in this step is evaluated exactly once even if several parts require it, after the scratch parts it requires; it writes each point of its span (the micro-block, extended by the write halos for scratch parts) that lies in its sub-domain exactly once and no other point; a scratch var that may be written only partly is initialised before the first write and never after it.", "quantifier": "all micro-block ranges, write halos, sub-domain and step conditions, lists of required parts, numbers of inner threads with and without slab binding, folds and pico-block sizes", "why_tests_cant": "The result depends on the combination of shared scratch parts, sub-domain boxes that cut vectors, invalid steps and thread binding; tests use few stencils with conditional scratch vars, and a var initialised too late shows only if stale data differs.", "anchors": ["src/kernel/lib/stencil_calc.cpp:StencilPartBase::calc_micro_block", "src/kernel/lib/context.cpp:StencilContext::calc_micro_block", "src/kernel/lib/stencil_calc.cpp:StencilPartBase::adjust_scratch_span"]}
{"id": "C58", "title": "Rolling vector buffers do not change the inner loop", "statement": "The inner loop generated for a part keeps aligned vectors in rolling buffers that are filled before the loop, shifted and topped up at its end; running it for any number of vectors leaves memory as the plain loop does in which every equation reads memory, never uses a buffer entry that is unset or outside of its array, and loads no vector outside of the reach of the reads; given that no equation of the part reads what an earlier one writes at the same index, and that nothing read at several inner-loop offsets was written at an earlier index.", "quantifier": "all fold lengths, minimum buffer lengths, early-load and reuse settings, sets of aligned reads, equations, start indices and trip counts", "why_tests_cant": "The buffer length, the shift and the refill depend on the offsets of each stencil and on compiler options; tests run a few stencils with default options and the generated check of buffer contents is off when vectorizing.", "anchors": ["src/compiler/lib/Cpp.cpp:422-598", "src/compiler/lib/Cpp.cpp:820-1006", "src/compiler/lib/YaskKernel.cpp:620-720"]}
{"id": "C59", "title": "Pointers of the generated inner loop reach the right vectors", "statement": "For every point of an equation that passes the checks of its args, the address computed in the inner loop from the base pointer of the var, the strides (fixed at compile time or looked up), the index-invariant offset, the per-iteration increment and the offset of the point is that of the vector that holds the elements of the point, each at its lane, in the storage of the var; and without the safe-pointer setting the base pointer of a var that is not scratch lies in the storage.", "quantifier": "all vars with folds, pads, offsets, layouts and misc dims, all args, start indices and iterations, all pointer settings", "why_tests_cant": "The host_assert that compares each pointer with the layout only runs in check builds for the stencils, folds and settings tried; the fixed strides, the offsets and the many-pointer variants each take different paths.", "anchors": ["src/compiler/lib/Cpp.cpp:129-417", "src/compiler/lib/Cpp.cpp:664-818", "src/compiler/lib/Eqs.cpp:540-581", "src/kernel/lib/yk_var.hpp:445-495"]}
{"id": "C60", "title": "Unaligned loads read the elements of their point", "statement": "When unaligned loads are allowed, the address given to the unaligned load for a point is that of the first element of the point in the storage of its var.", "quantifier": "all folded vars, args, rank offsets and loop indices", "why_tests_cant": "The option is not used by any test or stencil in the repository; the address depends on the vector index and the rank offset.", "anchors": ["src/compiler/lib/Cpp.cpp:88-125", "src/compiler/lib/Cpp.cpp:1089-1107", "src/kernel/lib/yk_var.hpp:378-409"]}
{"id": "C61", "title": "The printed C++ of an expression computes its value", "statement": "The statements printed for the equations of a part (top-down and bottom-up printing, temporary variables for shared nodes, splitting of sums and products, paired functions), read by the C++ grammar and run in order, are defined and write to each point the value of its right-hand side.", "quantifier": "all expression graphs, all sharing and pairing, all expression-size limits, all number systems with exact small integers", "why_tests_cant": "The text depends on the sharing in the graph and on two size limits; a lost parenthesis, a temporary variable saved under the wrong node or an integer literal in a quotient only shows for particular expressions.", "anchors": ["src/compiler/lib/Print.cpp:41-468", "src/compiler/lib/Print.hpp:39-92", "src/compiler/lib/Cpp.cpp:39-53", "src/compiler/lib/YaskKernel.cpp:559-669"]}
{"id": "C62", "title": "Printed constants are read back unchanged", "statement": "Every constant of a stencil is printed as a literal that a C++ compiler reads as the same double.", "quantifier": "all constants", "why_tests_cant": "Most stencils use constants with few digits; a constant that needs 17 digits is off by one unit in the last place, below every tolerance of the tests.", "anchors": ["src/compiler/lib/Cpp.cpp:39-53"]}
{"id": "C63", "title": "Merging vars checks that they are compatible and keeps the solution correct", "statement": "fuse_vars() throws if the dims or folds of the two vars differ; afterwards both are one var for every further call; after prepare_solution() every var of the solution has the size of the rank and the largest halos, from which the angles of temporal tiles are derived, cover its halos; fixed-size vars of the user keep their sizes.", "quantifier": "all vars and states, all sequences of calls", "why_tests_cant": "The library has no test that merges vars; a merged var gives wrong results only with temporal tiling, several ranks or another fold.", "anchors": ["src/kernel/lib/yk_var_apis.cpp:299-367", "src/kernel/lib/soln_apis.cpp:271-283", "src/kernel/lib/setup.cpp:664-716"]}
{"id": "C64", "title": "The printed C++ of a condition is true exactly where the condition is true", "statement": "The generated functions is_in_valid_domain() and is_in_valid_step() are defined for every point and step and return whether the domain or step condition of the equation, as written by the user, is true there.", "quantifier": "all conditions, points, domain sizes and step indices", "why_tests_cant": "The text depends on the operators, constants and types in the condition; the tests use a handful of conditions at few sizes, and never run backwards with a step condition.", "anchors": ["src/compiler/lib/YaskKernel.cpp:33-61", "src/compiler/lib/YaskKernel.cpp:469-523", "src/compiler/lib/Print.hpp:132-147", "src/compiler/lib/Print.cpp:53-260", "src/compiler/lib/Cpp.cpp:36-53"]}
{"id": "C65", "title": "Micro-blocks with scratch vars compute the values of the reference run", "statement": "For any settings, any sequence of steps and any initial contents of the scratch vars, evaluating the stages micro-block by micro-block, with the scratch parts that each part requires on extended boxes, leaves the same values in all vars that are not scratch vars as the reference run, which evaluates every part point by point on the whole rank with scratch vars set to zero.", "quantifier": "all stencils, parts, conditions, ways of cutting stages into micro-blocks, initial memories and numbers of steps", "why_tests_cant": "The tests compare the two runs for a few solutions and sizes within a tolerance, and what a scratch var holds where no condition applies depends on what the thread computed before.", "anchors": ["src/kernel/lib/context.cpp:46-217", "src/kernel/lib/context.cpp:1124-1162", "src/kernel/lib/stencil_calc.cpp:39-289", "src/kernel/lib/stencil_calc.cpp:342-427", "src/kernel/lib/stencil_calc.hpp:138-144", "src/kernel/lib/stencil_calc.hpp:341-363", "src/compiler/lib/YaskKernel.cpp:1035-1056", "src/kernel/lib/settings.hpp:274"]}
{"id": "C66", "title": "Validation compares every result with the reference exactly once", "statement": "The comparison behind '-validate' looks once at every element of the output vars that is in the domain of the rank, in every allocated step slot and for every misc index, and at no others; the test passes exactly when all of them are within the tolerance; numbers within the tolerance are equal or closer than epsilon, or than epsilon times the reference if that is above one; vars of different shape do not pass.", "quantifier": "all vars (dims, paddings, foldings, offsets, layouts), contents, thread counts and roundings", "why_tests_cant": "All tests of the kernels rely on this comparison; one that skipped elements, padding offsets or slots would make wrong kernels pass.", "anchors": ["src/kernel/lib/yk_var.cpp:399-477", "src/kernel/lib/realv.hpp:977-995", "src/kernel/lib/context.cpp:1529-1547", "src/kernel/yask_main.cpp:612-640", "src/kernel/lib/yk_var.hpp:803-806"]}
{"id": "C67", "title": "Dims, vector fold and memory order chosen for a solution", "statement": "The stencil compiler accepts a solution exactly when it has one step dim, at least one domain dim and no scratch var with a step dim; the domain dims are those of the settings and vars in the order of first mention; the inner-loop dim is the one asked for; the fold has a positive size for every domain dim with the vector length as product, uses the sizes asked for whenever they can be completed and makes the others as even as possible; the dims in memory are ordered as the settings ask; a var is folded exactly when it has all folded dims; no name is a dim of two kinds.", "quantifier": "all lists of vars, compiler settings and vector lengths, with and without multi-dim folding", "why_tests_cant": "The choices depend on the number and order of dims, the settings and the vector length of the target together; tests use few combinations, and some combinations only arise on one target.", "anchors": ["src/compiler/lib/Settings.cpp:47-323", "src/compiler/lib/Settings.hpp:98-110", "src/compiler/lib/Var.cpp:136-173"]}
{"id": "C68", "title": "Compiled solutions compute their equations", "statement": "For a solution that the compiler accepts (no misc dims; two equations of a var never apply at the same point; the steps kept of a var leave room for the steps still read; parts sharing a scratch var write the same vars), with the parts, stages, required scratch parts and write halos that compiler and kernel derive, the reference run and every run of micro-blocks, however each stage is cut, end with a memory in which, step by step, every equation of every selected var that is not a scratch var holds at exactly the points of the rank where its conditions hold, reading new values in the step being written, old values in the others, and for scratch vars the value of the equation whose conditions hold at that point or zero; nothing else of those vars changes; and this determines their values.", "quantifier": "all systems of equations, conditions and right-hand sides, bundling settings, directions, ranks, cuts into micro-blocks, numbers of steps and values", "why_tests_cant": "The claim joins every phase from dependency analysis to the loops of the kernel; tests run a few solutions on a few sizes and compare the kernel with its own reference run, which is made from the same parts, stages and spans.", "anchors": ["src/compiler/lib/Eqs.cpp:364-1435", "src/compiler/lib/YaskKernel.cpp:460-515", "src/compiler/lib/YaskKernel.cpp:940-1060", "src/kernel/lib/setup.cpp:1184-1228", "src/kernel/lib/context.cpp:48-230"]}
{"id": "C69", "title": "Work statistics count the work done", "statement": "The statistics returned by get_stats() report the number of steps executed by run_solution() since the last call, in either direction and for any number of steps per wave-front, and the reads, writes and operations of all ranks: for each stage, step and rank, each part counts at exactly the points where its condition holds.", "quantifier": "all parts, conditions, domains, numbers of threads and ranks, sequences of runs and calls of get_stats()", "why_tests_cant": "The counts depend on the boxes found for every condition and on how runs are cut into wave-fronts; tests only print them, and throughput figures are derived from them.", "anchors": ["src/kernel/lib/stencil_calc.cpp:461-598", "src/kernel/lib/soln_apis.cpp:340-583", "src/kernel/lib/context.cpp:207", "src/kernel/lib/context.cpp:332-344", "src/kernel/lib/context.cpp:583-593", "include/aux/yk_solution_api.hpp:1295-1345"]}
{"id": "C70", "title": "The ranks of a performance run agree on every run, and its report is right", "statement": "Whatever times the ranks measure in the warm-up runs, all ranks make the same runs with the same numbers of steps, so that no rank waits for another for ever; the warm-up is at most three short runs; the steps of a trial are the given number or the mean of the numbers that fill the wanted time, fitted to temporal blocks if that adds at most a fifth. The report names a fastest trial, the trial of the printed rank (the median for odd numbers of trials), and the minimum, maximum, mean and (from three trials on) deviation of the throughput.", "quantifier": "all numbers of ranks, measured times, options and trials", "why_tests_cant": "Measured times differ from run to run and from rank to rank; a disagreement between ranks shows as a rare hang, and reported statistics are not checked by any test.", "anchors": ["src/kernel/yask_main.cpp:209-212", "src/kernel/yask_main.cpp:337-425", "src/kernel/yask_main.cpp:434-550", "src/kernel/lib/setup.cpp:195", "src/common/common_utils.hpp:89-90"]}
{"id": "C71", "title": "A var created through the API has what was asked for, and invalid requests are rejected", "statement": "A request for a new var with a new name, one size per dim and dims of an existing var (or any dims, the step dim first and not too many, if new kinds are allowed) gives a var with exactly these dims, the given sizes or those of the solution, at least the extra and minimum pads of the solution around every domain dim, and registers it once together with its new misc dims; the solution stays consistent for further requests. Any other request throws and creates no var. (A repeated dim name should be rejected too, but is not.)", "quantifier": "all solutions, names, lists of dims and of sizes", "why_tests_cant": "The tests create a handful of vars with valid dims; the space of names, orders, repetitions and sizes is unbounded, and the effect of a failed request on later ones is not looked at.", "anchors": ["src/kernel/lib/new_var.cpp:32-161", "src/kernel/lib/setup.cpp:679-707", "src/kernel/lib/setup.cpp:1560-1582", "src/kernel/lib/yk_var.cpp:61-95", "src/kernel/lib/generic_var.cpp:32-39", "include/aux/yk_solution_api.hpp:945-1100"]}
{"id": "C72", "title": "The ranks of a node make the same collective calls while message buffers are allocated", "statement": "While message buffers are allocated, all ranks of a node make the same collective calls on the communicator of the node (allocation of the shared window, broadcasts of offsets for each var, barriers) in the same order, so that none waits for a call that another does not make. In particular a var has buffers on all ranks or on none. (False if a rank sends nothing to its node, or has no neighbor on it, while others do.)", "quantifier": "all grids of ranks, placements of ranks on nodes, rank sizes, vars and halos", "why_tests_cant": "The tests run a few ranks in fixed layouts on one node with symmetric stencils; halos on one side only and placements in which neighbors are on different nodes are not tried, and a missing collective call shows as a hang.", "anchors": ["src/kernel/lib/alloc.cpp:474-858", "src/kernel/lib/alloc.cpp:872-1028", "src/kernel/lib/alloc.cpp:273-297", "src/kernel/lib/alloc.cpp:214-246", "src/kernel/lib/settings.cpp:99-113", "src/kernel/lib/settings.cpp:153-165", "src/kernel/lib/setup.cpp:391-426", "src/kernel/lib/settings.hpp:251"]}
{"id": "C73", "title": "A receive buffer in shared memory is the send buffer that the neighbor fills for this rank", "statement": "For every var and every two touching ranks on a node, the offset that the receiver looks up in the shared table is where the sender has placed its buffer of this var for the receiver, and both sides give it the same size. Every buffer with its pad (where the lock is) lies inside the memory allocated by its rank, begins at a cache line, and overlaps no other buffer of the rank.", "quantifier": "all grids of ranks, placements on nodes, rank sizes that depend on the position, vars, halos, element sizes and pads", "why_tests_cant": "The tests run a few layouts; a wrong offset or an overlap appears only for certain numbers of vars, neighbors and sizes, and the checks in the code are asserts that are off in normal builds.", "anchors": ["src/kernel/lib/alloc.cpp:872-1028", "src/kernel/lib/alloc.cpp:474-858", "src/kernel/lib/alloc.cpp:273-320", "src/kernel/lib/context.hpp:242", "src/kernel/lib/yask.hpp:170-172", "src/common/common_utils.hpp:88-90", "src/kernel/lib/settings.cpp:115-150"]}
