# Machine-checked model of YASK: design

Subject: intel/yask, source in `/repo` (read as text; never built or run here).
Prover: Coq/Rocq 8.16.1, standard library only (no mathcomp; `Qcanon` for C46).

## 1. Layout of the development

* `rocq/theories/Base.v` - tactics and list lemmas shared by all proofs.
* `rocq/theories/*_Model.v` - Gallina transcriptions of the code, one definition per
  C++/perl function, each with a comment citing file and lines. No proofs inside.
* `rocq/theories/*_Spec.v` - small specifications, independent of the model helpers
  (partition, bijection, reachability, reference run, ...).
* `rocq/theories/*_Proofs.v` - lemmas.
* `rocq/theories/Prop_Cxx.v` - the property theorems; each closed by `exact lemma`,
  with `Print Assumptions` beneath, and a concrete `Example` meeting the hypotheses.

Conventions: `idx_t` and `int` are unbounded `Z` unless the comment says otherwise
(overflow is then an explicit precondition or an explicit outcome). Undefined behaviour
(out-of-bounds access, erase past the end, division by zero), C++ exceptions and fuel exhaustion are
distinct outcomes (`UB`, `Throw`, `OutOfFuel`), never default values.

## 2. Trusted base

* The Coq kernel (and `vm_compute` for the witnesses of `_refuted` theorems and Examples).
* What `Print Assumptions` prints below every property theorem (recorded per theorem in
  section 5; all are closed under the global context; the axioms listed by
  `coqchk`/the gate, `Coq.ssr.ssrunder.*`, are in the standard library module type loaded by `ssreflect` and used by no theorem).
* The reading of the C++/perl code: the theorems are about the Gallina model. The tie to the
  code is the citation beside each definition and the mutation log in `seeded/LOG.jsonl`.
- How to read `seeded/LOG.jsonl`: one line per attempt. `failed_theorems` lists theorems that no longer
  rebuild after the edit; that alone does not show the claim became false, because a proof script can break
  on an edit that keeps the claim true. Lines with a `note` say so where known: edits that survive, edits that
  do not type-check, and one edit (`Bbox_Model.add_merged`) that only breaks a proof script.
* Not modelled: the C++ memory model, OpenMP/MPI/SYCL runtimes (their guarantees appear
  as the interleaving or ordering hypotheses stated in each theorem), floating-point rounding
  (values are an abstract type, an exact ring/field, or `Z`), I/O, performance counters, I/O formatting,
  the code printers of the compiler (CppIntrin, YaskKernel) and SIMD intrinsics.

## 3. Per property: what is modelled and how it is proved

Status: what is proved; "open" rows give the plan.

| id | model | method | status |
|----|-------|--------|--------|
| C01 | `Sched_Spec`: instances (step, stage, point), arbitrary read/write footprints and update functions, storage slots by step remainder | Commutation of non-conflicting updates; induction over the reference order moves each instance to the front of the schedule | proved: Point updates are atomic list elements; the reference order must itself respect the dependences (enough allocated steps), stated as a hypothesis. |
| C02 | `Tile_Model`: `run_solution`, `calc_mega_block`, `calc_block`, `shift_mega_block`, `shift_micro_block`, `update_var_info`/`update_tb_info` (angles, extensions, trapezoid widths), on top of the modelled loop generator; output = regions of concurrent threads of micro-block calls | Numbering of (step, stage) along the wave-front; geometric lemma: two boxes visited in the wrong order are farther apart than halo times distance in stages; then the commutation theorem of C01 | proved: One rank, all tile sizes, depths, stages, halos, thread interleavings: each instance once (with the shrinking extension next to other ranks), conflicting instances in step order, same memory as the step-by-step run; without neighbours, same memory as the untiled run. Assumed of the stencil: writes at own point, reads within halo, no conflict inside a stage. |
| C03 | `Tile_Model`: `run_solution`, `calc_mega_block`, `calc_block`, `shift_mega_block`, `shift_micro_block`, `update_var_info`/`update_tb_info` (angles, extensions, trapezoid widths), on top of the modelled loop generator; output = regions of concurrent threads of micro-block calls | As C02, with the zones of trapezoids and bridges per phase; counterexample by calculation | partial: False when the last block of a mega-block is narrower than the movement of its sides (refuted with a wrong final value). Proved for all other block sizes: each once, dependence order, no conflict between concurrent blocks, all interleavings, same memory as step by step; at most 8 dims. |
| C04 | `Tile_Model`: `run_solution`, `calc_mega_block`, `calc_block`, `shift_mega_block`, `shift_micro_block`, `update_var_info`/`update_tb_info` (angles, extensions, trapezoid widths), on top of the modelled loop generator; output = regions of concurrent threads of micro-block calls; jobs of ranks: `Job_Model` | From C02: both are permutations of one step-by-step run; across ranks from C55; witness by calculation | partial: Any number of ranks with halo exchange, overlapped or not, both directions, all tile depths: the two runs leave the same values at all points and halos; one rank without neighbours: the same memory. With temporal blocking under the room condition of C03; without it false (C04_small_last_block_refuted). |
| C05 | Code emitted by `gen_loops.pl` (aligned begin, iteration counts, index split, start/stop) | Partition of intervals and of n-D boxes | partial: Exact cover, non-empty, inside the parent, proved for every loop style and any nesting when begin < end. For begin = end a misaligned begin yields one empty sub-range (C05_empty_range_refuted). |
| C06 | Tiled, serpentine, square-wave index maps of `gen_loops.pl` | Each is a bijection on the iteration box | proved: All path options, any number of dims and nested loop statements. |
| C07 | same as C05 | Congruence of inner boundaries | partial: Proved when the (capped) alignment divides the stride, which holds for every stride set by ScanIndices; false otherwise (C07_refuted). |
| C08 | same as C05, end <= begin allowed, `% 0` is `UB` | Positive theorem for one empty dim with the others non-negative; `_refuted` witnesses for two inverted dims and for the manual loop's modulo by zero | partial: Nested unaligned loops: any empty dims. Flat unaligned loops: one empty dim. Aligned loops: only sub-ranges empty in that dim. Refuted for two inverted dims, misaligned empty range, manual distribution. |
| C09 | `yask_parallel_for`, `yask_for` with thread configuration as input | Concatenation of calls is a partition of [begin,end); nested branch `_refuted` for begin <> 0, proved for begin = 0 | partial: Nested-thread branch is refuted for begin <> 0 (C09_parallel_for_refuted): the sub-ranges start at 0. Proved for all other configurations. |
| C10 | `div_equally_*` | Sum/partition/balance | proved: Full property for all N >= 0, P >= 1. |
| C11 | `setup_rank` size/offset computation | Partition per dimension, product over dimensions | proved: setup_rank on all ranks, explicit or automatic positions and sizes; int overflow not modelled; rank grid factoring is C44. |
| C12 | `Tile_Model`: `run_solution`, `calc_mega_block`, `calc_block`, `shift_mega_block`, `shift_micro_block`, `update_var_info`/`update_tb_info` (angles, extensions, trapezoid widths), on top of the modelled loop generator; output = regions of concurrent threads of micro-block calls; MPI sections | Exterior/interior split of every shifted box proved disjoint and complete; then as C02 | proved: Any borders of the interior (none, one side, empty interior): exteriors and interior together evaluate the instances of the run without overlap, each once, same memory. |
| C13 | `alloc_mpi_data` buffer boxes; pack/unpack by layout order | Box equality after translation by rank offset; store-level theorem for the halo values | partial: agreement of sender and receiver, same vars on all ranks, own points untouched and owner values delivered proved for all jobs (values: when ranks of whole vectors begin at whole vectors, which automatic sizes guarantee); refuted for misaligned explicit rank sizes (stale corner value) |
| C14 | Dirty flags on all ranks, `exchange_halos`, `run_solution` stages, histories of API writes and runs | Invariants over histories: others-flags and windows equal on all ranks, owner dirty or copy fresh | partial: For every history of element and slice writes and runs (with or without overlap) in which ranks write their own points and slices are written on all ranks at the same steps, every halo point holds the last value written by its owner and no rank waits in vain. Refuted: a slice written on one rank only moves the valid steps of that rank (C14_windows_refuted); a write into a rank's own halo is not refreshed (C14_halo_write_refuted). |
| C15 | `SimpleLock` counters, producer/consumer programs | Invariant over all interleavings | proved: All interleavings of the single-location loads and stores of the two ranks (sequential consistency assumed), any messages. |
| C16 | `find_bounding_boxes` (part and context), scan/adjust loop, slices per thread, merge, cache, box of a stage, trimming in `calc_micro_block` | Invariant of the search: boxes found so far are disjoint, valid and hold all visited valid points; first-inner order makes the last-dim adjustment final | proved: Every condition, domain and thread count: the search ends; boxes are disjoint and hold exactly the points where the condition holds; overall box and point count right; sharing through the cache and trimming to a range keep this. |
| C17 | Slab-to-thread map of `calc_micro_block` | Unique thread; independence of the tile | partial: Every point of the micro-block computed exactly once by one thread: proved. Thread depends on position only: proved when the slab width divides 4096 + alignment offset, refuted otherwise. |
| C18 | Elem var addressing: `get_elem_index`, step wrap, layouts | Injectivity/bounds from mixed-radix lemma | proved: Any number of dims, any layout order. |
| C19 | Vec var addressing: vec index / fold offset | Same, plus lane agreement | proved: In bounds, collision-free, and lane-by-lane agreement for pads and offsets that are multiples of the vector lengths (which resize and _set_local_offset enforce). |
| C20 | Layouts emitted by `gen_layouts.pl` | Mixed-radix bijection for any permutation | proved: All dimension counts, permutations and sizes >= 1; strides included. |
| C21 | `imod_flr`, `_wrap_step` with explicit truncating division | Equals mathematical mod; injective on windows | proved: All integers. |
| C22 | `update_valid_step`, `init_valid_step`, history of writes | Invariant over histories | partial: Window updates by step evaluation proved for all histories; refuted for set_element, which does not move the window as its documentation says. |
| C23 | get/set/add element on a store | From C18/C19 injectivity | proved: Element and folded vars; set, add and get. |
| C24 | Slice visitors | Fold over boxes; frame and read-back | proved: set/get round trip, confinement and errors for arbitrary folds, orders, threads (element-wise path; the whole-vector copy used by halo exchange is not part of this claim). |
| C25 | `check_indices` clipping | Intersection when non-empty; `_refuted` for disjoint slices | partial: Proved when the slice meets the allocation in every dim and steps are valid; refuted for slices that miss the allocation (a boundary element is written and counted) and for steps beyond the window (the window moves). |
| C26 | `red_res`, reduce visitor, join | sum/product/min correct; max and sum-of-squares `_refuted` | partial: Sum, product and count exact; max/min characterised incl. their initial values; refuted: max of all-negative data, sum of squares, min without the sum bit. |
| C27 | `resize` | Arithmetic | proved: After any successful setting calls pads, halos, offsets and alloc sizes satisfy the padding invariant. Finding: a setter whose resize throws keeps its assignment (C27_failed_setter_refuted). |
| C28 | Offset accumulation of `alloc_var_data` | Induction over the var list | partial: Vars and message buffers (with locks) are proved disjoint, inside and aligned for all inputs, and a shared receive buffer is proved to be the send buffer of the other rank. Scratch vars: proved when all vars of a slot have the same size; refuted in general (C28_scratch_slot_refuted): the room of a slot is that of its first var. |
| C29 | `Coherency` state machine + ghost data versions | Invariant over event lists | partial: State machine and all library calls but run_ref proved; refuted: run_ref modifies host data without recording it, and the assertion in mod_both always fails after setting all elements. |
| C30 | `Deps` DFS | DFS correctness for any finite graph; sound and complete w.r.t. a reachability spec | partial: Closure and cycle detection are exact for the dependency graph and for the equations; refuted as stated: reads inside step conditions are ignored (C30_cond_refuted), and merging parts into stages can report a cycle for acyclic equations (C30_stages_refuted). |
| C31 | `topo_sort` | Termination measure, permutation, order | partial: Topological sort, parts and stages proved to be ordered after their dependencies for all inputs; what is missing is that an acyclic input is never rejected when stages are made, which is false (C30_stages_refuted). |
| C32 | Step-direction checks of `analyze_eqs` | Forward proved, backward `_refuted` | partial: Forward direction proved; refuted for the backward direction (the code compares the step direction with -11) and for scratch equations, whose step indices are not checked. |
| C33 | `update_halo` + `calc_halos` scratch propagation | Induction over scratch chains | proved: Every read at every domain point, directly or through chains of scratch vars of any depth, is inside the halo computed by calc_halos for the var, stage and step, for all legal equations accepted by the compiler (parts and stages as built by the model). |
| C34 | L1-distance computation in the same functions | Without scratch proved; with scratch `_refuted` | partial: Proved for direct reads, for chains whose offsets do not cancel, and for one domain dim. Refuted in general: s(x,y)=u(x+1,y), u=s(x-1,y)+s(x,y-1) reads u diagonally but the recorded distance is 1. |
| C35 | `get_step_dim_info` + per-stage execution order | single-stage access proved; cross-stage `_refuted` | partial: No value is lost in any evaluation in step and stage order for reads that meet explicit conditions (safe_read). Refuted in general: a var read at t in a later stage than the one writing t+1 (C35_two_stages_refuted), and a written-back var read by another equation (C35_written_back_refuted). Temporal tiling is not covered. |
| C36 | `get_step_dim_info` override handling | `_refuted` | partial: Refuted: the computed size is stored after the overrides, so set_step_alloc_size has no effect at all; it is honoured exactly if it equals the computed size. |
| C37 | `calc_lifespans` slot allocation; run-time memo of executed scratch parts | Disjoint lifespans proved; run-time clobber `_refuted` | partial: Two scratch vars sharing a slot are never in use at the same time in stage order: proved. Stage evaluation with shared slots equals evaluation with private slots when no scratch part is needed by two parts of a stage; refuted otherwise (C37_shared_part_refuted). |
| C38 | Expression trees and node graphs with sharing, `is_same`, `CombineVisitor`, `ExprReorderVisitor`, `CseVisitor` | Values in every commutative number system; redirecting a pointer keeps value and height of every node; witness `(a-b)*(-b)` | partial: Building, combination and reordering keep values; CSE keeps values if negation and subtraction do not both occur; with both it does not (refuted: NegExpr::is_same accepts a SubExpr). |
| C39 | Expression trees, `is_const_val`, `get_num_val`, `get_int_val`, `is_offset_from`, `set_arg_offset` | Induction on expressions against an evaluation relation with rounding | proved: is_offset_from, is_const_val and get_int_val on all expression trees, any rounding that keeps integers; the expression put in place has the same value. |
| C40 | `SetVecVisitor`, `VecInfoVisitor`, `CppVecPrintHelper`/AVX2/AVX-512 code, realv shift/permute/masked operations, element address of folded vars | Invariant of the printed code: lanes listed as done are right; each strategy only claims lanes it sets; aligned vectors plus lane number the element grid | proved: All kinds of reads (full, partial, scalar; simple, AVX2 and AVX-512 constructions; plain unaligned load): each lane holds the element of its own point, for every fold, point and order of the aligned vectors. |
| C41 | `vector_set` as (items, posn map) | Refinement without erase / last-erase; erase `_refuted` | partial: Proved for histories in which every erase but the last removes the newest element; refuted otherwise: erase leaves stale positions, so a second erase is undefined behaviour (C41_erase_twice_refuted), reachable from the compiler trial-adding a part with two equations (C41_remove_part_refuted). |
| C42 | `Tuple::layout/unlayout/next_index/visit_all_points*` | Mixed radix; enumeration; zero-size quirk `_refuted` | partial: Proved for the kernel Indices version (zero sizes included) and for Tuple with sizes >= 1; the Tuple version is refuted for zero sizes (visits one point of an empty box). |
| C43 | `Tuple::operator<`, `==` | Order laws | proved: Full property, with the derived operators. |
| C44 | `get_compact_factors` | Search invariant; N=1 quirk `_refuted` | partial: Product and most-compact choice proved when no preset factors conflict; refuted: preset factors are changed when they do not divide the total, and a total of one with preset. |
| C45 | `n_choose_k`, `n_choose_k_set` | Binomials; rank bijection; k > 8 is `UB` | partial: Enumeration is a bijection for n <= 29 items and k <= 8; refuted outside: work array of fixed size 8 overflows, 32-bit coefficient overflows. |
| C46 | Fornberg recursion on the flat arrays with bounds checks | Polynomial exactness over canonical rationals; OOB `_refuted` | partial: Exactness on polynomials proved for all orders and distinct points when there are at least order+1 points (in exact rational arithmetic); refuted below that: the work array is read out of bounds. |
| C47 | `quote_whitespace`, `set_args` on character lists | Round trip under exact side condition; `_refuted` in general | partial: Round trip proved exactly for the arguments that are non-empty, hold no quote characters and whose white space includes a blank, tab, CR or LF (condition shown necessary and sufficient); refuted otherwise: the helper puts the wrong kind of quotes around text containing quotes. |
| C48 | `parse_args` over an abstract option list | Induction over tokens | proved: All option sets and token sequences; the converse needs that no token belongs to two options. Also found: int options silently truncate 64-bit numbers (C48_int_value_refuted). |
| C49 | `YaskTimer` | Induction over call histories | proved: All histories of start/stop/get/since/clear in which stop follows start; exact nanoseconds instead of rounded doubles. |
| C50 | `Tuner_Model`: `next_target`, `clear`, `check_sizes`, `eval` with its search loop, `apply_best`, `adjust_settings` on top of `Adjust_Model`; rates and time comparisons come from an oracle | Invariant of the search; every proposal is a fixed point of the settings adjustment; sizes tried are distinct points of a finite box; lexicographic measure for the loop and for the sequence of call-backs | proved: All measurement sequences with at least one step and a positive time between call-backs: no error, sizes legal, none tried twice, best one applied, done after a bound that depends on the settings only. With zero measured times the first target ends in a null dereference (C50_zero_time_refuted). |
| C51 | `Adjust_Model`: `find_num_subsets`, `KernelSettings::adjust_settings` with the default block size, the nano-block slabs, thread binding and the tile sizes under USE_TILING | Spec says when a size fits an outer size (unique); induction over dims; nesting is transitive; hence idempotent | proved: All six nesting levels, any sizes given; every size fits the enclosing one, whole folds or all of the rank; adjusting again changes nothing; 64-bit overflow not modelled. Findings: one-dim slab default uses the size in the step dim; tile sizes inside generated loops stay 0 because USE_TILING is never defined. |
| C52 | `get_num_comp_threads` | Arithmetic | proved: All integer settings. |
| C53 | `calc_halos` scratch spans, `find_scratch_write_halos`, `adjust_scratch_span` | exact tracking of the entries of the shadow halos through the parts of a stage (kept by later parts, covered by own reads, taken from a stage that needs the part); spec `same_vars`/`writes_var` on the equations; witness for two parts writing one scratch var (`_refuted`) | partial: False in general: scratch parts that write the same scratch var under different conditions are handled one by one, so the span of the first grows after its reads have been recorded. Proved for all solutions in which parts that share a scratch var write the same vars (in particular when every scratch var has one equation): every read of every equation of a needed scratch part, at every point of its span, is inside the halo of the var read. |
| C54 | `Retune_Model`: `AutoTuner::adjust_settings` calling `update_tb_info` only, on top of `Tile_Model`, `Adjust_Model`, `Tuner_Model` | Mega-block sizes and block steps are invariants of the tuner when mega-blocks are no target; hence the recomputed part equals the whole; results from the theorem behind C02/C03 | partial: False when mega-blocks are among the targets: the wave-front angle stays that of the old sizes (refuted with a wrong final value). Proved for all other targets: parameters as if freshly prepared, same instances, same memory; with temporal blocking under the room condition of C03. |
| C55 | `Job_Model` on top of `Tile_Model`: passes of `run_solution`, exterior sections, packing, interior section, unpacking, per rank memories; `JobSetup_Spec` joins it to `Rank_Model` and `Exchange_Model` (messages, interior); `JobFlags_Model` adds the dirty flags of `update_var_info`, `calc_micro_block` and `exchange_halos` | Induction over the layers (step, stage) of a pass: the rank agrees with the global memory on its points, halos and the part of the extension not yet given up; the interior never writes what a neighbour keeps, so packing early is harmless. The set-up job: grid of ranks gives disjoint ranks and owners, messages bring each halo point from its owner, interior folds leave out what is sent. Flags: a point that a neighbour writes in its extension is written by its owner in the same pass, before packing, so the owner has marked it | partial: Passes, overlapped exterior/interior, halo exchange between passes, dirty flags; the job equals the step-by-step run over the whole domain, for any ranks and settings. Shown for exchanges that deliver the packed values of the owner, for the job as the code sets it up (ranks of setup_rank, messages of C13, interiors of alloc_mpi_data), and with the flags set by the calls and choosing the messages (nothing left to assume of the exchange; whole-vector ranks must be aligned, C13). With temporal blocking under the room condition of C03. |
| C56 | `Nano_Model`: boundaries, masks, border parts of `calc_nano_block_opt` and the nano-/pico-block loops of `calc_vectors` | Per dim the full, left and right section hit each point once (div/mod arithmetic, bits of the masks by induction over the visit order); sum over all choices of sections = product over the dims; the choices enumerated through C45 | proved: All ranges, offsets, folds up to 63 points, up to 8 dims (with 9 n_choose_k_set leaves its work array). Stencil arithmetic left out: the result is the list of vectors with masks. |
| C57 | `Micro_Model` on top of `Nano_Model`, `Scan_Model`, `Bind_Model`, `Bbox_Model`: `StencilPartBase::calc_micro_block`, `adjust_scratch_span`, the loop over the parts of a stage | Composition of exact covers: full boxes (C16), nano-blocks (C05, C17), vectors (C56); one invariant over the parts processed so far for evaluation once, order and initialisation | proved: All ranges, sub-domains, numbers of inner threads with or without binding, folds up to 63 points, up to 8 dims. Stencil arithmetic left out: the result is a log of initialisations and writes. That the required parts are listed with what they need first is taken from the compiler (C31). |
| C58 | `Buf_Model`: `get_point_stats`, `print_buffer_code`, `print_aligned_vec_read`, `read_from_point`, early loads and the order of `calc_vectors`, as a generator of instructions, and a machine that runs them | Invariant of the table of lowest and highest offsets; invariant of the loop: entry i of a buffer holds the vector at index + lowest offset + i as it was before the loop unless something overwrote it, local vectors hold the values at the start of the index | proved: Generator and generated code are both modelled; the equality is between running the generated code and a plain loop over memory. That parts meet the two conditions on reads and writes is C30/C31 (dependences inside a part) and C35 (no slot shared by points read at offsets). |
| C59 | `Ptr_Model`: `make_var_base_point`, `make_inner_loop_base_point`, `print_var_base_ptr`, `print_strides`, `print_inner_loop_prefix`, `print_end_inner_loop`, `get_var_base_ptr_offset`, `get_inner_loop_ptr_offset` and the checks of `Eqs.cpp`; storage of `Var_Model` | The layout is a sum of index times stride; the fixed strides are the products of the sizes after the dim; offsets put into the base pointer cancel against the index-invariant offset; then the vector is tied to the element access of C19 | proved: Positions in the storage of Var_Model for all pointer settings. Finding: the base pointers of relocated scratch vars, and of folded vars with the safe-pointer setting, lie outside of the storage although the addresses computed from them are right. |
| C60 | `Ptr_Model`: `print_unaligned_vec_read`, `make_point_call_vec`, storage of `Var_Model` | Case split on the args; the refutation is a computed witness | partial: False: the compiler stops at an assertion for every unaligned load, and without assertions the vector index is used as the global element index. What is left is the case where both are the same number. The load itself, given the right index, is C40_unaligned_load. |
| C61 | `Print_Model`: `PrintVisitorTopDown`, `PrintVisitorBottomUp` with its temporary variables, `try_simple_print`, `make_next_temp_var`, the helper texts of `PrintHelper`, `format_real`; text as a list of pieces; `Pair_Model`: `PairingVisitor`, `FuncExpr::make_pair` | `Print_Spec` has a recursive-descent reader of the C++ grammar with integer and real arithmetic. Texts are classified by what the reader makes of them in any context; then induction over the expression with the invariant that every saved temporary variable holds the value of its node. Pairing: invariant that paired nodes have operands of the same values; composed with the CSE theorem of C38 | partial: Proved for every graph of printable expressions, and for the code after common-sub-expression elimination and pairing of functions; the refutations show that the excluded cases (quotients of integer constants, repeated negation, large integer products, domain indices, negation together with subtraction) really fail. Not covered: index variables and modulo on the right-hand side in general. |
| C62 | `Print_Model`: `format_real` with `dec16` (scientific output with 15 digits after the point, ties to even) | The exponent search is right, rounding gives a closest 16-digit number; doubles around a double that is no power of two are at least one unit away, so if some 16-digit number is read as it, the closest one is as well | partial: Proved: 16 correct digits below 2^31, hence the same double for constants that were written with at most 16 digits (powers of two aside). False in general: three witnesses. Assumes correctly rounded conversions by the C++ library and compiler, and doubles without exponent limits. |
| C63 | `Fuse_Model`: `YkVarImpl::fuse_vars`, `is_storage_layout_identical`, `StencilContext::fuse_vars`, sizing of vars and `max_halos` in `update_var_info`, on top of `Resize_Model` | Handles and the objects they refer to; invariants over any sequence of API calls; halos and names never change while vars are sized. The refutations run the tiling of C02 and the message set-up of C13 on the state after the merge | partial: False for a var of the solution that is merged with a var of the user (wrong way round test of is_user_var): nothing is checked, its halos are not counted and not exchanged. Proved: the comparison of layouts, merging into a var of the user, that merged vars stay one var, and sizes and halos after calls that merge no user var into the solution. |
| C64 | `Cond_Model`: the print visitors on conditions, both ways of formatting constants, `print_domain_cond`/`valid_domain` and `is_in_valid_step` as lists of pieces of text | `Cond_Spec` reads the text as C++ (operator levels, decrement, int/idx_t/double/bool) and evaluates it; the meaning of a condition is a separate relation on rationals. Induction over the condition, with the kind and size of each operand, for every rounding that is monotone and keeps integers up to 2^53 | partial: Proved for all conditions of comparisons, and, or, not over sums, differences, products, negations and modulo of indices, first/last indices and constants within the stated ranges; each refutation shows what happens outside one of the ranges. Var reads in conditions are not covered. |
| C65 | `Ref_Model`: `run_ref`, `calc_in_domain`, the order of required parts; `Micro_Model` for the micro-blocks | `Ref_Spec` gives logs of evaluations a meaning on memories (stencil of `Sched_Spec`) and states what a stage should compute with scratch vars as functions on the unlimited space; invariant over the parts done and the vars seen, existence and uniqueness of the scratch values, induction over micro-blocks, stages and steps | partial: False with the default of the option -init_scratch_vars (off): where no condition applies, a micro-block reads what was in the scratch var before. Proved for all stencils, conditions, cuts and numbers of steps with the option on or without conditions on scratch parts, for one rank and micro-blocks one after the other (no temporal blocking), given what C37, C53 and the dependency checker provide (spans wide enough, writers required and before readers, at most one equation of a scratch var applies at a point). |
| C66 | `Compare_Model`: `YkVarBase::compare`, `are_dims_and_sizes_same`, `within_tolerance` on finite numbers, infinities and NaN with a rounding function, `compare_data`, the answer of `yask_main` | The visits of the allocation are those of C42; the map from allocation offsets to API indices is injective and onto the result elements; reads agree with `get_element` of C18/C23; any step is the element of its slot. Tolerance: a strict order of rounded numbers implies the order of the exact ones | proved: Comparison of a var, of all output vars, and the tolerance for any monotone, symmetric rounding that keeps the numbers of the type. NaN is never accepted, not even where the reference is NaN too, and elements outside the domain are not compared (as the code says). |
| C67 | `SetDims_Model`: `Dimensions::set_dims` in the order of the code (scan of settings and vars, inner-loop dim, requested fold, adjusted fold with `get_compact_factors` of C44, layout order) and `Var::set_dim_counts` | Invariant of the scan; the fold sizes by the factorisation theorems of C44 on the hints without the inner-loop dim; the layout by tracking the parts inserted and moved | partial: All parts proved, except that two are false of the code: C67_all_legal_accepted_refuted (with one-dim folding, a solution whose inner-loop dim is the last domain dim but one is rejected with an internal fault unless the sizes asked for give the vector length; C67_accepted_iff shows that this is the only such case) and C67_one_kind_refuted (a name can be a step and a domain dim). Evenness (C67_request_kept) is about the dims other than the inner-loop dim, which is what the code aims at. |
| C68 | `Link_Model`: from the parts and stages of `Parts_Model` to the parts of `Micro_Model`: conditions, write halos of `Span_Model`, stages, scratch stages, required parts, and the stencil that the code of a part computes | `Link_Spec` gives the equations a meaning without parts, stages or spans. The order of parts and the dependency graphs of `build` give writers before readers; C53 gives the spans; the reads of an equation in its part are those of the stencil; then C65 with its hypotheses discharged; existence by running, uniqueness by induction over the order of the parts | proved: Discharges the hypotheses of C65 from the models of the compiler (C37, C53 and the equation and part analyses). Stated conditions: option -init_scratch_vars on or no conditions on scratch vars (C65 shows that it fails otherwise), parts that share a scratch var write the same vars (C53 shows that it fails otherwise), equations of one var exclude each other, enough steps kept (C68_computed_sizes_leave_room: the number of steps that the compiler computes is enough for the stated kinds of reads), no misc dims; one rank, micro-blocks one after the other (no temporal blocking), exact right-hand sides (a function of the values read). |
| C69 | `Stats_Model`: `Stage::init_work_stats`, `intersection_with`, the step counters of `run_solution` and `run_ref`, `get_stats`, `clear_timers` | Boxes of two parts intersected pairwise are an exact cover of the points where both conditions hold (C16); sums over the maps by name; steps by the chunks of C02; induction over calls | partial: Proved: points of every part and required scratch part, sums over stages and ranks, steps of any sequence of runs. Refuted: work of parts with a step condition is counted in every step (the counter per stage ignores the condition, against the comment in run_solution), writes of scratch vars are counted as writes of output vars, points in the overlap of ranks are counted twice with wave-fronts, and steps of the reference run are counted as steps of run_solution() but without work. |
| C70 | Trial_Model: options, warm-up and calibration loop, averages over ranks, choice of steps, sorting and report of yask_main.cpp; a list per rank, UB when ranks part | Trial_Spec: need, mean_up, fitted, has_rank, nearest_rank_50, is_min, is_max, is_variance; invariant of the loop (all ranks hold the same number of steps) in Trial_Proofs, sortedness and counting for the report | proved: Times are whole nanoseconds and rates exact (no rounding of double); runs and the auto-tuner are oracles. The ranks must agree on whether to warm up and whether a trial time is wanted, which the code does not compare (C70_unchecked_warmup_refuted). Chosen steps in the range of int. The order of trials with equal times is that of a stable sort. The report is wrong for the percentile of an even number of trials, the deviation of two trials and the minimum if a trial has no throughput (three theorems _refuted). |
| C71 | `NewVar_Model`: the check of the dims, the choice between a layout of the stencil and a new one, the ctor with its dim tuple, `add_var`, and the setters called for sizes and pads, run on the vars of `Resize_Model` (C27) | `NewVar_Spec`: `soln_ok`, `valid`, `created`. Settings without pads evolve by the edits alone; the edits of one dim are those of its own calls (names differ); pads from the invariant of resize() | partial: Valid requests (no repeated dim, no negative size): proved. Rejection: proved for lists of dims without repetition; with a repeated dim it is false (C71_repeated_dims_refuted), and a rejected request can leave new misc dims behind (C71_failed_call_refuted). Only the sizes of the new var are followed; local offsets and device copies are left out; idx_t is unbounded. |
| C72 | `Coll_Model`: neighbors of a rank, sizes of send and receive buffers per var and neighbor, the request for shared memory, and the sequence of calls on `shm_comm` of the three passes of `alloc_mpi_data` with `_alloc_data` | `Coll_Spec`: `job_ok`, `rank_at`, `exchanged`, `two_sided`, `next_to`, `has_partner`. A face neighbor always exists in a dim with two ranks and its buffer is positive if the halo is; conversely a positive buffer needs a halo in a dim where the neighbor differs; sums of sizes that are not negative are positive if one is. `Coll2_Spec`: `sent`, `sends_here`, `shares_here` give the exact condition; the lists of calls are compared at their heads. | partial: Proved: which vars have buffers, the same on all ranks; exactly when two ranks make the same calls (C72_calls_iff); hence the same sequence of collective calls for ranks that exchange some var with a rank next to them on the node, and for all ranks if all are on one node, with halos on both sides or none. Without these conditions it is false (C72_one_sided_refuted, C72_spread_refuted). Sizes in elements; only calls on the communicator of the node during the allocation of buffers are followed; option use_shm on. |
| C73 | `Share_Model`: send buffers of a rank for neighbors on the node, their placement with `ROUND_UP` and pad (passes 0 and 1 of `alloc_mpi_data`), the row of the offset table, and the look-up of pass 2; sizes from `Coll_Model` | `Share_Spec`: `node_ok`, `touch`, `toward`, `apart`. Receive and send extents agree dim by dim; a table entry that is written has the offset of some buffer with its key, and the key determines the neighbor because ranks on the node have different numbers; placement by induction. | proved: Assumes that ranks have different numbers on the node and that the size of a rank in a dim depends on its position in this dim only (C11); bytes are not bounded; the exchange of the table rows is that of C72. |

## 4. Findings (the code violates the property)

Each is a theorem with a concrete witness about the model; the lines cited in the model file say where the code does it.

* `C03_small_last_block_refuted` - src/kernel/lib/context.cpp shift_micro_block / setup.cpp update_tb_info: `tb_steps` is limited by the nominal block size, but the last block of a mega-block may be narrower. Then its trapezoid vanishes and the bridge of the block before it reaches into points whose earlier step is evaluated in the same phase by the last block: a race, and a wrong result even with one thread (19 points, halo 2, blocks of 16, 3 steps).
* `C04_small_last_block_refuted` - Consequence of the finding for C03 (narrow remainder block at the end of a mega-block): with 19 points, halo 2, blocks of 16 points and three steps, running step 0 and then steps 1-2 leaves other values than running steps 0-2 in one call.
* `C05_empty_range_refuted` - src/kernel/gen_loops.pl (aligned loops): for begin = end with a begin that is not a multiple of the alignment one empty sub-range is produced, i.e. the body is called once.
* `C07_refuted` - gen_loops.pl: if the stride is not a multiple of the alignment, inner boundaries are not aligned (not reachable through ScanIndices, which rounds strides).
* `C08_two_inverted_refuted` - gen_loops.pl: with two inverted ranges (end < begin in two dims) the product of the iteration counts is positive and the body is called for points outside the region.
* `C08_misaligned_refuted` - gen_loops.pl: an empty range with a misaligned begin still has one iteration.
* `C08_manual_refuted` - gen_loops.pl: the manually distributed loop divides by the iteration count, which is zero for an empty dim.
* `C09_parallel_for_refuted` - src/common/common_utils.hpp yask_parallel_for: the nested-thread branch ignores `begin`; sub-ranges start at 0.
* `C13_stale_refuted` - src/kernel/lib/alloc.cpp: with explicit rank sizes that are not multiples of the fold, a buffer that is rounded to whole vectors also holds points owned by a third rank; a stale copy overwrites the value received from the owner.
* `C14_windows_refuted` - src/kernel/lib/halo.cpp exchange_halos: sender and receiver pair the swapped steps by position in their own window of valid steps; a slice written at a later step by one rank only (yk_var.cpp set_dirty_in_slice) moves the window of that rank, and the values are put into the wrong slots of the neighbor.
* `C14_halo_write_refuted` - A value written through the API into the halo of a rank is not replaced by the value of the owner until the owner writes the step again.
* `C17_position_refuted` - src/kernel/lib/stencil_calc.cpp calc_micro_block: the slab-to-thread map adds a constant 4096; if the slab width does not divide it, the thread computing a point changes with the block.
* `C22_set_element_moves_window_refuted` - src/kernel/lib/yk_var_apis.cpp set_element: the valid-step window is not moved although the API documentation says so; the element just written cannot be read.
* `C25_slice_outside_refuted` - src/kernel/lib/yk_var.cpp check_indices: with strict_indices = false a slice that misses the allocation is clipped to a non-empty boundary slice, which is written and counted.
* `C25_window_moved_refuted` - yk_var.cpp set_dirty_in_slice: writing a slice whose steps are beyond the window moves the window step by step and invalidates elements.
* `C26_max_refuted` - src/kernel/lib/yk_var.hpp/yk_var_apis: the maximum starts at the smallest positive double (numeric_limits::min), so the maximum of negative data is wrong.
* `C26_sum_squares_refuted` - get_sum_squares returns the sum instead of the sum of squares.
* `C26_min_refuted` - The minimum is returned only if the sum bit was requested.
* `C27_failed_setter_refuted` - src/kernel/lib/yk_var_apis.cpp: a size setter whose resize throws keeps its assignment, so later accesses see sizes without storage.
* `C28_scratch_slot_refuted` - src/kernel/lib/alloc.cpp: the room reserved for a scratch slot is that of the first var of the slot; a larger var in the same slot overlaps the next slot.
* `C29_run_ref_refuted` - context.cpp run_ref: modifies host data without recording it, so later device use sees old data.
* `C29_set_all_assert_refuted` - yk_var.hpp Coherency::mod_both asserts a condition that is always false after setting all elements.
* `C30_cond_refuted` - compiler/lib/Eqs.cpp: reads inside step conditions are no dependencies.
* `C30_stages_refuted` - compiler/lib/Parts.cpp: merging parts into stages can report a cycle for acyclic equations.
* `C32_backward_refuted` - Eqs.cpp: the check for backward stepping compares the direction with -11 (typo), so future reads are accepted.
* `C32_scratch_refuted` - Eqs.cpp: step indices read by scratch equations are not checked.
* `C34_refuted` - Eqs.cpp calc_halos: distances are taken from net offsets; offsets cancelling through a scratch var lose a diagonal exchange.
* `C35_two_stages_refuted` - compiler/lib/Var.cpp get_step_dim_size: write-back optimisation keeps one slot too few when a later stage reads the old step.
* `C35_written_back_refuted` - Var.cpp: the same for another equation of the same stage reading the overwritten step.
* `C36_refuted` - Var.cpp 476-484: the computed size is stored after the override; set_step_alloc_size has no effect.
* `C37_shared_part_refuted` - Lifespans are per stage part order, but a scratch part needed by two parts is evaluated once; a slot can be overwritten in between.
* `C38_cse_refuted` - `UnaryExpr::is_same` (compiler/lib/Expr.hpp:404-408) casts the other node to `UnaryExpr`, from which `BinaryExpr` is derived, and compares op strings; `NegExpr` and `SubExpr` both use "-". So `-b` matches `a-b`, and common-sub-expression elimination turns `(a-b)*(-b)` into `(a-b)*(a-b)`.
* `C41_erase_twice_refuted` - common/common_utils.hpp vector_set::erase leaves stale positions; a second erase is undefined behaviour.
* `C41_remove_part_refuted` - Reachable: the compiler trial-adds a part with two equations and removes it again.
* `C42_tuple_visit_refuted` - common/tuple.hpp visit_all_points visits one point of an empty box.
* `C44_preset_changed_refuted` - common/tuple.hpp get_compact_factors changes preset factors that do not divide the total.
* `C44_one_refuted` - The same for a total of one.
* `C45_work_array_refuted` - common/combo: the work array has 8 entries; k > 8 writes past it.
* `C45_overflow_refuted` - common/combo: int binomials overflow.
* `C46_few_points_refuted` - common/fd_coeff.cpp: with fewer than order+1 points the work array is read out of bounds.
* `C47_round_trip_refuted` - common/yask_common_api utilities: quote_whitespace puts the wrong kind of quotes around text containing quotes.
* `C48_int_value_refuted` - command-line parser: int options silently truncate 64-bit numbers.
* `C50_zero_time_refuted` - src/kernel/lib/auto_tuner.cpp: `best_sizes` is set only when a rate is above 0. If all trials of the first target measure no time (rate 0), `center_sizes = best_sizes` copies a tuple without dims and `center_sizes[dname]` dereferences a null pointer (only an assert guards it).
* `C51_one_dim_share_refuted` - src/kernel/lib/settings.cpp:885: `_block_sizes[_bind_posn - 1]` indexes a tuple that starts with the step dim, so for a one-dim stencil the (zero) step size is divided among the inner threads instead of the block size, and one nano-block covers the block: the other inner threads get no work.
* `C51_loop_tiles_refuted` - `USE_TILING` is defined nowhere in src, so the tile sizes used by the `tile` path of gen_loops.pl (457-502) stay zero; a loop generated with that path computes `% 0`.
* `C53_refuted` - stencil_calc / Eqs: two scratch parts writing one scratch var under different conditions are handled one by one, so the span of the first grows after its reads have been recorded.
* `C54_mega_refuted` - src/kernel/lib/auto_tuner.cpp:488-499 recomputes settings and temporal-block data, but not the wave-front angles of `update_var_info` (setup.cpp:738-752). If the solution was prepared with one mega-block per rank (angle 0) and `-auto_tune_targets mega_block` shrinks it, wave-fronts of two or more steps run with angle 0 and read values that are not computed yet. Witness: 20 points, two steps, mega-block tuned from 20 to 14 points; point 13 gets a wrong value.
* `C59_base_pointer_refuted` - src/compiler/lib/Cpp.cpp:129-145,178-218,325-357: the base pointer of a folded var is made with `get_vec_ptr_norm`, which takes vector indices, but the offsets passed to it are in elements (`_local_offsets` of a scratch var; `_actl_left_pads` with the safe-pointer setting). The pointer lies outside of the allocation when the fold is longer than 1 (undefined in C++, and the safe-pointer setting misses its purpose); all addresses computed from it are right because the same number is subtracted again. Witness: 1-D scratch var of 4 vectors relocated to element 16: base pointer at vector 13; var with 4 elements of left pad: base pointer at vector -3.
* `C60_unaligned_load_refuted` - src/compiler/lib/Cpp.cpp:1102: `make_point_call_vec` is called with `is_vec_norm = false` and no var map, so the assertion at Cpp.cpp:102-104 fails and the compiler option for unaligned loads cannot be used with a compiler built with assertions (the default). Without assertions the index names stay vector indices relative to the rank, but `get_elem_ptr` takes global element indices. Witness: fold of 4, read of A(x+1) in the third vector: the load is from A(3) instead of A(9).
* `C61_pairing_refuted` - src/compiler/lib/Expr.cpp:572-592: pairing uses `is_same`, and `NegExpr::is_same` accepts a `SubExpr` with the same right-hand side (see C38_cse_refuted). `sin(a - b)` and `cos(-b)` are paired, and the one call that is printed computes `cos(a - b)`.
* `C61_division_refuted` - src/compiler/lib/Cpp.cpp:39-53: a constant with an integer value is printed as an int literal, and nothing folds constants. The quotient of two constant nodes, e.g. `constNum(1) / constNum(3)`, is printed `(1 / 3)`, an integer division with result 0.
* `C61_negation_refuted` - src/compiler/lib/Print.cpp:87-90: the operand of a unary minus is printed right after it, so `-(-v)` becomes `--v` (and the negation of the constant -2 becomes `--2`): the generated code does not compile, or decrements.
* `C61_overflow_refuted` - src/compiler/lib/Cpp.cpp:39-53: products and sums of integer-valued constants are computed as ints: `(100000 * 100000 * v)` overflows, which is undefined.
* `C61_index_refuted` - src/compiler/lib/YaskKernel.cpp:559-580,649-669: a domain index used as a value on the right-hand side of an equation is not rejected. In `calc_scalar` its variable is the global index; in `calc_vectors` it is the index of the vector relative to the rank, the same for all lanes. The result depends on whether a point is computed by scalar or vector code.
* `C62_precision_refuted` - src/compiler/lib/Cpp.cpp:50: `setprecision(15)` in scientific format gives 16 significant digits; doubles need 17. Witness: 0.1 + 0.2 is printed as 3.000000000000000e-01, which is the double 0.3.
* `C62_power_refuted` - Same line: even a double that a literal of 16 digits is read as may change, if it is a power of two: 5.960464477539063e-08 is read as 2^-24, which is printed as 5.960464477539062e-08, another double.
* `C62_range_refuted` - src/compiler/lib/Cpp.cpp:45: `int(v)` is undefined for constants of at least 2^31, e.g. 1e10.
* `C63_check_refuted` - src/kernel/lib/yk_var_apis.cpp:343-350: the comment says "fusing into a non-user var" but the test is `if (gb().is_user_var())`. A var of the solution can be merged with a var of another fold and size; the generated code then casts it to the wrong type. The documented check of a fixed-size source in prepare_solution() does not exist.
* `C63_halos_refuted` - src/kernel/lib/yk_var_apis.cpp:361-363 with setup.cpp:710: a var of the solution that was merged with a var of the user stays tagged as user var, so its halos are left out of `max_halos`. The wave-front angle becomes 0 and a tiled run leaves wrong values.
* `C63_exchange_refuted` - src/kernel/lib/yk_var_apis.cpp:358 with alloc.cpp:503-523: merging replaces the L1 distance calculated by the compiler by the 0 of the new var, so its halos are not exchanged any more between ranks.
* `C63_fixed_size_refuted` - src/kernel/lib/yk_var_apis.cpp:361-363 with setup.cpp:690-692: merging one var of the user into another clears the user tag of the source, and prepare_solution() then resizes it although it is a fixed-size var.
* `C63_alias_refuted` - include/aux/yk_var_api.hpp:1372-1376: "any subsequent API applied to this var or the source var" does not hold for a second fuse_vars() on the source: the first var keeps the old object.
* `C64_modulo_refuted` - src/compiler/lib/YaskKernel.cpp:500-523 (example: `IF_STEP t % 2 == 1`): the C++ operator keeps the sign, so in a run backwards in time the condition is false at odd negative steps.
* `C64_division_refuted` - src/compiler/lib/YaskKernel.cpp:469-483: indices and integer constants are printed as integers, so `x / 2 == 1` is also true at x = 3. The step condition has the same form.
* `C64_precision_refuted` - src/compiler/lib/Print.hpp:132-147: constants in domain conditions are printed with std::to_string (six digits after the point), so a bound like `last_x * 0.333251953125` moves by a point in a large domain; step conditions print 15 digits.
* `C64_negation_refuted` - src/compiler/lib/Print.cpp: a double negation is printed as `--x`, which C++ reads as a decrement of the argument.
* `C64_overflow_refuted` - src/compiler/lib/Print.hpp:132-147: products of integer constants are products of ints; `x < 100000 * 100000` overflows.
* `C64_range_refuted` - src/compiler/lib/Print.hpp:132-147: the test whether a constant is an integer converts it to int, which is undefined for 3000000000.
* `C64_modulo_real_refuted` - include/aux/yc_node_api.hpp says that modulo converts its operands to integers; the printed `%` is not compiled for a double operand.
* `C65_scratch_left_uninitialised_refuted` - src/kernel/lib/settings.hpp:274, stencil_calc.cpp:93-112: scratch vars are not initialised by default, but the reference run (context.cpp:161-170) sets them to zero: with a domain condition on a scratch part, the results depend on what the thread left in the scratch var.
* `C67_all_legal_accepted_refuted` - Settings.cpp:216-241: without efficient multi-dim folding (all targets but AVX-512) the whole vector is put into the last domain dim but one; if that is the inner-loop dim, the loop at 236-247 overwrites it by the inner size and compilation ends with "(internal fault) failed to set folding". Reached e.g. by a 2-dim solution with fold x=2,y=2 and inner-loop-dim 1 and 8 elements per vector, the options of the test at Makefile:1115.
* `C67_one_kind_refuted` - Settings.cpp:54-108 never checks that a name is only used for one kind of dim: with `-domain-dims t,x` the step dim t of the vars is also a domain dim.
* `C69_step_condition_refuted` - context.cpp:586-593: the comment says that steps are counted per stage "to properly account for step conditions", but every stage gets all steps, and init_work_stats ignores the condition: writes, reads and operations of parts with a step condition are counted in steps where they do nothing.
* `C69_scratch_refuted` - stencil_calc.cpp:488-518: writes of required scratch parts are added to num_writes_per_step, although yk_stats::get_num_writes_done() documents the sum over output vars (and the halos of the scratch vars are not counted, see the TODO at 499).
* `C69_overlap_refuted` - setup.cpp:1113-1155, stencil_calc.cpp:483-507: the boxes of the parts are looked for in ext_bb, so with wave-front extensions the points between ranks are counted by both ranks in every step.
* `C69_reference_run_refuted` - context.cpp:207: run_ref adds to steps_done but not to the steps of the stages, so the statistics after a reference run report steps without work.
* `C70_unchecked_warmup_refuted` - yask_main.cpp:209-212 compares the numbers of trials and steps over the ranks, but not -warmup and -trial_time (nor -pre_auto_tune): ranks started with different values reach different barriers and runs and hang.
* `C70_nearest_rank_refuted` - yask_main.cpp:490-492, 541-546: for an even number n of trials the report says that the 50th-percentile trial was chosen with the nearest-rank method; that gives rank n/2, the code takes rank n/2+1 (index n/2 from 0), for two trials the slower one.
* `C70_two_trials_refuted` - yask_main.cpp:508: the standard deviation is reported as 0 for two trials (n > 2 where n > 1 is enough).
* `C70_zero_throughput_refuted` - yask_main.cpp:500-503: 0 marks "no minimum yet", so a trial with throughput 0 (no measurable time) is forgotten and a larger minimum reported.
* `C71_repeated_dims_refuted` - new_var.cpp:66-74: nothing is ever inserted into seen_dims, so a repeated dim name is not rejected; the dim tuple then has fewer dims than the var (generic_var.cpp:37-38), and resize() in the ctor writes through the null pointer that lookup returns for the missing position (yk_var.cpp:350, tuple.hpp:321-325).
* `C71_failed_call_refuted` - new_var.cpp:96: new misc dims are added to the solution while the dims are still being checked; if a later dim is wrong (or there are too many, or the name is used) the call throws and get_misc_dim_names() reports dims of no var.
* `C72_one_sided_refuted` - alloc.cpp:286-287 skips a request of zero bytes, but the request for shared memory leads to the collective MPI_Win_allocate_shared (alloc.cpp:230). With a halo on one side only, the last rank of a line on one node receives and sends nothing: its receive buffers are in the memory of the others (alloc.cpp:953), so it asks for zero bytes and goes on to MPI_Barrier (1027) while the others wait in the allocation. Shared memory is used by default (settings.hpp:251).
* `C72_spread_refuted` - alloc.cpp:926-930, 1009: do_shm and the request are set only by neighbors on the own node. A rank whose neighbors are all on other nodes makes neither the window nor the broadcasts on shm_comm, while other ranks of the node that are neighbors of each other do.

## 5. Assumptions per theorem

`Print Assumptions` stands below every theorem and prints "Closed under the global context" for each of:

* C01: `C01_respects`, `C01_conflict_order`
* C02: `C02_once_in_order_same_values`, `C02_own_points`, `C02_needed_points`, `C02_equals_untiled`
* C03: `C03_blocks_partial`, `C03_small_last_block_refuted`
* C04: `C04_split_job_partial`, `C04_split_same_memory_partial`, `C04_split_own_points_partial`, `C04_split_once_partial`, `C04_small_last_block_refuted`
* C05: `C05_cover`, `C05_empty_range_refuted`
* C06: `C06_permutation`, `C06_grid`
* C07: `C07_aligned_partial`, `C07_levels`, `C07_vectors_not_split`, `C07_refuted`
* C08: `C08_nested_partial`, `C08_flat_partial`, `C08_aligned_partial`, `C08_two_inverted_refuted`, `C08_misaligned_refuted`, `C08_manual_refuted`
* C09: `C09_parallel_for_partial`, `C09_parallel_for_refuted`, `C09_sequential_for`
* C10: `C10_div_equally`
* C11: `C11_tiles`, `C11_auto`
* C12: `C12_same_points_once`
* C13: `C13_agree`, `C13_same_vars`, `C13_exchange`, `C13_auto_aligned`, `C13_stale_refuted`
* C14: `C14_fresh_partial`, `C14_windows_refuted`, `C14_halo_write_refuted`
* C15: `C15_handover`, `C15_no_deadlock`, `C15_can_finish`
* C16: `C16_part`, `C16_all_stages`, `C16_eval`
* C17: `C17_cover`, `C17_position_partial`, `C17_position_refuted`
* C18: `C18_element_storage`
* C19: `C19_folded_storage`, `C19_vector_lanes`, `C19_lanes_distinct`
* C20: `C20_layout_bijection`, `C20_strides`
* C21: `C21_step_wrap`
* C22: `C22_window_update`, `C22_window_after_history`, `C22_last_write_readable`, `C22_valid_steps_hold_their_values`, `C22_set_element_moves_window_refuted`
* C23: `C23_element_access`
* C24: `C24_get_slice`, `C24_set_slice`, `C24_round_trip`, `C24_errors`
* C25: `C25_nonstrict_set_partial`, `C25_nonstrict_reduce_partial`, `C25_slice_outside_refuted`, `C25_window_moved_refuted`
* C26: `C26_reductions_partial`, `C26_max_refuted`, `C26_sum_squares_refuted`, `C26_min_refuted`
* C27: `C27_resize`, `C27_new_var`, `C27_any_calls`, `C27_well_formed`, `C27_failed_setter_refuted`
* C28: `C28_order`, `C28_vars`, `C28_buffers`, `C28_shared_buffer`, `C28_scratch_partial`, `C28_scratch_slot_refuted`
* C29: `C29_coherent`, `C29_api_reads`, `C29_run_ref_refuted`, `C29_set_all_assert_refuted`
* C30: `C30_closure`, `C30_equations_partial`, `C30_cond_refuted`, `C30_stages_refuted`
* C31: `C31_topo_sort`, `C31_parts`, `C31_stages_partial`
* C32: `C32_accepted_partial`, `C32_forward`, `C32_backward_refuted`, `C32_scratch_refuted`
* C33: `C33_halos_cover`
* C34: `C34_dist_partial`, `C34_one_dim_partial`, `C34_refuted`
* C35: `C35_kept_partial`, `C35_two_stages_refuted`, `C35_written_back_refuted`
* C36: `C36_refuted`, `C36_overrides_ignored`, `C36_computed_partial`
* C37: `C37_slots`, `C37_stage_partial`, `C37_shared_part_refuted`
* C38: `C38_build`, `C38_combine`, `C38_reorder`, `C38_cse_partial`, `C38_cse_refuted`
* C39: `C39_offset`, `C39_const`, `C39_replaced`, `C39_replaced_again`
* C40: `C40_read`, `C40_unaligned_load`
* C41: `C41_one_erase_partial`, `C41_back_erases_partial`, `C41_erase_twice_refuted`, `C41_remove_part_refuted`
* C42: `C42_layout`, `C42_indices_visit`, `C42_tuple_visit_partial`, `C42_tuple_visit_refuted`
* C43: `C43_tuple_order`
* C44: `C44_factors_partial`, `C44_preset_changed_refuted`, `C44_one_refuted`
* C45: `C45_enumeration_partial`, `C45_coefficient`, `C45_work_array_refuted`, `C45_overflow_refuted`
* C46: `C46_exact_on_polynomials`, `C46_center`, `C46_forward`, `C46_backward`, `C46_errors`, `C46_few_points_refuted`
* C47: `C47_round_trip_partial`, `C47_exact`, `C47_remainder_partial`, `C47_round_trip_refuted`
* C48: `C48_parse`, `C48_accepts`, `C48_last_wins`, `C48_int_value_refuted`
* C49: `C49_elapsed`, `C49_get_anywhere`, `C49_stop_value`, `C49_queries_harmless`
* C50: `C50_stops`, `C50_legal`, `C50_call_back`, `C50_zero_time_refuted`
* C51: `C51_nested`, `C51_aligned`, `C51_again`, `C51_counts`, `C51_slabs`, `C51_tiling_conditions`, `C51_one_dim_share_refuted`, `C51_loop_tiles_refuted`
* C52: `C52_budget`, `C52_configured`
* C53: `C53_spans_partial`, `C53_one_writer_partial`, `C53_refuted`
* C54: `C54_as_if_prepared_partial`, `C54_same_results_partial`, `C54_mega_refuted`
* C55: `C55_passes_do_not_fail`, `C55_passes_are_the_run`, `C55_job_gives_reference_partial`, `C55_rank_count_irrelevant_partial`, `C55_set_up`, `C55_messages`, `C55_set_up_job_partial`, `C55_set_up_jobs_agree_partial`, `C55_flag_exchange`, `C55_flag_job_partial`, `C55_flag_jobs_agree_partial`
* C56: `C56_nano_block_exactly_once`
* C57: `C57_range_exactly_once`, `C57_stage_parts_once`, `C57_scratch_init`
* C58: `C58_loop`, `C58_settings_agree`
* C59: `C59_vector_position`, `C59_base_pointer`, `C59_base_pointer_refuted`
* C60: `C60_unaligned_load_partial`, `C60_unaligned_load_refuted`
* C61: `C61_printed_value_partial`, `C61_pairing_partial`, `C61_compiled_value_partial`, `C61_pairing_refuted`, `C61_division_refuted`, `C61_negation_refuted`, `C61_overflow_refuted`, `C61_index_refuted`
* C62: `C62_constants_partial`, `C62_read_back_partial`, `C62_precision_refuted`, `C62_power_refuted`, `C62_range_refuted`
* C63: `C63_layout_identical`, `C63_fuse_user_partial`, `C63_alias_partial`, `C63_halos_partial`, `C63_fixed_size_partial`, `C63_check_refuted`, `C63_halos_refuted`, `C63_exchange_refuted`, `C63_fixed_size_refuted`, `C63_alias_refuted`
* C64: `C64_domain_partial`, `C64_step_partial`, `C64_modulo_refuted`, `C64_division_refuted`, `C64_precision_refuted`, `C64_negation_refuted`, `C64_overflow_refuted`, `C64_range_refuted`, `C64_modulo_real_refuted`
* C65: `C65_scratch_values_exist`, `C65_required_parts`, `C65_micro_blocks_compute_the_stage`, `C65_reference_computes_the_stage`, `C65_same_as_reference_run`, `C65_scratch_left_uninitialised_refuted`
* C66: `C66_each_result_compared_once`, `C66_passed_iff_all_accepted`, `C66_other_sizes_do_not_pass`, `C66_other_number_of_vars_does_not_pass`, `C66_accepted_is_close`, `C66_close_is_accepted`
* C67: `C67_dims_found`, `C67_accepted_iff`, `C67_inner_loop`, `C67_fold_sizes`, `C67_request_kept`, `C67_plain_fold`, `C67_layout`, `C67_foldable`, `C67_all_legal_accepted_refuted`, `C67_one_kind_refuted`
* C68: `C68_stages_meet_the_conditions`, `C68_runs_apply_the_equations`, `C68_equations_leave_no_choice`, `C68_computed_sizes_leave_room`
* C69: `C69_stage`, `C69_steps`, `C69_writes_partial`, `C69_step_condition_refuted`, `C69_scratch_refuted`, `C69_overlap_refuted`, `C69_reference_run_refuted`
* C70: `C70_ranks_agree`, `C70_runs_made`, `C70_calibration`, `C70_steps_chosen`, `C70_best`, `C70_printed_rank`, `C70_median`, `C70_throughput`, `C70_unchecked_warmup_refuted`, `C70_nearest_rank_refuted`, `C70_two_trials_refuted`, `C70_zero_throughput_refuted`
* C71: `C71_created`, `C71_rejected_partial`, `C71_repeated_dims_refuted`, `C71_failed_call_refuted`
* C72: `C72_same_vars`, `C72_calls_agree_partial`, `C72_one_node_partial`, `C72_calls_iff`, `C72_one_sided_refuted`, `C72_spread_refuted`
* C73: `C73_same_buffer`, `C73_inside`, `C73_apart`
