# Formal model of moocore in Rocq/Coq 8.16

This file says what is modelled, how each property of `properties.jsonl` is
expressed and proved, what is trusted, what is left out, and what the proofs
found out about the code.  The model follows the sources function by function;
each definition cites the file and the lines it models.

## 1. Conventions of the model

* **Numbers.** Coordinates are integers (`Z`).  Every finite set of finite
  doubles is, after multiplication by one power of two, a set of integers, and
  all algorithms that only compare coordinates commute with that scaling.
  For the algorithms that compute (hypervolume, epsilon, ...) the model computes
  exactly; *floating-point rounding is not modelled*, except where a property is
  about it: the threshold of vorobT (`PropVorobFloat.v`), printing and reading of
  numbers (`PropIoFloat.v`), percentiles (`PropPctFloat.v`), epsilon indicators
  (`PropEpsFloat.v`), the two-objective hypervolume (`PropHvFloat.v`) and
  normalisation (`PropNormFloat.v`); these
  use the IEEE 754 formalisation Flocq.  Where division occurs the model uses `Q`, where square roots or
  powers occur `R`.  NaN is excluded; infinities are modelled only where the code
  itself produces them (initial values of minima and maxima, sentinels).
* **Sorting.** `qsort` is unspecified on ties.  The sort is therefore an
  *argument* of the model functions, and theorems quantify over every function
  that returns a sorted permutation (`valid_sort...`), or, where this is needed,
  over every stable one (`stable_sort`).  An executable instance is used in the
  examples.  `numpy` sorts are treated in the same way.
* **Loops** are structural recursion, or recursion on fuel.  Running out of fuel
  is the distinct outcome `OutOfFuel` and is proved unreachable.
* **Memory and assertions.** Model functions return an `outcome`: `Ret v`,
  `AssertFailed` (a failed `assert`/`ASSUME`, or a Python exception),
  `OutOfBounds` (array access outside the block, null pointer) or `OutOfFuel`.
  A theorem with the conclusion `... = Ret v` therefore also proves memory safety,
  absence of assertion failures and termination.  Uninitialised memory is an
  arbitrary argument (`garbage`, `g : hvst`).
* **Trees.** The AVL trees of c/hv.c are modelled as a heap of nodes with
  pointers (`AvlModel.v`), with rotations, depths and the thread list; the
  algorithms are also modelled over the ordered sequence a tree represents, and
  `C47_hypervolume_with_pointer_tree` composes the two for the hypervolume.
  c/eaf3d.c is modelled over ordered sequences.
* **Refuted claims.** Where a property is false of the code there is a theorem
  with suffix `_refuted` that exhibits an input, next to the strongest true
  statement.  They are collected in section 6.

## 2. Specification files (independent of the algorithms)

| file | meaning |
|------|---------|
| `Spec.v` | dominance with directions, nondominated filters, Pareto rank as the length of the longest dominance chain |
| `HvSpec.v` | hypervolume as the number of unit cells between some point and the reference |
| `IndSpec.v`, `IgdSpec.v` | epsilon shifts and factors, distances |
| `EafSpec.v`, `Eaf3dSpec.v` | attainment of a location by runs, attainment surfaces in any dimension |
| `RectSpec.v`, `WhvSpec.v` | coloured rectangles, weighted area |
| `AvlSpec.v` | what it means for a pointer structure to be a balanced search tree of a sequence |
| `ProbSpec.v`, `HypeDistSpec.v` | averages over equally likely integers; weighted samples, their locations and what counts |
| `NormalSpec.v` | samplers as decision trees and their probabilities; the normal distribution function |
| `MtSpec.v` | the MT19937 recurrence as published |
| `CvectorSpec.v`, `FbSpec.v`, `NormSpec.v`, `HypeSpec.v`, `GroupSpec.v`, `PyEafSpec.v`, `VorobSpec.v`, `NdsortSpec.v`, ... | vocabulary of single properties |
| `IoSpec.v` | what a text file of data sets means, line by line |

Property theorems are in the files `Prop*.v`.  Each is followed by
`Print Assumptions` and by an `Example` showing that its hypotheses are met by a
concrete, non-trivial input.

## 3. Trusted base

* Coq's kernel (8.16.1) and the extraction-free use of it: `vm_compute` is used
  in examples and witnesses.
* `Print Assumptions` prints "Closed under the global context" for every property
  theorem except those of `PropIgd.v`, `PropRIgd.v`, `PropIndCmd.v`, `PropPyInd.v`, `PropRInd.v`,
  `PropHypeDist.v`, `PropNormal.v` and of the files `Prop*Float.v` and `PropHvApprox*.v`, some or all of which use the real numbers of the standard library and list
  `ClassicalDedekindReals.sig_not_dec`, `ClassicalDedekindReals.sig_forall_dec`,
  `FunctionalExtensionality.functional_extensionality_dep` and
  (through Flocq and Coquelicot) `Classical_Prop.classic`.  These are axioms of the standard library.  No
  axiom, parameter or hypothesis is added, no kernel check is switched off.
* The transcription of the C and Python sources into Gallina, made by reading;
  each definition cites its lines so that it can be compared.
* The C compiler, the C library (`qsort` sorts; `printf`, `scanf` as modelled in
  `IoFmt.v`), numpy and cffi behave as documented.

## 4. What is modelled and what is not

| source | modelled | model files | not modelled |
|--------|----------|-------------|--------------|
| c/nondominated.h | all functions | NondomModel, NormModel | - |
| c/nondominated.c | check_nondominated, force_bounds, process_file, main (all options but --help and --version), bounds, normalise, logarithm, output, exit status | NondomModel, FbModel, CmdModel, NdCmdModel | getopt, stderr; scanf, strtod, printf, division and log10 are any functions |
| floating point: c/epsilon.h, c/igd.h (p = 1, with overflow), hv2d, hv_contributions (two objectives), the orders of ndsort, rect_weighted_hv2d, normalise, percentiles, bisection, printing | each operation rounded to binary64 | EpsFloatModel, IgdFloatModel, HvFloatModel, HvContribFloatModel, NdsortFloatModel, WhvFloatModel, NormFloatModel, PctFloatModel, PropVorobFloat, PropIoFloat | overflow (except igd), NaN, fused operations, all other functions |
| c/pareto.c | all | ParetoRankModel | - |
| c/hv.c | hv2d, both variants (reference / shifted) of the 3-D and the recursive algorithm, setup, filtering, the AVL code | Hv2dModel, HvModel, HvShiftModel, AvlModel, HvAvlModel | the 4-D special code is not in this version |
| c/hv_contrib.c | all | HvShiftModel | the unused `uev` argument |
| c/Hypervolume_MEX.c | mexFunction, data_maximum | MexModel | the printed help, conversion of sizes to int |
| c/epsilon.h, c/igd.h | indicator functions | EpsModel, IgdModel | |
| c/dominatedsets.c | set comparison, main (options -q -v -p -o --no-check), check, results, tables, sizes of the blocks for the names | EpsModel, DsCmdModel | getopt, --help, --version, stderr; malloc, scanf and printf are any functions |
| c/eaf.c, c/eaf.h, c/eafdiff.c | 2-D sweep, levels, storage, matrices, rectangles, polygons | EafModel, EafStoreModel, RectModel, PolyModel, PolyMainModel | eaf_compute_polygon_old (not called), polygons of three objectives |
| c/main-hv.c | options -r -u -s -S, reading, bounds, reference point, output, exit status | CmdModel, HvCmdModel | getopt, -v (extra comment lines), stderr, timing; strtod and printf are any functions |
| c/epsilon.c, c/igd.c | options -a -m -o -r -s -q, --gd ... --all, --exponent-p, reading, output, exit status | CmdModel, IndCmdModel | getopt, -v (extra comment lines), stderr; scanf, atoi and printf are any functions |
| c/eaf_main.c | parsing of levels, choice of levels and streams, printing | EafMainModel, PolyMainModel | getopt, strtod (any function), number formatting, stderr |
| c/eaf3d.c | sweep of three objectives, the graph of promoters and the attained flags | Eaf3dModel (sequences), Eaf3dPtrModel (pointers in shared memory, refines it), Eaf3dFreeModel (the sets given back at the end) | reuse of freed addresses, freeing of headers and arrays, freeoutput (never called) |
| c/avl.c | all operations used by eaf3d.c: search, insert before/after, unlink, rebalance | AvlModel, Eaf3dPtrModel | avl_fixup, counting variants and the allocation wrappers not used by eaf3d.c |
| c/bit_array.h, c/cvector.h | all | BitArrayModel, CvectorModel | - |
| c/whv.c, c/whv_hype.c | all | WhvModel, HypeModel, HypeDistModel | rounding of the samples |
| c/mt19937, c/rng.c, c/rng.h | generator, seeding, uniform and normal numbers | MtModel, RngModel (tables: ZigTables) | rounding in the normal sampler |
| c/io.c, c/io_priv.h, c/io.h | reader, writers, option strings | IoModel, IoFmt, OptModel | file opening |
| c/ndsort.c | calculate_uev, main (options -q -v -r -k -o, reading, the computation, printing) | NdsortModel, NdsCmdModel | getopt, --help, --version, stderr; scanf and printf (`%g`) are any functions |
| python _moocore.py, _utils.py | hypervolume, Hypervolume, pareto_rank, is_nondominated, filter_dominated, filter_dominated_within_sets, epsilon_additive, epsilon_mult, igd, igd_plus, avg_hausdorff_dist, normalise, whv_rect, total_whv_rect, whv_hype, apply_within_sets, is_nondominated_within_sets, eaf, eafdiff, vorobT, vorobDev, read_datasets, hv_approx | with the C models, PyIndModel (with the memory of the arrays), GroupModel, PyEafModel, VorobModel, HvApproxModel | the numpy random generator; array conversion and shape errors beyond those stated |
| r/ | hypervolume, hv_contributions, is_nondominated, filter_dominated, pareto_rank, epsilon_*, igd*, avg_hausdorff_dist, eaf, eafdiff (points), vorobT, vorobDev, read_datasets, write_datasets, rbind_datasets, normalise, whv_rect, total_whv_rect, whv_hype (uniform; given samples), eafdiff (rectangles), choose_eafdiff, largest_eafdiff, utils.R, compute_eafdiff_polygon_C | RMatModel, RIndModel, REafModel, RVorobModel, RFileModel, RWhvModel, RRectModel, PolyModel | the rest of the R interface; NA, names, attributes, conversions of types |

## 5. Properties: model, method, status

Theorem names are exact; `MANIFEST.json` is the machine-readable version.

### C01 is_nondominated(keep_weakly=True) marks exactly the nondominated points

* Status: **proved**
* Model and method: `is_nondominated` over flag arrays: O(n^2) tournament (invariant: discarded rows are beaten, compared kept rows do not beat each other) and 2-D sweep over any sorted permutation.
* Theorems: `C01_is_nondominated_keep_weakly_exact`

### C02 is_nondominated(keep_weakly=False) keeps one representative of every nondominated point

* Status: **proved**
* Model and method: same models; strict filter specification: no kept row dominated, kept rows pairwise different, every row covered.
* Theorems: `C02_is_nondominated_strict_filter`, `C02_keeps_last_duplicate`

### C03 The count returned by the nondominated-set search equals the number of kept points

* Status: **partial**
* Model and method: return values of find_nondominated_set.
* Theorems: `C03_count_correct_partial`, `C03_count_2d_is_number_removed`, `C03_count_2d_refuted`
* Note: true for d<>2; false for d=2 (the 2-D routines return the number of removed rows): refuted with a witness

### C04 get_nondominated_set copies exactly the nondominated points and stays inside its buffer

* Status: **partial**
* Model and method: get_nondominated_set with a buffer of the returned size; a write past it is OutOfBounds.
* Theorems: `C04_get_nondominated_set_partial`, `C04_get_nondominated_set_2d_refuted`
* Note: true for d<>2; d=2 refuted (out-of-bounds write) as a consequence of C03

### C05 find_dominated_point answers -1 iff no point is (weakly) dominated, else the index of such a point

* Status: **proved**
* Model and method: find_dominated_point, both algorithms with early return.
* Theorems: `C05_find_dominated_point_correct`, `C05_single_point_refuted`
* Note: for all sets of two or more points, as stated; beyond the statement: a one-point set yields 1 instead of -1 (C05_single_point_refuted)

### C06 pareto_rank is the nondominated-sorting rank

* Status: **proved**
* Model and method: pareto.c, both algorithms, checked array accesses; rank = longest dominance chain.
* Theorems: `C06_pareto_rank_correct`, `C06_pareto_rank_fronts`

### C07 pareto_rank stays in bounds, its asserts hold and it terminates

* Status: **proved**
* Model and method: same model, bounds part.
* Theorems: `C07_pareto_rank_bounds`, `C07_empty_2d_refuted`
* Note: for a non-empty matrix or d<>2; the empty two-objective matrix is shown to write out of bounds

### C08 2-objective hypervolume is exact

* Status: **proved**
* Model and method: hv2d; cell counting by columns.
* Theorems: `C08_hv2d_exact`

### C09 3-objective hypervolume is exact

* Status: **proved**
* Model and method: 3-D sweep over the staircase sequence; invariant: sequence is the staircase of the swept prefix, accumulated area and volume count cells.
* Theorems: `C09_hv3d_exact`, `C09_hv3d_shift_exact`

### C10 General hypervolume (4 or more objectives) is exact

* Status: **partial**
* Model and method: hv_recursive with dancing links, bounds and cached areas/volumes; invariant relating every cache to the prefix it was computed for.
* Theorems: `C10_hv_exact_stable_partial`, `C10_hv_shift_exact_stable_partial`, `C10_hv_exact_no_ties_partial`, `C10_unstable_sort_refuted`, `C10_one_objective_refuted`
* Note: proved for every stable qsort, and for every qsort without ties in the inner objectives; for an unstable qsort the claim is false (refuted with a 3-row witness)

### C11 Hypervolume ignores duplicates, dominated points, order and points outside the reference

* Status: **proved**
* Model and method: corollaries of exactness and of the algebra of cell counts.
* Theorems: `C11_rows_order_and_duplicates`, `C11_remove_weakly_dominated`, `C11_remove_outside`, `C11_filter_dominated`
* Note: under the preconditions of C08-C10 (stable qsort for d>=4)

### C12 Hypervolume is monotone, non-negative, and zero exactly when no point strictly dominates the reference

* Status: **proved**
* Model and method: as C11.
* Theorems: `C12_adding_points_never_decreases`, `C12_pareto_compliant`, `C12_nonnegative_and_zero_iff`
* Note: under the preconditions of C08-C10 (stable qsort for d>=4)

### C13 Maximisation is exactly minimisation of the negated objectives

* Status: **proved**
* Model and method: wrappers negate columns; specification with directions.
* Theorems: `C13_is_nondominated_maximise_is_negation`, `C13_hypervolume_maximise`, `C13_hypervolume_negation`, `C13_pareto_rank_maximise`

### C14 Hypervolume contributions: hv(S) - hv(S minus one point), non-negative, zero for duplicated/dominated points, input restored

* Status: **proved**
* Model and method: hv_contributions, with the array restored.
* Theorems: `C14_hv_contributions`, `C14_exact_nonnegative_and_zero_if_covered`
* Note: contributions below the tolerance sqrt(DBL_EPSILON) are reported as 0 by the code; the theorem states this

### C15 Additive epsilon equals the max-min-max definition and is <= 0 exactly when every reference row is weakly dominated

* Status: **proved**
* Model and method: triple loop with early exits; least shift.
* Theorems: `C15_additive_epsilon_is_least_shift`, `C15_nonpositive_iff_weakly_dominates`, `C15_zero_on_itself`, `C15_empty_sets`

### C16 Multiplicative epsilon equals its definition for positive data and reports non-positive data

* Status: **proved**
* Model and method: as C15 over Q.
* Theorems: `C16_multiplicative_epsilon_is_least_factor`, `C16_at_most_one_iff_weakly_dominates`, `C16_nonpositive_data_is_an_error`
* Note: exact rational quotients; rounding of the division is not modelled

### C17 Epsilon indicators are weakly Pareto-compliant

* Status: **proved**
* Model and method: corollary of the characterisations.
* Theorems: `C17_additive_epsilon_weakly_compliant`, `C17_multiplicative_epsilon_weakly_compliant`

### C18 GD, IGD and averaged Hausdorff distance follow their definitions

* Status: **proved**
* Model and method: loops over R.
* Theorems: `C18_gd_p_definition`, `C18_igd_p_definition`, `C18_gd_igd_definition`, `C18_zero_iff_included`, `C18_avg_hausdorff_definition`, `C18_empty_sets`
* Note: over the real numbers; rounding is not modelled

### C19 IGD+ is weakly Pareto-compliant; it is 0 iff the data weakly dominate the reference set

* Status: **proved**
* Model and method: as C18.
* Theorems: `C19_igd_plus_definition`, `C19_igd_plus_weakly_compliant`, `C19_zero_iff_weakly_dominates`, `C19_igd_not_compliant`
* Note: over the real numbers; rounding is not modelled

### C20 2-objective EAF: each level's output is exactly the minimal staircase of that attainment surface

* Status: **proved**
* Model and method: eaf2d with any sorted permutations in both objectives; sweep invariant; surfaces specified by attainment, proved minimal and unique.
* Theorems: `C20_eaf2d_surfaces_exact`, `C20_surface_minimal`, `C20_surface_unique`, `C20_eaf_matrix_exact`

### C21 2-objective EAF: the attained flags of a returned point say exactly which sets attain it

* Status: **proved**
* Model and method: attained flags stored in the bit arrays.
* Theorems: `C21_flags_exact`, `C21_eafdiff_exact`

### C22 EAF levels are nested

* Status: **proved**
* Model and method: from the specification.
* Theorems: `C22_levels_nested`, `C22_eaf2d_nested`

### C23 Percentile/level conversion is correct and always in range

* Status: **proved**
* Model and method: percentile2level over Q with a robustness margin, and over IEEE doubles.
* Theorems: `C23_level_in_range`, `C23_level_robust`, `C23_roundtrip`, `C23_all_percentiles`, `C23_monotone`, `C23_double_level_in_range`, `C23_double_monotone`, `C23_double_integer_percentile`, `C23_double_median`, `C23_double_roundtrip`, `C23_double_all_percentiles`
* Note: in exact arithmetic and in IEEE doubles (Flocq); round trips for up to 2^25 (2^24) sets

### C24 EAF difference rectangles partition what they claim: non-overlapping levels and correct colour

* Status: **proved**
* Model and method: rectangles of consecutive levels; each location is in exactly one rectangle with the colour of its counts.
* Theorems: `C24_rectangles_exact`, `C24_outside_zero`, `C24_python_rectangles`, `C24_odd_aborts`, `C24_unequal_refuted`
* Note: for the same number of sets on both sides; the refuted theorem shows that this is needed

### C25 Rectangle-weighted hypervolume equals the weighted area of the dominated region

* Status: **partial**
* Model and method: rect_weighted_hv2d; exact characterisation of the returned value.
* Theorems: `C25_value_exactly`, `C25_weighted_area_partial`, `C25_never_overestimates`, `C25_early_exit_refuted`, `C25_duplicate_point_refuted`, `C25_dominated_point_refuted`
* Note: exact unless a data point lies at the height of the lowest upper side; C25_value_exactly characterises the result in all cases; the refuted theorems show where the claim is false

### C26 HypE Monte-Carlo estimate counts exactly the dominated samples

* Status: **proved**
* Model and method: estimate_whv for any sample matrix; uniform sampler through MT19937 for every seed.
* Theorems: `C26_counts_dominated_samples`, `C26_bounds`, `C26_monotone`, `C26_dominated_points_irrelevant`, `C26_uniform_every_seed`, `C26_goal_centre_minimise`, `C26_goal_centre_maximise_refuted`, `C26_second_estimate_refuted`
* Note: over the rational numbers; uniform sampler included for every seed; the normal and exponential samplers are not modelled (the counting theorem holds for any samples). The refuted theorems record that the goal of dist=point is wrong with maximised objectives and that a distribution object cannot be reused

### C27 MT19937 stays in bounds and its outputs in range for every seed and any number of draws

* Status: **proved**
* Model and method: 32-bit words in Z; state machine invariant.
* Theorems: `C27_outputs_follow_recurrence`, `C27_wide_draws`, `C27_sequence_exists_unique`, `C27_every_history_in_range`, `C27_array_history_in_range`, `C27_never_all_zero`, `C27_never_all_zero_array`, `C27_empty_key_array_refuted`, `C27_next64_order_refuted`
* Note: checked against the published reference outputs; an empty key array is read out of bounds, and the value of next64 depends on the evaluation order chosen by the compiler

### C28 Bit arrays: writing one flag changes that flag only

* Status: **proved**
* Model and method: 64-bit words.
* Theorems: `C28_set_get`, `C28_allocation_covers`, `C28_rows_disjoint`, `C28_copy`, `C28_zero_all`

### C29 Growable vector keeps all pushed elements in order and never writes out of its capacity

* Status: **proved**
* Model and method: refinement to lists over every history of calls.
* Theorems: `C29_behaves_as_list`, `C29_capacity_bound`, `C29_reserve_no_reallocation`, `C29_empty_is_caught`, `C29_at_end_refuted`
* Note: the refuted theorem records that the position check of at/set is off by one

### C30 Reading back a written file gives the same sets

* Status: **proved**
* Model and method: writer then reader over characters; numerals from the C standard; IEEE version with Flocq.
* Theorems: `C30_roundtrip`, `C30_filtered_roundtrip`, `C30_decimal_roundtrip`, `C30_double_exact`, `C30_double_roundtrip`, `C30_double_stable`, `C30_all_doubles_refuted`
* Note: printf and scanf are modelled for decimal numerals and IEEE doubles (Flocq; overflow and the sign of zero are not modelled); C30_roundtrip holds for any scanner and printer that agree. The refuted theorem shows that 15 digits do not restore every double

### C31 The file reader accepts exactly rectangular numeric data, groups sets by blank lines, and never overruns its buffers

* Status: **proved**
* Model and method: reader as a consumer of characters with growing buffers; equivalence with a line-by-line meaning.
* Theorems: `C31_memory_safe`, `C31_accepts`, `C31_accepted_iff`, `C31_every_text`, `C31_empty_file`, `C31_conversion_error`, `C31_column_error`, `C31_sets_are_rectangular`, `C31_set_numbers`, `C31_missing_separator_refuted`, `C31_form_feed_refuted`, `C31_indented_comment_refuted`, `C31_initial_dim_refuted`
* Note: memory safety for every text; the accepted language for texts without form feeds and vertical tabs. The refuted theorems record numbers without separator, lines joined by a form feed, indented comments, and the error code for a file of another width

### C32 Normalisation maps bounds to range ends, preserves order, reverses maximised objectives and handles zero range

* Status: **proved**
* Model and method: over Q.
* Theorems: `C32_affine`, `C32_bounds_to_ends`, `C32_stays_in_range`, `C32_order`, `C32_zero_range`, `C32_default_bounds`, `C32_given_bounds`
* Note: over the rational numbers; rounding is not modelled

### C33 Normalisation preserves dominance

* Status: **proved**
* Model and method: over Q.
* Theorems: `C33_dominance_preserved`, `C33_agree_objectives`, `C33_inverted_bounds_refuted`
* Note: over the rational numbers

### C34 Set comparison (dominatedsets) is the better relation on sets and its self-check never aborts on nondominated sets

* Status: **proved**
* Model and method: pareto_better over all pairs of sets with the self-check.
* Theorems: `C34_set_comparison_exact`, `C34_better_iff_covers_and_differs`, `C34_antisymmetric`, `C34_win_counters`, `C34_duplicate_rows_refuted`, `C34_dominated_rows_refuted`, `C34_empty_set_refuted`
* Note: the refuted theorems show that the stated precondition (non-empty nondominated sets) is needed

### C35 Force-bounds keeps exactly the points inside the bounds and adjusts the set sizes accordingly

* Status: **proved**
* Model and method: compaction of rows and cumulative sizes.
* Theorems: `C35_force_bounds`, `C35_result_unique`, `C35_set_may_become_empty`

### C36 AVL tree operations keep the in-order sequence, the balance and the thread list

* Status: **proved**
* Model and method: pointer heap, separation-style invariant `holds`, all histories of operations.
* Theorems: `C36_each_operation`, `C36_every_history`, `C36_depth_logarithmic`, `C36_walks`
* Note: for fewer than 2^120 nodes, so that depths fit the unsigned char field

### C37 AVL search_closest returns a neighbour of the insertion position

* Status: **proved**
* Model and method: search on the same heap.
* Theorems: `C37_search_closest`, `C37_equality_reported_iff`, `C37_insert_sorted`

### C38 apply_within_sets / is_nondominated_within_sets return results aligned with the input rows

* Status: **proved**
* Model and method: grouping by label over lists.
* Theorems: `C38_row_results_aligned`, `C38_one_result_per_set`, `C38_wrong_length_raises`, `C38_nondominated_within_sets`, `C38_nondominated_within_sets_strict`, `C38_unique_nosort`, `C38_short_sets_refuted`
* Note: the refuted theorem records that a too short vector of labels is not rejected

### C39 Python eaf() assigns each row to the set given by its label

* Status: **partial**
* Model and method: Python eaf and eafdiff down to the C sweep.
* Theorems: `C39_percentiles_unique`, `C39_eaf_sorted_labels_partial`, `C39_eaf_all_levels`, `C39_eaf_unsorted_labels_refuted`, `C39_eafdiff_exact`
* Note: eaf(): exact if the rows are sorted by label, refuted otherwise; eafdiff(): exact

### C40 Vorob'ev threshold search terminates

* Status: **proved**
* Model and method: bisection; termination measure over doubles.
* Theorems: `C40_vorobT_terminates`, `C40_vorobT_terminates_gen`, `C40_double_midpoint`
* Note: the threshold is an IEEE double (Flocq), volumes and means are exact

### C41 Empty runs do not break the association of points to runs

* Status: **proved**
* Model and method: run table lemma.
* Theorems: `C41_run_of_point`, `C41_empty_run_refuted`
* Note: the refuted theorem shows the second half of the statement: an empty run breaks the association

### C42 3-objective EAF: each level's output is exactly the minimal set of that attainment surface

* Status: **proved**
* Model and method: c/eaf3d.c with staircases per level as ordered sequences; invariant: staircase k covers exactly the (x,y) attained by k runs up to the current z; recorded points are the surface.
* Theorems: `C42_eaf3d_surfaces_exact`, `C42_surface_unique`, `C42_surface_coordinates`, `C42_levels_nested`, `C42_eaf_matrix_3d`, `C42_infinite_value_refuted`
* Note: c/eaf3d.c modelled with the trees as ordered node lists ; the attaining runs are C56. Coordinates must be finite: with the sentinel value the refuted theorem applies.

### C43 Nondominated-sorting utility orders by front and, within a front, by hypervolume contribution

* Status: **partial**
* Model and method: main of ndsort on the grid that makes normalisation exact.
* Theorems: `C43_ndsort_exact`, `C43_scaled_is_normalised`, `C43_contribution_unique`, `C43_fronts_in_order`, `C43_first_front_by_contribution`, `C43_uev_exact`, `C43_second_front_refuted`, `C43_directions_ignored`, `C43_maximise_refuted`
* Note: ranks and the first front exact for minimisation; the refuted theorems show that later fronts are not ordered by contribution and that --obj has no effect. Exact arithmetic; the rounding of the printed %g is not modelled

### C44 Symmetric-difference hypervolume used by vorobDev is non-negative and zero iff the dominated regions agree

* Status: **proved**
* Model and method: cell counting of unions.
* Theorems: `C44_symmetric_difference`

### C45 Command-line check for dominated points reports exactly the sets that contain one

* Status: **partial**
* Model and method: loop over sets.
* Theorems: `C45_check_nondominated_partial`, `C45_check_nondominated_2d_refuted`
* Note: d<>2 proved; d=2 refuted

### C46 Filtering after making the objectives agree gives the same verdict as filtering the original data

* Status: **partial**
* Model and method: agree_objectives followed by check_nondominated.
* Theorems: `C46_agree_same_verdict_partial`, `C46_agree_minimise_2d_refuted`, `C46_agree_maximise_2d_refuted`, `C46_agree_ignored_refuted`
* Note: proved for a number of objectives other than two and no ignored objective; refuted for two objectives and for ignored objectives

### C47 The hypervolume computed with the real pointer tree is exact

* Status: **proved**
* Model and method: simulation between pointer tree and sequence.
* Theorems: `C47_hypervolume_with_pointer_tree`
* Note: stable qsort for d>=4, as for C10

### C48 Vorob'ev expectation is the attainment surface at the threshold where the dominated volume crosses the mean volume

* Status: **partial**
* Model and method: vorobT down to the C code.
* Theorems: `C48_mean_hypervolume`, `C48_vorobT_partial`, `C48_vorobT_double_partial`, `C48_early_stop_refuted`
* Note: the returned surface and the mean are exact for sorted labels; the refuted theorem shows that the loop may stop before the crossing is reached

### C49 Vorob'ev deviation is the mean volume of the symmetric difference

* Status: **proved**
* Model and method: vorobDev.
* Theorems: `C49_vorobDev_exact`

### C50 Option arguments for directions and flags mean what they say

* Status: **proved**
* Model and method: character loops with checked writes.
* Theorems: `C50_directions`, `C50_bitvector`, `C50_later_option_refuted`
* Note: each option by itself; the refuted theorem shows that a later --log with more characters makes the direction array too short

### C51 Ignored objectives have no influence on nondominated filtering

* Status: **partial**
* Model and method: the O(n^2) loop with arbitrary direction vectors.
* Theorems: `C51_ignored_weak_partial`, `C51_ignored_strict_partial`, `C51_ignored_2d_refuted`
* Note: proved for a number of objectives other than two; refuted for two

### C52 Epsilon indicators computed with floating-point numbers are correctly rounded and decide weak dominance exactly

* Status: **proved**
* Model and method: EpsFloatModel: the loops over R with rounded operations; max and min commute with the monotone rounding.
* Theorems: `C52_additive_correctly_rounded`, `C52_additive_sign_exact`, `C52_additive_compliant`, `C52_multiplicative_correctly_rounded`, `C52_multiplicative_one_exact`, `C52_multiplicative_refused`
* Note: IEEE binary64 through Flocq; overflow to infinity is not modelled

### C53 The 2-objective hypervolume computed with floating-point numbers has a small relative error

* Status: **proved**
* Model and method: HvFloatModel: the loop with a rounded accumulator, in lockstep with the exact loop; standard error analysis.
* Theorems: `C53_hv2d_accuracy`
* Note: IEEE binary64 through Flocq; overflow to infinity is not modelled

### C54 Normalisation computed with floating-point numbers keeps weak dominance and the ends of the range

* Status: **partial**
* Model and method: NormFloatModel: rounded operations are monotone; witnesses computed with the definition of rounding.
* Theorems: `C54_weak_dominance_preserved`, `C54_ideal_to_lower_end`, `C54_unit_range`, `C54_upper_end_exceeded_refuted`, `C54_strictness_lost_refuted`
* Note: the statements about the upper end hold for ranges of length one and are refuted for other ranges; strict dominance can become equality

### C55 The Monte-Carlo hypervolume approximation ignores dominated points, respects dominance and estimates the hypervolume without bias

* Status: **partial**
* Model and method: HvApproxModel: random vectors, norm, power and mean as parameters, rounding as parameter (doubles or exact); order arguments for the invariances; inclusion-exclusion over boxes; for one box an induction over the dimension in spherical coordinates with Riemann integrals (Coquelicot); Wallis integrals for the constant. That normalised normal vectors are uniform on the sphere is not proved.
* Theorems: `C55_dominated_points_ignored`, `C55_weakly_pareto_compliant`, `C55_defined_iff`, `C55_zero_without_contribution_refuted`, `C55_maximise_is_negation`, `C55_sample_is_ray_length`, `C55_estimate_is_average`, `C55_unbiased_from_boxes`, `C55_unbiased_2d`, `C55_unbiased`, `C55_mean_of_result`
* Note: dominated points, compliance, maximisation and definedness for IEEE doubles (and exact arithmetic); the mean of the estimate is the hypervolume for any number of objectives and samples (C55_unbiased, C55_mean_of_result; exact arithmetic, direction uniform on the sphere, in spherical coordinates). False part: without a point that strictly dominates ref an exception is raised (C55_zero_without_contribution_refuted)

### C56 The attainment indicators of three-objective surfaces are exact

* Status: **proved**
* Model and method: Eaf3dModel keeps the fields set, promoter, remover and equal of every node in a heap; Eaf3dFlags: invariant over all insertions of the sweep (links are sound; every run that attains a live or recorded node is reached from it); find_all_promoters terminates (rank: level, then node number) and marks exactly the reached runs.
* Theorems: `C56_flags_exact`, `C56_stored_bits_exact`
* Note: the promoter, remover and equal links are part of the model; the runs reached from a node are shown to be those that attain it

### C57 The eaf program prints exactly the attainment surfaces asked for

* Status: **proved**
* Model and method: EafMainModel: eaf_print_line, eaf_print_attsurf, eaf_print and main, writing tokens to streams; composed with eaf2d/eaf3d and the storage. Spec EafMainSpec.line: columns joined by tabs. Proof by case analysis on coinciding streams and induction on points and levels.
* Theorems: `C57_output_2d`, `C57_output_3d`, `C57_other_dimensions`, `C57_single_set_refuted`, `C57_empty_input_refuted`
* Note: formatting of numbers not modelled (tokens); --polygons not modelled; with a single set the output is wrong (refuted), with an empty input the program reads out of bounds (refuted)

### C58 The options of the eaf program mean what they say

* Status: **proved**
* Model and method: EafMainModel: read_ints/read_doubles over any conversion function, strtol over ASCII text, choice of levels, option state and opening of files. Spec EafMainSpec: inductive grammar int_list, asked_levels, output_stream/requested (last option counts). Induction on the text and on the option list.
* Theorems: `C58_level_lists`, `C58_level_lists_only`, `C58_levels`, `C58_streams`, `C58_fifty_levels_refuted`, `C58_large_level_refuted`, `C58_nan_refuted`, `C58_same_file_refuted`
* Note: outside the stated limits the claims fail: 50 levels overflow the array, larger integers wrap around, nan is accepted, and an explicit file name equal to that of --output loses the column

### C59 The linked trees of the three-objective attainment function share memory safely

* Status: **proved**
* Model and method: Eaf3dPtrModel: eaf3d over one memory of nodes with the AVL operations of AvlModel, items dropped on free. Simulation of Eaf3dModel (sequences): relation R gives every address an owner (set tree, level tree, output list or free); AvlFrame shows that an operation on one tree changes only its own nodes. Composed with eaf3d_ok.
* Theorems: `C59_pointer_eaf3d_exact`, `C59_pointers_refine_sequences`, `C59_insert_keeps_other_trees`, `C59_unlink_keeps_other_trees`
* Note: the final deallocation (freetrees, freeremoved) is not modelled; addresses are distinct numbers, never reused

### C60 The polygons of an EAF difference tile the region between the surfaces

* Status: **proved**
* Model and method: PolyModel: the loop of eaf_compute_polygon with its assertions, and the copy into the two R matrices. PolyProofs: the parity of the pushed path is tracked vertex by vertex (left side: attained by the lower level between two heights; right side: attained by the upper level), so a closed polygon contains exactly the band of the region between the surfaces; bands of successive polygons partition the heights. The colour exit of the loop is shown to coincide with a crossing because a colour change makes the corner attained by one more set. PolyTop: all levels, and the R copy loops.
* Theorems: `C60_polygons_exact`, `C60_R_sides`, `C60_odd_aborts`, `C60_selected_levels_refuted`
* Note: for all levels; eaf --polygons with selected non-consecutive levels is refuted, odd numbers of sets abort

### C61 The hv program prints the hypervolume of every set of every file

* Status: **proved**
* Model and method: CmdModel: a world of named files, standard input and output, programs that continue or exit with a status, reading a file (the reader of IoModel), the loop over the sets by cumulative sizes, option arguments that are points. HvCmdModel: main-hv.c. CmdSpec/HvCmdSpec: what the files contain (describes of IoSpec), what an option list asks for, where output goes. HvCmdProofs: reader theorems (C31) turn files into sets, the loop over offsets becomes a loop over sets, fpli_hv_ok_gen/fpli_hv_shift_ok give the volumes, least and greatest coordinates are an invariant of the loop over files.
* Theorems: `C61_volumes`, `C61_volumes_stdin`, `C61_stops_at_zero`, `C61_reference_refused`, `C61_file_refused_early`, `C61_file_refused`, `C61_output_refused`, `C61_equal_coordinate_fails`, `C61_single_point_refuted`, `C61_dash_refuted`
* Note: dimension above 3 with a stable sort (see C10); the usage text is refuted for FILE - and the default reference point fails for a single point

### C62 The epsilon and igd programs print the indicators of every set of every file

* Status: **proved**
* Model and method: IndCmdModel: the structure shared by epsilon.c and igd.c (options, reference set, files, loop over sets), with the body of the loop as a parameter, and the two bodies. IndCmdSpec: what the option list asks for; the indicators by IndSpec/IgdSpec. CmdLoop: a loop that writes a text per set, up to the first set that ends the program. IndCmdProofs: invariant of the option loop (reference set, directions, number of columns), induction over files. PropIndCmd: the bodies by C15/C16/C18/C19.
* Theorems: `C62_epsilon`, `C62_epsilon_stdin`, `C62_epsilon_stops`, `C62_epsilon_nonpositive`, `C62_igd`, `C62_igd_stdin`, `C62_option_refused`, `C62_no_reference`, `C62_file_refused`, `C62_output_refused`, `C62_several_reference_sets_abort`, `C62_reference_columns_refuted`, `C62_reference_overrun_refuted`, `C62_ignored_objective_refuted`
* Note: --obj with as many directions as there are columns, none ignored; refuted: --reference followed by an --obj of another length is not noticed (wrong rows or a read after the end), a reference file with several sets aborts, ignored objectives make the additive indicator non-negative

### C63 The nondominated program checks, filters, bounds and turns the sets of every file

* Status: **proved**
* Model and method: NdCmdModel: option loop, process_file, first pass over the files for the bounds, loop over the files, totals. NdCmdSpec: what the option list asks for; the sets written as union, selection of the points inside, nondominated part, negation, in that order. NdCmdProofs: the flags of C01/C45 as sublists, check of turned points. NdCmdRun: invariant of the option loop; one file; induction over files with the outputs so far, the bounds in use and the ranges seen; failures at any file.
* Theorems: `C63_files`, `C63_two_objectives`, `C63_stdin`, `C63_plain`, `C63_option_refused`, `C63_bounds_crossed`, `C63_out_of_bounds`, `C63_file_refused`, `C63_output_refused`, `C63_file_refused_early`, `C63_clean_file_refuted`, `C63_agree_min_refuted`, `C63_agree_max_refuted`, `C63_bound_lengths_refuted`
* Note: no objective ignored; C63_plain gives the case without --normalise and --log, C73 the case with them; with two objectives the exit status is 1 for every set of two or more points (refuted, C63_two_objectives gives the exact condition), --agree aborts or inverts dominance; bounds of different lengths are accepted (refuted)

### C64 The dominatedsets program counts, for every two files, the pairs of sets in which one is better

* Status: **partial**
* Model and method: DsCmdModel: option loop, reading of all the files, short names with the size of the allocated block, heading, check, the array of results, the tables. DsCmdSpec: better_set, wins as the size of a list of index pairs without repetition, the printed tables from any function count. DsCmdProofs: C34 win counters to wins; invariant of the array of results after row k and column j (entry (a, b) is the comparison of files a and b in the order of their numbers); the printing functions. DsCmdRun: invariant of the option loop, the files, the check from C05, the whole program.
* Theorems: `C64_table`, `C64_check`, `C64_option_refused`, `C64_too_few_files`, `C64_file_refused`, `C64_no_overflow_refuted`, `C64_single_point_refuted`, `C64_no_check_refuted`
* Note: no objective ignored. False in general: strncpy (p, buffer, 32) overflows the block of strlen (buffer) + 1 bytes with every allocator whose block has fewer than 32 bytes (C64_no_overflow_refuted, for all inputs), so C64_table and C64_check assume blocks of at least 32 bytes; a set with one point is refused although it is nondominated (C64_single_point_refuted; C64_check gives the exact condition); with --no-check duplicated points end in abort (C64_no_check_refuted)

### C65 The ndsort program prints the front, or the sort key, of every point of its input

* Status: **partial**
* Model and method: NdsCmdModel: option loop, reading, heading, the printed column, around NdsortModel. NdsCmdSpec: fronts, sort_keys from Spec.is_rank and NdsortSpec. PropNdsCmd: invariant of the option loop, the reader (C31), C43_ndsort_exact and the correctness of pareto_rank.
* Theorems: `C65_rank`, `C65_order`, `C65_option_refused`, `C65_several_files`, `C65_file_refused`, `C65_objectives_ignored`, `C65_maximise_refuted`
* Note: proved for all inputs, except that the directions of --obj are ignored (C65_objectives_ignored, C65_maximise_refuted): all objectives are minimised

### C66 The R functions for one matrix give the specified values and refuse wrong arguments

* Status: **partial**
* Model and method: RMatModel: R matrices (values by columns), transposition, recycling, negation of columns; RIndModel: the R functions and their .Call entry points, on top of the C models. RMatSpec: the rows of a matrix. RMatProofs: every matrix operation in terms of rows; PropRInd, PropRIgd reduce to C01, C02, C06, C13 to C16, C18, C19.
* Theorems: `C66_hypervolume`, `C66_contributions`, `C66_is_nondominated_weakly`, `C66_is_nondominated`, `C66_filter_dominated`, `C66_pareto_rank`, `C66_epsilon_additive`, `C66_epsilon_mult`, `C66_epsilon_mult_refused`, `C66_igd`, `C66_igd_plus`, `C66_avg_hausdorff_dist`, `C66_too_small`, `C66_reference_length`, `C66_columns_differ`, `C66_maximise_length`, `C66_short_reference_refuted`
* Note: proved except that a reference point with too few values is not refused when the directions differ and the missing objective is maximised (C66_short_reference_refuted)

### C67 The R functions eaf and eafdiff return the attainment surfaces and differences of the labelled sets

* Status: **partial**
* Model and method: REafModel: eaf, compute_1_eaf, eafdiff (points) and the .Call functions that fill the result matrix by columns, on top of attsurf. REafSpec: surfaces in any dimension with directions, the rows of the result. REafProofs, PropREaf: the column-wise writes give the rows; sorting by set and negating columns preserve attainment (as in C39, here for any dimension); removal of repeated rows keeps the first of each.
* Theorems: `C67_eaf`, `C67_eaf_groups`, `C67_eafdiff`, `C67_eaf_too_small`, `C67_eaf_objectives`, `C67_maximise_length`, `C67_eafdiff_columns`, `C67_eafdiff_one_point_refuted`, `C67_eafdiff_unequal_refuted`
* Note: eaf proved in full; eafdiff proved when both arguments have the same number of sets and more than one point is left: one point gives a vector, or an error with maximise (C67_eafdiff, C67_eafdiff_one_point_refuted), and with different numbers of sets the values are wrong (C67_eafdiff_unequal_refuted)

### C68 The R functions vorobT and vorobDev end and return Vorob'ev thresholds, surfaces and deviations

* Status: **partial**
* Model and method: RVorobModel: vorobT and vorobDev on top of the R functions eaf and hypervolume, with the bisection loop of VorobModel. PropRVorob: two and three objectives, any directions; surfaces of one level have the same points and volume, so the interval is described by levels; symmetric differences with directions.
* Theorems: `C68_vorobT`, `C68_vorobT_one_point`, `C68_vorobDev`, `C68_vorobDev_default`, `C68_refused`, `C68_one_point_refuted`, `C68_scalar_reference_refuted`, `C68_early_stop_refuted`
* Note: vorobDev proved in full; vorobT fails when it meets a surface with a single point (C68_vorobT_one_point, C68_one_point_refuted), uses a wrong reference point when one value is given and the directions differ (C68_scalar_reference_refuted), and may stop before the Vorob'ev threshold is reached (C68_early_stop_refuted)

### C69 R data files are read, written and combined without loss

* Status: **partial**
* Model and method: RFileModel: R_read_datasets on top of IoModel (the reader of C30 and C31), read_datasets with names and with text, write_datasets on split.data.frame, write.table and cat with the contents of the file as a text, rbind_datasets. PropRFile: rows of the matrices against the sets a text describes (IoSpec), composition of writing and reading, and of reading and combining.
* Theorems: `C69_read`, `C69_read_names`, `C69_read_text`, `C69_read_refused`, `C69_write_read`, `C69_write_empty`, `C69_rbind`, `C69_rbind_unique`, `C69_rbind_refused`, `C69_rbind_files`, `C69_empty_file_refuted`, `C69_column_name_refuted`
* Note: false for files without data: memory outside of an array is read instead of an error (C69_empty_file_refuted); names of columns that contain a newline are read back as data (C69_column_name_refuted), otherwise proved in full. The text of numbers is a parameter that must be a numeral; files with vertical tabs or form feeds are excluded (see C31).

### C70 R normalises and weighs data as documented

* Status: **partial**
* Model and method: RWhvModel: the R functions normalise, whv_rect, total_whv_rect, whv_hype and the Python functions whv_rect, total_whv_rect on top of NormModel, WhvModel, HvModel and HypeModel. PropRWhv: the C arrays are the rows of the R matrices; every value is compared with the bounds of its column; the weighted and total values with WhvSpec and hypervolume_mx. Coordinates of rectangles are in a unit u, weights in a unit wu, because the total is not homogeneous.
* Theorems: `C70_normalise`, `C70_normalise_range`, `C70_normalise_dominance`, `C70_normalise_refused`, `C70_whv_rect`, `C70_whv_rect_refused`, `C70_total_whv_rect`, `C70_total_refused`, `C70_py_whv_rect`, `C70_py_total_whv_rect`, `C70_py_maximise_list_refuted`, `C70_py_refused`, `C70_whv_hype`, `C70_whv_hype_uniform`, `C70_whv_hype_mu_refuted`, `C70_whv_hype_refused`, `C70_whv_hype_goal`, `C70_whv_hype_goal_refuted`
* Note: normalise and the refusals are proved in full. The weighted area is exact unless a row is exactly at the height of the lowest upper side (C25_early_exit_refuted) and never too large. False parts: Python refuses a list of flags even if all are False (C70_py_maximise_list_refuted); with dist = 'point' one number in mu makes C read after the array (C70_whv_hype_mu_refuted) and the goal of a maximised objective is misplaced (C70_whv_hype_goal_refuted).

### C71 R's rectangles of differences, the choice among them and the largest difference

* Status: **partial**
* Model and method: RRectModel: R eafdiff(rectangles=TRUE), choose_eafdiff, largest_eafdiff on top of RectModel (eaf_compute_rectangles), RMatModel and the C function rect_weighted_hv2d as called in RWhvModel. RRectSpec: rows of possibly infinite sides, the region each row covers, and the largest difference. PropRRect: the rectangles of C (proved in PropRect for C24) carry over through duplicated(), the maximise transformation and the column assignments; areas through region_area of WhvSpec.
* Theorems: `C71_eafdiff`, `C71_eafdiff_columns`, `C71_eafdiff_odd`, `C71_choose`, `C71_choose_vector`, `C71_largest`, `C71_largest_few`, `C71_largest_corner`, `C71_largest_maximise`, `C71_one_rectangle_refuted`, `C71_maximise_columns_refuted`, `C71_unequal_refuted`
* Note: False parts: if there is only one rectangle eafdiff returns a vector (or, with maximise, fails) and choose_eafdiff and largest_eafdiff fail (C71_one_rectangle_refuted, C71_choose_vector); for a maximised objective the columns xmin and xmax are exchanged (C71_maximise_columns_refuted); largest_eafdiff fails whenever an objective is maximised (C71_largest_maximise); with different numbers of sets the value is not the difference of the fractions (C71_unequal_refuted). Everything else is proved for data sets with the same number of sets.

### C72 The Python functions compute the documented quantities and leave the caller's arrays alone

* Status: **partial**
* Model and method: PyIndModel: memory is a list of arrays; an argument is a list, a converted array, a float array, or an object of another class that shares a float array. np.asarray, copies, negation in place and the in-place sort of C act on the memory; the values come from the C models. PyIndSpec: what an argument contains, which memory is kept, which rows are marked. PropPyInd: values by the theorems of C01, C02, C06, C13, C15, C16, C18, C19, C38 and C70; the memory by following the copies.
* Theorems: `C72_hypervolume`, `C72_object`, `C72_pareto_rank`, `C72_is_nondominated_weakly`, `C72_is_nondominated`, `C72_filter_dominated`, `C72_filter_within_sets_weakly`, `C72_filter_within_sets`, `C72_epsilon_additive`, `C72_epsilon_mult`, `C72_igd`, `C72_igd_plus`, `C72_avg_hausdorff`, `C72_parameter_cut_off`, `C72_parameter_not_positive`, `C72_columns_differ`, `C72_lengths`, `C72_whv_rect`, `C72_filter_dominated_lists_refuted`, `C72_small_parameter_refuted`, `C72_shared_is_negated_refuted`, `C72_shared_twice_refuted`, `C72_whv_rect_sorts_refuted`
* Note: False parts: an object of another class that shares its floats (a pandas data frame, a numpy matrix) is negated in place when an objective is maximised, so that the same call gives another value the second time (C72_shared_is_negated_refuted, C72_shared_twice_refuted); whv_rect sorts the caller's array in place (C72_whv_rect_sorts_refuted); filter_dominated fails on a list of lists (C72_filter_dominated_lists_refuted); avg_hausdorff_dist cuts off the fraction of p and returns 1 for every data set if 0 < p < 1 (C72_parameter_cut_off, C72_small_parameter_refuted). Everything else is proved.

### C73 Normalising and logarithmic scale do not change which points the nondominated program keeps

* Status: **proved**
* Model and method: NdCmdModel has read_range, read_bitvector, logarithm_scale and normalise; quotient and logarithm are parameters. NdCmdSpec: the image of a coordinate. NdImage: a map that keeps or inverts the strict order of each coordinate keeps dominance, so filtering and mapping commute. PropNdNorm: the image keeps the order if the quotients are exact; runs of the program by C63_files.
* Theorems: `C73_run`, `C73_values`, `C73_selection`, `C63_files`, `C63_stdin`, `C63_option_refused`, `C73_log_length_refuted`, `C73_rounded_refuted`
* Note: exact arithmetic: the quotients are whole numbers of units (for rational data there is such a unit), and the logarithms are of positive numbers; with rounding, distinct points can be merged and a nondominated point be removed (C73_rounded_refuted); a --log vector that is empty, or followed by an option for another number of objectives, is read beyond its end (C73_log_length_refuted)

### C74 Hypervolume_MEX returns the hypervolume of the rows of a MATLAB matrix

* Status: **proved**
* Model and method: MexModel: a matrix by columns, the copy into rows with its running index, the greatest values in place, then fpli_hv. Invariants of the copy (a written prefix) and of the maximum; C10 for the volume.
* Theorems: `C74_reference`, `C74_maximum`, `C74_refused`, `C74_one_column_refuted`, `C74_no_rows_refuted`, `C74_not_doubles_refuted`, `C74_sparse_refuted`
* Note: as stated; beyond the statement the function does not check its arguments: a matrix with one column violates an assumption of fpli_hv, no rows and no reference, elements of another numeric type and sparse matrices are read out of bounds (the refuted theorems)

### C75 eaf --polygons prints polygons that tile the region between the first and the last level

* Status: **proved**
* Model and method: PolyMainModel: the self-check on the list of rows (indices with bounds-checked reads) and the printing. The invariant of the polygon loop (PolyProofs) also says where the corners lie: attained by the lower level, not strictly above a point of the upper level, between two heights; two polygons of one pair of levels are separated by a horizontal line, and of two pairs no corner of the later one is below and left of a corner of the earlier one, so the check passes.
* Theorems: `C75_output`, `C75_self_check`, `C75_readable`, `C75_selected_levels_refuted`, `C75_decreasing_levels_refuted`, `C75_odd_refuted`
* Note: as stated; the refuted theorems show that other requests (levels that are not consecutive, decreasing levels, an odd number of sets) give overlapping polygons or violate assertions; builds without assertions are covered only where no assertion fails

### C76 whv_hype with exponential and point weights estimates what the random numbers say

* Status: **proved**
* Model and method: HypeDistModel (samplers and estimate over the reals) on top of RngModel (ziggurat) and MtModel. The loops are unrolled along the published recurrence (draw53); with rho = 1 the second coefficient sqrt(1 - rho^2) vanishes, hence the diagonal. The weight counts the pairs of fractions (ProbSpec: averages over equally likely integers).
* Theorems: `C76_point_on_diagonal`, `C76_point_weight_refuted`, `C76_exponential`, `C76_exponential_weight`, `C76_beyond_reference_refuted`
* Note: real arithmetic (rounding not modelled); log is only applied to positive numbers, as the assertions of debug builds require; the refuted theorems show that the weight of dist='point' is not a two-dimensional normal weight and that samples beyond the reference point count

### C77 the normal sampler has the standard normal distribution

* Status: **proved**
* Model and method: NormalSpec: samplers as decision trees, answered by the generator or by averages. The tables of 3 x 256 constants are compared with the bell curve by integer arithmetic with error bounds for exp (ExpBounds, ZigFacts); the integral of the bell curve by its series and the Gaussian integral by differentiation under the integral sign (GaussInt, GaussPi). ZigLaw: geometric series of the rejections; ZigBody: each layer is a Riemann sum; ZigTail: substitution in the exponential tail.
* Theorems: `C77_same_program`, `C77_returns`, `C77_distribution`, `C77_cdf`, `C77_point_weight`
* Note: real arithmetic (rounding of the products, log and exp is not modelled); the draws are taken as equally likely and independent, which is the idealisation of the generator; C77_same_program shows that the same tree answered by mt19937 is the model of the C function

### C78 random draws are equidistributed in 623 dimensions and purely periodic

* Status: **proved**
* Model and method: MtEqui: the twist matrix has an inverse, so the step from one window of 19937 bits to the next is a bijection with an explicit inverse; tempering is a bijection on words. A list of the states that produce given words is the inverse image of the lists with those words, counted by product; fractions gather the 2^11 pairs of words behind each value; periodicity by the pigeonhole principle and cancellation.
* Theorems: `C78_equidistribution`, `C78_exactly_two`, `C78_doubles_equidistribution`, `C78_low_bits_unused`, `C78_purely_periodic`
* Note: the full length 2^19937 - 1 of the period is not claimed: it needs the primitivity of a polynomial of degree 19937; that the 2^32 states reachable from a seed are spread evenly is not claimed either

### C79 whv_hype with uniform weights is an unbiased estimate of the hypervolume

* Status: **proved**
* Model and method: By C78 every pair of fractions comes from the same number of states, whatever the position of the sample in the stream; the sum over states and samples is exchanged, the states that hit the attained grid points are gathered and counted. The number of attained grid points is compared with the number of unit cells by refining both to the common grid.
* Theorems: `C79_same_program`, `C79_mean`, `C79_unbiased`
* Note: rational arithmetic; the mean is over the states of the generator, not over the 2^32 states that seeds give; no bound on the variance is claimed

### C80 Generational distances computed with doubles are accurate and IGD+ stays weakly Pareto compliant

* Status: **proved**
* Model and method: Doubles are reals in the binary64 format plus infinities; every operation rounds to nearest even and overflows at 2^1024. Each operation is monotone on non-negative doubles, so the loops are. For the accuracy overflow is moved to the end of the squared distances, the errors of squares, sums, the two roundings of sqrtl and the quotient are collected as powers of 1 +- 2^-53 (Flocq).
* Theorems: `C80_igd_plus_weakly_compliant`, `C80_exact_zero`, `C80_accuracy`, `C80_error_bound`, `C80_zero_sufficient_refuted`, `C80_finite_refuted`
* Note: p = 1 only (powl is not correctly rounded); no fused multiply-add; the refuted theorems show that a result of 0 does not mean that the reference set is reached (squares underflow) and that the result may overflow although the exact distance is a double

### C81 The estimate of whv_hype with uniform weights is rarely far from the hypervolume

* Status: **proved**
* Model and method: By C78 any 310 consecutive fractions are equidistributed, so two samples at most 154 apart are independent over the states (the fractions between them are summed out). The squared deviation of up to 155 samples follows by induction; more samples are split into blocks with 2xy <= x^2/b + b*y^2. The last two statements are Chebyshev's inequality, with C79_unbiased for the hypervolume.
* Theorems: `C81_variance`, `C81_variance_bound`, `C81_deviation`, `C81_hypervolume`
* Note: rational arithmetic; over the states of the generator, not over the 2^32 states that seeds give; for more than 155 samples the bound does not improve with the number of samples, because samples further apart are not shown to be uncorrelated

### C82 Two-objective hypervolume contributions computed with doubles are reproducible, zero for redundant points and accurate

* Status: **proved**
* Model and method: The loop of hv2d with rounding is shown to be a fold over the lexicographically sorted coordinates in which some points are idle; the sorted list is unique, so the result is independent of the order, and removing an idle point changes nothing. The accuracy follows from C53 for the whole set and for the set with one row replaced by the reference point, and the relative error of one subtraction.
* Theorems: `C82_hv_order_independent`, `C82_redundant_zero`, `C82_accuracy`, `C82_nonnegative`, `C82_nonnegative_small`, `C82_nonnegative_refuted`, `C82_hv_monotone_refuted`, `C82_positive_refuted`
* Note: two objectives; overflow to infinity and fused multiply-add are not modelled; the refuted theorems show that for large hypervolumes a point with exact contribution 1 is given -4 (or the assertion aborts the program), that adding a point can lower the computed hypervolume, and that a point with hypervolume 2^-28 is said to contribute nothing

### C83 ndsort keeps the first front first when its orders are computed with doubles

* Status: **proved**
* Model and method: The normalised front is shown to lie in [0, 1]^2 whatever the rounding (the quotient of a difference by a larger one rounds to at most 1, the product with 0.9 to at most 0.9), so its hypervolume is at most 1 and the error of C82 is below 2^-26; the two last roundings add at most 2^-25.
* Theorems: `C83_first_front_first`, `C83_order_accuracy`, `C83_duplicates_last`
* Note: two objectives, all minimised; overflow to infinity and fused multiply-add are not modelled; the upper bound of the range, 0.9, is the double nearest to it

### C84 The rectangle-weighted hypervolume computed with doubles is accurate

* Status: **proved**
* Model and method: WhvFloatModel: the scan of WhvModel with each arithmetic operation rounded (Flocq). Lockstep with the exact scan, whose success supplies the signs of all factors; every term has four roundings, every addition one; induction on rectangles and points counts the additions.
* Theorems: `C84_whv_accuracy`, `C84_never_overestimates`, `C84_monotone_refuted`
* Note: overflow to infinity and fused multiply-add are not modelled; the refuted theorem shows that adding a nondominated point can lower the computed value; the condition on the heights is the defect of C25 (scan ends too early), refuted there

### C85 The three-objective attainment function gives its working trees back exactly once

* Status: **proved**
* Model and method: Eaf3dFreeModel: Eaf3dPtrModel followed by freetree2 on every set, with a record of the nodes and items given back that every later access consults. The simulation of C59 gives the trees of the sets with their owners; completing the outputs changes only nodes of levels and outputs (outputs_sim), owners keep the trees apart, and the sweep keeps the two sentinels at the ends of each set.
* Theorems: `C85_sets_given_back_once`
* Note: the headers of the trees, the arrays of trees and the sorted list, each given back once and not used afterwards, are not modelled; the output lists are never given back (finding)

## 6. Findings (claims that are false of the code)

Each is a theorem with a concrete input (or for all inputs), unless marked "by
reading".

* Nondominated filtering, two objectives: the returned count is the number of
  removed points (`C03_count_2d_refuted`); get_nondominated_set writes out of
  bounds (`C04_...`); the command-line check reports clean sets
  (`C45_...`); agreeing objectives stop at an assertion or give wrong results
  (`C46_...`); ignored objectives are minimised (`C51_ignored_2d_refuted`), and in
  any dimension --agree compares ignored objectives (`C46_agree_ignored_refuted`).
* find_dominated_point returns 1 for a single point (`C05_...`).
* pareto_rank of an empty two-objective matrix writes out of bounds (`C07_...`).
* The recursive hypervolume (four or more objectives) can be wrong if qsort is not
  stable (`C10_unstable_sort_refuted`); one objective violates an assumption.
* dominatedsets aborts on duplicate or dominated rows or empty sets (`C34_...`).
* EAF: an empty run breaks the association of points to runs (`C41_...`);
  eafdiff rectangles are wrong for different numbers of sets and abort for an odd
  total (`C24_...`), polygons of selected, non-consecutive levels overlap the upper
  level (`C60_selected_levels_refuted`); three objectives with infinite coordinates lose points
  (`C42_infinite_value_refuted`).
* cvector: the position check of at/set is off by one (`C29_at_end_refuted`).
* mt19937: empty key array out of bounds; mt19937_next64 depends on evaluation
  order (`C27_...`).
* rect_weighted_hv2d: early exit, duplicate and dominated points give wrong values
  (`C25_...`).
* normalise with inverted bounds does not preserve dominance (`C33_...`).
* whv_hype: dist="point" with maximised objectives uses a wrong goal; a
  distribution object cannot be reused (`C26_...`).
* Python: eaf() does not sort rows by label (`C39_...`); vorobT may stop too early
  (`C48_...`); apply_within_sets accepts a too short label vector (`C38_...`).
* Text files: numbers need no separator, a form feed joins lines, indented comments
  are conversion errors, 15 digits do not restore every double (`C30_...`,
  `C31_...`).
* ndsort: only the first front is ordered by contribution, --obj has no effect
  (`C43_...`).
* Options: a later, longer --log makes the direction array too short
  (`C50_later_option_refuted`).
* normalise in doubles: a value inside the bounds can be mapped above the upper end of
  the range, and strict dominance can become equality (`C54_...`).
* hv_approx raises an exception when no point strictly dominates the reference point,
  where hypervolume returns 0 (`C55_zero_without_contribution_refuted`).
* eaf program: a single set is printed with two indices and counted in both halves
  (`C57_single_set_refuted`); an empty input is read out of bounds
  (`C57_empty_input_refuted`); 50 levels overflow the array, levels beyond int wrap
  around, --percentile nan is accepted, --indices=FILE with the FILE of --output
  writes no indices (`C58_..._refuted`).
* hv program: without --reference a single point, or points that agree in a
  coordinate, are an error, because the default reference point is not strictly
  dominated (`C61_equal_coordinate_fails`, `C61_single_point_refuted`); FILE `-` is
  documented as standard input but opened as a file (`C61_dash_refuted`).
* epsilon and igd programs: `-r ref -o dirs` with a different number of directions
  is not refused; the reference set is cut into rows of another length
  (`C62_reference_columns_refuted`) or read past its end
  (`C62_reference_overrun_refuted`).  A reference file with several sets fails an
  assertion (`C62_several_reference_sets_abort`).  An objective marked as ignored
  counts as a difference of 0 (`C62_ignored_objective_refuted`).  By reading: `-u`
  (epsilon) and `-m`, `-u` (igd) are accepted by getopt and then abort;
  igd `-p` is documented but not in the short options; `igd --gd` prints IGD_p too.
* nondominated program, two objectives: exit status 1 for a file without dominated
  points (`C63_clean_file_refuted`), `--agree=min` aborts
  (`C63_agree_min_refuted`), `--agree=max --filter` keeps the dominated points
  (`C63_agree_max_refuted`).  Bounds of different lengths are accepted
  (`C63_bound_lengths_refuted`).  By reading: `-m` and `-L` are documented but not in
  the short options; the usage text calls the option --force-bound; the bounds in
  the header are not turned by --agree.
* dominatedsets program: the copy of the short file names writes 32 bytes to a block
  of strlen + 1 bytes (`C64_no_overflow_refuted`; the smallest block of glibc has 24
  bytes, and the 8 bytes after it are the size of the next block).  A set with one
  point is refused by the check (`C64_single_point_refuted`); --no-check with
  duplicated points aborts (`C64_no_check_refuted`).  By reading: the heading
  prints cumulative sizes, not the sizes of the sets; --verbose has no effect; set
  and point numbers in the messages start from 0; the message names the program's
  short name of the file (f1), not the file.
* ndsort program: --obj is read and checked but has no effect (`C65_objectives_ignored`,
  `C65_maximise_refuted`).
* R hypervolume() and hv_contributions(): a reference point with too few values is
  extended with NA instead of refused if the directions differ and the missing objective
  is maximised (`C66_short_reference_refuted`).
* R eafdiff(): `DIFF[!duplicated(DIFF),]` without `drop=FALSE` turns a result with one row
  into a vector, and with maximise the function then stops with "incorrect number of
  dimensions" (`C67_eafdiff_one_point_refuted`).
* R eafdiff() accepts arguments with different numbers of sets, but the C code splits all
  sets in the middle, so the values are not the differences of the two EAFs
  (`C67_eafdiff_unequal_refuted`).
* R vorobT(): `eaf(...)[,-setcol]` without `drop=FALSE` turns a surface with one point into a
  vector and hypervolume() stops with an error (`C68_one_point_refuted`).
* R vorobT() and vorobDev() negate the elements of `reference` before it is extended to all
  objectives; one value with different directions gives wrong volumes
  (`C68_scalar_reference_refuted`).
* R vorobT() has the same early stop as the Python function (`C68_early_stop_refuted`).
* R read_datasets(): the result of reading is ignored; for a file of comments and blank lines
  `cumsizes[nruns - 1]` is read before the start of an empty array
  (`C69_empty_file_refuted`).
* R write_datasets(): a newline in the name of a column ends the comment line, the rest of the
  name is read back as data (`C69_column_name_refuted`).
* Python whv_rect() and total_whv_rect(): `assert not maximise` refuses a list of flags, which the
  documentation allows, even if all of them are False (`C70_py_maximise_list_refuted`).
* R whv_hype(): with `dist = "point"` the length of `mu` is not checked; C reads `mu[1]` after
  the end of a vector of one number (`C70_whv_hype_mu_refuted`). As in Python, `mu` is not negated
  for maximised objectives (`C70_whv_hype_goal_refuted`).
* R eafdiff(rectangles=TRUE): `DIFF[!duplicated(DIFF),]` lacks `drop=FALSE`. A single rectangle
  becomes a vector, an error follows if an objective is maximised, and choose_eafdiff() and
  largest_eafdiff() fail on it (`C71_one_rectangle_refuted`).
* R eafdiff(rectangles=TRUE): for a maximised objective the column xmin holds the greater side and
  xmax the smaller one, or -Inf (`C71_maximise_columns_refuted`).
* R largest_eafdiff(): documented for any `maximise`, but it always fails if an objective is
  maximised, since whv_rect() refuses (`C71_largest_maximise`).
* By reading: eafdiff(rectangles=TRUE) with three objectives. C reads 6 numbers per
  rectangle from an array with 4 per rectangle (modelled as OutOfBounds) and names 5 of 7 columns.
* Python hypervolume(), Hypervolume() and pareto_rank(): asarray_maybe_copy() compares object
  identity, so an object of another class whose floats numpy can share (a pandas data frame of
  floats, a numpy matrix) counts as copied and is negated in place if an objective is maximised. The second call
  gives another value (`C72_shared_is_negated_refuted`, `C72_shared_twice_refuted`).
* Python avg_hausdorff_dist(): p is converted to an unsigned integer. 0 < p < 1 becomes 0 and the result is 1
  whatever the data (`C72_small_parameter_refuted`); other fractions are cut off (`C72_parameter_cut_off`).
* Python whv_rect(): sorts the rows of the caller's array (`C72_whv_rect_sorts_refuted`).
* Python filter_dominated(): accepts no list of lists, unlike is_nondominated()
  (`C72_filter_dominated_lists_refuted`).
* nondominated program: the vector of `--log` is read beyond its end if it is empty or if a later option sets
  another number of objectives (`C73_log_length_refuted`). The points are compared after the transformation, so that
  rounding can merge points and remove a nondominated one (`C73_rounded_refuted`). By reading: `--log` of a number
  that is not positive gives NaN or -inf, and the check goes on with it.
* Hypervolume_MEX accepts what it cannot handle: matrices of integers or single numbers and sparse matrices are
  read as full matrices of doubles, an empty matrix without reference reads an empty block, and one column ends in
  an assumption that does not hold (`C74_not_doubles_refuted`, `C74_sparse_refuted`, `C74_no_rows_refuted`,
  `C74_one_column_refuted`). By reading: the block of the default reference is not freed by the function.
* `eaf --polygons` accepts levels that are not consecutive: then polygons overlap, and a debug build aborts in its
  self-check (`C75_selected_levels_refuted`, -l 2,5,6). Decreasing levels and an odd number of sets violate
  assertions (`C75_decreasing_levels_refuted`, `C75_odd_refuted`); release builds are compiled without them. By reading:
  three objectives are not refused before the polygons are computed.
* whv_hype with `dist="point"` is documented as a multivariate normal weight around the goal, but the correlation is
  fixed to 1, so all samples lie on the diagonal through the goal: data sets that such a weight would distinguish get
  the same estimate for every seed (`C76_point_weight_refuted`). The documented example values (0.64485 and 4.03632)
  agree with the diagonal reading.
* whv_hype with `dist="exponential"`: samples may lie beyond the reference point and still count
  (`C76_beyond_reference_refuted`). The generator can return 0, for which a debug build aborts and a release build
  takes log(0) (`C76_exponential`, case zero_drawn).
* igd and igd_plus with doubles: the squares of differences below 2^-537 underflow, so the value can be 0 although no
  reference point is reached or weakly dominated (`C80_zero_sufficient_refuted`); differences of 2^512 or more give
  infinity although the distance is a double (`C80_finite_refuted`).
* hv_contributions with doubles: the difference of two rounded hypervolumes can be negative. With ref = (0, 0) and the
  points (-(2^27 + 2), -1), (-(2^27 + 1), -(2^27 + 3)) the first point contributes 1 but is given -4; with assertions the
  program is aborted, with -DNDEBUG the negative value is returned (`C82_nonnegative_refuted`). So the computed
  hypervolume can fall when a point is added (`C82_hv_monotone_refuted`). The tolerance 2^-26 is absolute: for data with
  small values all contributions are reported as 0 (`C82_positive_refuted`).
* ndsort --hvc: points of the first front that are duplicated contribute nothing to the hypervolume, so their order is 2,
  exactly that of the second front: the order does not separate them from dominated points (`C83_duplicates_last`).
* whv_rect in doubles: adding the point (-134217730, -1) to (-134217729, -134217731) with one rectangle of weight 1 up to the
  origin lowers the result by 4 although the exact weighted area grows by 1 (`C84_monotone_refuted`).
* By reading: eaf3d never calls freeoutput (c/eaf3d.c:737-746), so every call leaks the output lists with their nodes and
  items, the list of removed nodes and the array attained; C85 shows that only nodes of the sets are given back at the end.
* By reading: the fallback macro CLAMP in common.h:85 refers to an undeclared
  name; whv_rect documents maximisation but rejects it; the eaf program documents
  --quiet as the default but is verbose.

## 7. Tests of the theorems against wrong programs

`seeded/LOG.jsonl` has one line per edit of the model (wrong boundary, missed
case, swapped argument, dropped update, ...): the edited definition, the claim it
breaks, the theorems that fail to prove, and the theorems that were tightened in
consequence.
