{"id": "C01", "title": "is_nondominated(keep_weakly=True) marks exactly the nondominated points", "statement": "For any matrix of points and any choice of minimised/maximised objectives, is_nondominated with keep_weakly=True returns True at row i if and only if no other row is at least as good in every objective and strictly better in one. Holds for the 2-objective sort-based code and for the general O(n^2) code, whatever order qsort leaves ties in.", "quantifier": "all numbers of points, all dimensions >= 2, all coordinate values, all maximise vectors, all outcomes of the unstable qsort", "why_tests_cant": "the set of point sets is infinite; ties, duplicates and the in-place flag updates interact in ways sampled inputs do not cover", "anchors": ["c/nondominated.h: is_nondominated, find_nondominated_set_, find_nondominated_set_keep_weakly_2d_, force_agree_minimize", "python/src/moocore/_moocore.py: is_nondominated"]}
{"id": "C02", "title": "is_nondominated(keep_weakly=False) keeps one representative of every nondominated point", "statement": "With keep_weakly=False the rows marked True are pairwise distinct, none of them is dominated by any input row, and every input row is weakly dominated by some marked row; in the code for 3 or more objectives the row kept among equal nondominated rows is the last one.", "quantifier": "all numbers of points, dimensions >= 2, coordinate values, maximise vectors and qsort tie orders", "why_tests_cant": "needs all multiplicity patterns of duplicates and all processing orders", "anchors": ["c/nondominated.h: find_nondominated_set_, find_nondominated_set_delete_weakly_2d_"]}
{"id": "C03", "title": "The count returned by the nondominated-set search equals the number of kept points", "statement": "find_nondominated_set and relatives are documented to return the number of nondominated points; callers allocate memory and decide whether a set contains dominated points from that number.", "quantifier": "all point sets of every size and dimension", "why_tests_cant": "a count that is right on the sampled sets may be wrong on others; the 2-objective code returns a different quantity", "anchors": ["c/nondominated.h:95-98,121,149,155-156", "c/nondominated.h: get_nondominated_set", "c/nondominated.c: check_nondominated"]}
{"id": "C04", "title": "get_nondominated_set copies exactly the nondominated points and stays inside its buffer", "statement": "The array produced by get_nondominated_set holds exactly the rows flagged nondominated in input order, every write lies inside the allocated buffer and the final size assertion holds.", "quantifier": "all point sets and dimensions", "why_tests_cant": "memory safety must hold for every input; overflow occurs only for some ratios of dominated to nondominated points", "anchors": ["c/nondominated.h:283-314 get_nondominated_set"]}
{"id": "C05", "title": "find_dominated_point answers -1 iff no point is (weakly) dominated, else the index of such a point", "statement": "For every set of at least two points, find_dominated_point returns -1 exactly when no row is weakly dominated by a different row, and otherwise returns a valid index of a row that is weakly dominated by another row.", "quantifier": "all sets with at least two points, all dimensions >= 2, all minmax vectors, all qsort tie orders", "why_tests_cant": "early exit depends on visiting order; requires all orders and ties", "anchors": ["c/nondominated.h:68-92 find_dominated_2d_, 159-253 find_nondominated_set_, find_dominated_point"]}
{"id": "C06", "title": "pareto_rank is the nondominated-sorting rank", "statement": "For every matrix, the rank given to a row equals the length of the longest chain of rows ending at it in which each row dominates the next (so rank 1 = nondominated, equal rows share a rank, rows of equal rank do not dominate one another, and every row of rank r+1 is dominated by some row of rank r). The 2-objective O(n log n) algorithm and the general algorithm give identical ranks.", "quantifier": "all numbers of points, all dimensions, all values, all qsort tie orders", "why_tests_cant": "binary search over front ends and multi-pass peeling must be right for all sets; equality of two algorithms is a universal statement", "anchors": ["c/pareto.c: pareto_rank_2D, pareto_rank, dominates", "python/src/moocore/_moocore.py: pareto_rank"]}
{"id": "C07", "title": "pareto_rank stays in bounds, its asserts hold and it terminates", "statement": "For every non-empty input pareto_rank terminates, every array access is within bounds, the binary-search assertions hold.", "quantifier": "all non-empty inputs", "why_tests_cant": "termination and bounds must hold for all sizes", "anchors": ["c/pareto.c:42-251"]}
{"id": "C08", "title": "2-objective hypervolume is exact", "statement": "hypervolume with 2 objectives equals the area of the union of the boxes between each point and the reference point, for every point set (dominated points, duplicates and points that do not strictly dominate the reference included) and every order in which the sort leaves ties.", "quantifier": "all 2-objective point sets and reference points (exact arithmetic), all qsort tie orders", "why_tests_cant": "the area must be right for arbitrarily many points in every relative position", "anchors": ["c/hv.c: hv2d, compare_x_asc_y_asc, fpli_hv"]}
{"id": "C09", "title": "3-objective hypervolume is exact", "statement": "hypervolume with 3 objectives (both the plain and the shifted entry point) equals the volume of the union of the boxes between each point and the reference point.", "quantifier": "all 3-objective point sets and reference points (exact arithmetic), all sort tie orders", "why_tests_cant": "dimension sweep with incremental area maintenance and tree neighbours: all insertion/deletion interleavings are needed", "anchors": ["c/hv.c: fpli_hv3d, fpli_hv3d_ref, setup_cdllist, filter, filter_ref, compare_tree_asc"]}
{"id": "C10", "title": "General hypervolume (4 or more objectives) is exact", "statement": "hypervolume with d >= 4 objectives equals the d-dimensional volume of the union of the boxes between each point and the reference, although the recursion prunes using ignore/bound/area/vol caches.", "quantifier": "all d >= 4, all finite point sets and reference points (exact arithmetic), all tie orders", "why_tests_cant": "the pruning caches carry state between recursive calls; errors appear only for particular visiting histories", "anchors": ["c/hv.c: hv_recursive, hv_recursive_ref, skip_or_recurse, skip_or_recurse_ref, delete, reinsert"]}
{"id": "C11", "title": "Hypervolume ignores duplicates, dominated points, order and points outside the reference", "statement": "The hypervolume of a set does not change when rows are permuted, duplicated, when a weakly dominated row is removed, or when rows not strictly better than the reference in some objective are removed; filter_dominated leaves it unchanged.", "quantifier": "all point sets, permutations and reference points", "why_tests_cant": "universal over sets and permutations", "anchors": ["c/hv.c: fpli_hv, filter, filter_ref", "python: hypervolume, filter_dominated"]}
{"id": "C12", "title": "Hypervolume is monotone, non-negative, and zero exactly when no point strictly dominates the reference", "statement": "Adding points never decreases the hypervolume; improving a set (every point of B weakly dominated by one of A) gives hv(A) >= hv(B), strictly greater if A has a point strictly dominating the reference that B does not weakly cover; the result is >= 0 and is 0 iff no point is strictly better than the reference in all objectives.", "quantifier": "all pairs of sets and references", "why_tests_cant": "pareto-compliance is a universal statement over pairs of sets", "anchors": ["c/hv.c: fpli_hv", "c/main-hv.c:282-285"]}
{"id": "C13", "title": "Maximisation is exactly minimisation of the negated objectives", "statement": "hypervolume/is_nondominated/pareto_rank with maximise flags give the result obtained by negating the flagged columns (and reference coordinates) and minimising.", "quantifier": "all data and all maximise vectors", "why_tests_cant": "universal over sign patterns", "anchors": ["python/src/moocore/_moocore.py:411-432,958-972", "c/nondominated.h: force_agree_minimize, agree_objectives"]}
{"id": "C14", "title": "Hypervolume contributions: hv(S) - hv(S minus one point), non-negative, zero for duplicated/dominated points, input restored", "statement": "hv_contributions returns for every row the hypervolume lost by removing it; each value is non-negative; a row weakly dominated by another row has contribution 0; the data array is unchanged afterwards.", "quantifier": "all sets of at least one row and all references", "why_tests_cant": "quantifies over all subsets obtained by removal", "anchors": ["c/hv_contrib.c: hv_1point_diffs, hv_contributions"]}
{"id": "C15", "title": "Additive epsilon equals the max-min-max definition and is <= 0 exactly when every reference row is weakly dominated", "statement": "epsilon_additive(A,R) is the smallest e such that every row of R is weakly dominated by some row of A shifted by e (with maximised objectives reversed); it is <= 0 iff A weakly dominates R; epsilon_additive(A,A) = 0.", "quantifier": "all pairs of non-empty sets, dimensions >= 1, maximise vectors", "why_tests_cant": "universal over pairs of sets; three nested min/max accumulations with infinite start values", "anchors": ["c/epsilon.h: epsilon_additive_minmax, epsilon_additive, epsilon_additive_ind"]}
{"id": "C16", "title": "Multiplicative epsilon equals its definition for positive data and reports non-positive data", "statement": "For positive data epsilon_mult(A,R) is the smallest factor e with every row of R weakly dominated by some row of A scaled by e; it is <= 1 iff A weakly dominates R; non-positive values end in a fatal error, never in a number.", "quantifier": "all pairs of non-empty sets of positive data", "why_tests_cant": "universal over pairs; division direction for maximised objectives and the error path for non-positive values", "anchors": ["c/epsilon.h: epsilon_mult_minmax, epsilon_mult"]}
{"id": "C17", "title": "Epsilon indicators are weakly Pareto-compliant", "statement": "If every row of B is weakly dominated by a row of A then epsilon_additive(A,R) <= epsilon_additive(B,R) for every reference set R (and likewise multiplicative for positive data).", "quantifier": "all triples of non-empty sets", "why_tests_cant": "relation between two runs, over all sets", "anchors": ["c/epsilon.h"]}
{"id": "C18", "title": "GD, IGD and averaged Hausdorff distance follow their definitions", "statement": "igd, gd and avg_hausdorff_dist return the (p-)mean over one set of the Euclidean distance to the nearest row of the other set (max of both directions for Hausdorff), 0 iff every row of the first set occurs in the second; result non-negative; infinite for an empty first set.", "quantifier": "all pairs of sets, exponents p >= 1", "why_tests_cant": "min/sum loops over all sets of any size", "anchors": ["c/igd.h: gd_common, GD_minmax, IGD_minmax, GD_p, IGD_p, avg_Hausdorff_dist"]}
{"id": "C19", "title": "IGD+ is weakly Pareto-compliant; it is 0 iff the data weakly dominate the reference set", "statement": "If every row of B is weakly dominated by a row of A then igd_plus(A,R) <= igd_plus(B,R); igd_plus(A,R) = 0 iff every row of R is weakly dominated by some row of A. (This is the documented advantage over igd, which is not compliant.)", "quantifier": "all triples of non-empty sets, all maximise vectors", "why_tests_cant": "relation between two runs, over all sets", "anchors": ["c/igd.h: gd_common, IGD_plus"]}
{"id": "C20", "title": "2-objective EAF: each level's output is exactly the minimal staircase of that attainment surface", "statement": "For every requested level l the points returned by eaf for 2 objectives are strictly increasing in x and strictly decreasing in y, and a location z is weakly dominated by one of them if and only if at least l of the input sets contain a point weakly dominating z.", "quantifier": "all collections of non-empty sets, all levels 1..n, all locations, all sort tie orders", "why_tests_cant": "all combinations of interleaving of the two sweeps over all runs", "anchors": ["c/eaf.c: eaf2d, eaf_store_point_help", "c/eaf.h: attsurf", "python: eaf"]}
{"id": "C21", "title": "2-objective EAF: the attained flags of a returned point say exactly which sets attain it", "statement": "For every returned EAF point the recorded bit of run r is 1 iff run r contains a point weakly dominating it; therefore at least level l bits are set, and the left-minus-right difference used by eafdiff is the true difference in attainment counts.", "quantifier": "all collections of sets, all levels, all returned points", "why_tests_cant": "flags are copied from sweep state at a particular moment; needs all interleavings", "anchors": ["c/eaf.c: eaf2d:400-425, eaf_store_point_help", "c/eaf.h: attained_left_right", "c/eafdiff.c: eafdiff_compute_matrix"]}
{"id": "C22", "title": "EAF levels are nested", "statement": "A location attained at level l+1 is attained at level l: surfaces returned for increasing percentiles never cross.", "quantifier": "all collections of sets and levels", "why_tests_cant": "relation between outputs over all inputs", "anchors": ["c/eaf.c: eaf2d"]}
{"id": "C23", "title": "Percentile/level conversion is correct and always in range", "statement": "Any percentile in [0,100] maps to a level between 1 and n; level 100k/n maps back to k; increasing percentiles give non-decreasing levels.", "quantifier": "all n >= 1, all percentiles", "why_tests_cant": "covers all integers n and reals", "anchors": ["c/eaf.h: level2percentile, percentile2level, levels_from_percentiles, all_percentiles"]}
{"id": "C24", "title": "EAF difference rectangles partition what they claim: non-overlapping levels and correct colour", "statement": "For collections x and y with the same number of non-empty sets, the rectangles returned by eafdiff(x, y, rectangles=True) are non-degenerate, no two of them overlap, they cover exactly the locations attained by at least one set but not by all, and every location inside a rectangle has the EAF difference given by its colour; outside all rectangles the difference is zero.", "quantifier": "all pairs of collections of sets", "why_tests_cant": "geometric statement over all locations and all collections", "anchors": ["c/eaf.c: eaf_compute_rectangles, rectangle_add", "c/eafdiff.c: eafdiff_compute_rectangles"]}
{"id": "C25", "title": "Rectangle-weighted hypervolume equals the weighted area of the dominated region", "statement": "whv_rect returns the sum over rectangles of weight times the area of the part of the rectangle that is dominated by the data (below the reference).", "quantifier": "all rectangle lists and all mutually nondominated data sets", "why_tests_cant": "early exits in the merge of sorted points and rectangles fire only for particular geometries", "anchors": ["c/whv.c: rect_weighted_hv2d, whv_preprocess_rectangles"]}
{"id": "C26", "title": "HypE Monte-Carlo estimate counts exactly the dominated samples", "statement": "For a given list of samples the estimate equals volume of the sampling box times the fraction of samples weakly dominated by at least one point; in particular it is between 0 and the box volume, monotone in the point set, and independent of dominated/duplicate points.", "quantifier": "all point sets, all sample lists", "why_tests_cant": "per-sample counting loop over all inputs", "anchors": ["c/whv_hype.c: estimate_whv, calculate_volume_between_points, normalise01"]}
{"id": "C27", "title": "MT19937 stays in bounds and its outputs in range for every seed and any number of draws", "statement": "After seeding with any 32-bit value (or any key array) every draw returns a value below 2^32, every state index used is below 624, next_double is k/2^53 with 0 <= k < 2^53, so lies in [0,1), and the 624-word state is updated by the published recurrence.", "quantifier": "all 32-bit seeds, all key arrays, all numbers of draws", "why_tests_cant": "the state space is 2^19937; histories are unbounded", "anchors": ["c/mt19937/mt19937.c", "c/mt19937/mt19937.h", "c/rng.c"]}
{"id": "C28", "title": "Bit arrays: writing one flag changes that flag only", "statement": "After setting bit i to v, reading bit i gives v and every other bit is unchanged; copying an attained array copies all bits; allocation of ceil(n/64) words covers every bit index below n.", "quantifier": "all sizes, indices and contents", "why_tests_cant": "index/mask arithmetic for all word and bit positions", "anchors": ["c/bit_array.h"]}
{"id": "C29", "title": "Growable vector keeps all pushed elements in order and never writes out of its capacity", "statement": "After any sequence of push_back operations, size is the number pushed, element i is the i-th pushed value, and capacity >= size at all times.", "quantifier": "all sequences of operations", "why_tests_cant": "unbounded histories with reallocation", "anchors": ["c/cvector.h"]}
{"id": "C30", "title": "Reading back a written file gives the same sets", "statement": "read_datasets applied to the text produced by write_sets returns the same points, the same number of columns and the same set boundaries. The numbers are restored exactly if they are doubles nearest to a decimal number of at most 15 significant digits (the precision the writer uses); any other double changes by a relative 6e-15 at most and is stable afterwards.", "quantifier": "all non-empty lists of non-empty sets of equal-width rows, all doubles of the normal range", "why_tests_cant": "round-trip over all data shapes", "anchors": ["c/io_priv.h: read_objective_t_data", "c/io.c: write_sets, read_datasets"]}
{"id": "C31", "title": "The file reader accepts exactly rectangular numeric data, groups sets by blank lines, and never overruns its buffers", "statement": "Comment lines are skipped, runs of blank/comment lines separate sets, no empty set is ever produced, rows of different width give ERROR_COLUMNS, unreadable tokens give ERROR_CONVERSION, empty input gives READ_INPUT_FILE_EMPTY; every buffer write is within the reallocated size. (Form feeds and vertical tabs are skipped by scanf like line ends, so the grouping claim is for files without them; the memory-safety claim is for all files.)", "quantifier": "all input files", "why_tests_cant": "input language is infinite; buffer growth boundaries", "anchors": ["c/io_priv.h: read_objective_t_data", "c/io.c: skip_comment_line"]}
{"id": "C32", "title": "Normalisation maps bounds to range ends, preserves order, reverses maximised objectives and handles zero range", "statement": "normalise sends lower to to_range[0] and upper to to_range[1] (swapped for maximised objectives), keeps values within bounds inside the range, preserves (for maximised: reverses) the order of values, and maps a zero-width column to to_range[0].", "quantifier": "all data, bounds, ranges and maximise vectors (exact arithmetic)", "why_tests_cant": "universal over reals", "anchors": ["c/nondominated.h: normalise, agree_normalise, agree_objectives"]}
{"id": "C33", "title": "Normalisation preserves dominance", "statement": "If lower < upper in every objective and to_range is increasing, row i dominates row j after normalise (minimisation) iff it did before with the given maximise vector.", "quantifier": "all data sets", "why_tests_cant": "relational over all inputs", "anchors": ["c/nondominated.h: agree_normalise"]}
{"id": "C34", "title": "Set comparison (dominatedsets) is the better relation on sets and its self-check never aborts on nondominated sets", "statement": "For two sets of mutually nondominated distinct points the pairwise comparison reports a win for A iff every point of B is weakly dominated by a point of A and the sets differ; the internal cross-check against the epsilon indicator never fails; the relation is antisymmetric.", "quantifier": "all pairs of nondominated sets", "why_tests_cant": "universal over pairs of sets; abort path reachable only for special inputs", "anchors": ["c/dominatedsets.c: dominance, set_dominates, pareto_better, cmpparetos"]}
{"id": "C35", "title": "Force-bounds keeps exactly the points inside the bounds and adjusts the set sizes accordingly", "statement": "After force_bounds each set contains, in order, exactly its original points with every coordinate within [lower, upper]; cumulative sizes are adjusted accordingly.", "quantifier": "all data, bounds and set partitions", "why_tests_cant": "in-place compaction with moving indices over all partitions", "anchors": ["c/nondominated.c: force_bounds"]}
{"id": "C36", "title": "AVL tree operations keep the in-order sequence, the balance and the thread list", "statement": "Inserting before/after a node inserts exactly there in the in-order sequence; unlinking removes exactly that node; after each operation sibling depths differ by at most one, recorded depths are right, and depth is logarithmic.", "quantifier": "all trees and all operation sequences", "why_tests_cant": "pointer rotations for all tree shapes and unbounded histories", "anchors": ["c/hv.c:97-489", "c/avl.c"]}
{"id": "C37", "title": "AVL search_closest returns a neighbour of the insertion position", "statement": "For a tree sorted by the comparator, search_closest returns a node such that inserting before (result <= 0... negative) or after (positive) it keeps the tree sorted; it reports equality iff an equal item exists.", "quantifier": "all sorted trees and items", "why_tests_cant": "all shapes", "anchors": ["c/hv.c: avl_search_closest", "c/avl.c: avl_search_closest"]}
{"id": "C38", "title": "apply_within_sets / is_nondominated_within_sets return results aligned with the input rows", "statement": "Grouping rows by set label, applying a row-wise function to each group and scattering back gives at row i the value computed for row i within its own group, for any interleaving of labels.", "quantifier": "all label vectors and functions returning one value per row", "why_tests_cant": "permutation round-trip over all label patterns", "anchors": ["python/src/moocore/_moocore.py:783-803, 1993-2013"]}
{"id": "C39", "title": "Python eaf() assigns each row to the set given by its label", "statement": "eaf(data) must treat rows with the same label as one set, whatever the order of rows in the matrix.", "quantifier": "all row orders and label vectors", "why_tests_cant": "depends on the arrangement of labels", "anchors": ["python/src/moocore/_moocore.py: eaf:1222-1244 (contrast eafdiff:1477-1484)"]}
{"id": "C40", "title": "Vorob'ev threshold search terminates", "statement": "vorobT performs finitely many bisection steps for every collection of sets and reference point.", "quantifier": "all collections of sets and reference points", "why_tests_cant": "loop with floating convergence test, unbounded in principle", "anchors": ["python/src/moocore/_moocore.py: vorobT:1301-1315"]}
{"id": "C41", "title": "Empty runs do not break the association of points to runs", "statement": "Sweeps that rebuild the run index from cumulative sizes assign point k to the run whose index range contains k, provided every run is non-empty; with an empty run the association is wrong.", "quantifier": "all cumulative size vectors", "why_tests_cant": "boundary condition appears only for repeated cumulative sizes", "anchors": ["c/eaf.c: eaf2d runtab", "c/eaf3d.c: setup_cdllist", "c/io.c: read_datasets"]}
{"id": "C42", "title": "3-objective EAF: each level's output is exactly the minimal set of that attainment surface", "statement": "For every level l the points returned by eaf for 3 objectives weakly dominate a location iff at least l input sets do.", "quantifier": "all collections of non-empty 3-objective sets and all levels", "why_tests_cant": "sweep with per-set and per-level trees; all interleavings", "anchors": ["c/eaf3d.c: eaf3df, add2set, add2level, eaf3d"]}
{"id": "C43", "title": "Nondominated-sorting utility orders by front and, within a front, by hypervolume contribution", "statement": "ndsort --rank prints for every point the number of its front. Without --rank it prints a value that keeps the fronts in order and, within a front, puts points with a larger hypervolume contribution (of the front normalised to [0,0.9], reference 1) first; every input point gets exactly one value. The directions given with --obj are respected.", "quantifier": "all data sets", "why_tests_cant": "multi-pass over all fronts", "anchors": ["c/ndsort.c: calculate_uev, main"]}
{"id": "C44", "title": "Symmetric-difference hypervolume used by vorobDev is non-negative and zero iff the dominated regions agree", "statement": "2*H(A union B) - H(A) - H(B) equals the volume of the symmetric difference of the dominated regions, hence is >= 0, symmetric and 0 iff both sets dominate the same region below the reference.", "quantifier": "all pairs of sets and references", "why_tests_cant": "universal over pairs", "anchors": ["python/src/moocore/_moocore.py: vorobDev:1368-1378"]}
{"id": "C45", "title": "Command-line check for dominated points reports exactly the sets that contain one", "statement": "nondominated --check (and the default filter mode) sets the 'dominated found' result iff some input set contains a point weakly dominated by another point of the same set, and its keep flags form a correct filter of every set.", "quantifier": "all lists of sets, numbers of objectives and optimisation directions", "why_tests_cant": "depends on every pair of points of every set", "anchors": ["c/nondominated.c: check_nondominated:332-363"]}
{"id": "C46", "title": "Filtering after making the objectives agree gives the same verdict as filtering the original data", "statement": "With --agree=min or --agree=max the points kept are those that are kept without the option.", "quantifier": "all data sets, directions and agree modes", "why_tests_cant": "needs every combination of direction vector, agree mode and data", "anchors": ["c/nondominated.c: process_file:531-542", "c/nondominated.h: force_agree_minimize, agree_objectives"]}
{"id": "C47", "title": "The hypervolume computed with the real pointer tree is exact", "statement": "fpli_hv, executed with its threaded AVL tree on uninitialised node memory, never follows a null pointer, never runs out of steps and returns exactly the hypervolume; the tree is empty again after every three-objective subproblem.", "quantifier": "all data sets, references, numbers of objectives >= 2 and initial memory contents", "why_tests_cant": "the tree shape depends on every earlier insertion and removal", "anchors": ["c/hv.c: fpli_hv3d_ref:924-1003, hv_recursive_ref:1021-1109, fpli_hv:1136-1167, avl_*:97-489"]}
{"id": "C48", "title": "Vorob'ev expectation is the attainment surface at the threshold where the dominated volume crosses the mean volume", "statement": "vorobT returns the mean hypervolume of the sets, a threshold, and the empirical attainment surface at that threshold; the threshold separates surfaces whose volume is larger than the mean from surfaces whose volume is not.", "quantifier": "all collections of sets and references", "why_tests_cant": "bisection over data-dependent surfaces", "anchors": ["python/src/moocore/_moocore.py: vorobT:1225-1305"]}
{"id": "C49", "title": "Vorob'ev deviation is the mean volume of the symmetric difference", "statement": "vorobDev(data, labels, ref, VE) equals the mean over the sets of the volume of the symmetric difference between the region dominated by the set and the region dominated by VE; it is non-negative.", "quantifier": "all collections of sets, references and surfaces VE", "why_tests_cant": "the formula uses 2*H(A union B)-H(A)-H(B), whose equality with a volume is a statement over all sets", "anchors": ["python/src/moocore/_moocore.py: vorobDev:1308-1378"]}
{"id": "C50", "title": "Option arguments for directions and flags mean what they say", "statement": "An argument of --obj is accepted iff it consists of the characters + - 0 i and leaves some objective; the direction of objective k is the one of character k, the string being repeated when the number of objectives is already known to be larger; nothing is read or written outside the arrays. Likewise the 0/1 strings of --log.", "quantifier": "all argument strings and all numbers of objectives known before", "why_tests_cant": "strings of every length, including empty, too short and too long ones", "anchors": ["c/io.h: read_minmax:70-111, read_bitvector:113-144"]}
{"id": "C51", "title": "Ignored objectives have no influence on nondominated filtering", "statement": "When --obj marks objectives as ignored, the points kept are exactly the ones that are nondominated with respect to the remaining objectives.", "quantifier": "all data sets and direction vectors with ignored objectives", "why_tests_cant": "depends on every pair of points and on every subset of ignored objectives", "anchors": ["c/nondominated.h: find_nondominated_set_:159-239, force_agree_minimize:16-42", "c/io.h: read_minmax:70-111"]}
{"id": "C52", "title": "Epsilon indicators computed with floating-point numbers are correctly rounded and decide weak dominance exactly", "statement": "With double coordinates, the additive (multiplicative) epsilon returned is the exact least shift (factor), rounded once. It is <= 0 (<= 1) iff the first set weakly dominates the second, and rounding never makes a weakly dominating set look worse. The multiplicative indicator of non-empty sets is refused exactly if some value is not positive.", "quantifier": "all sets of doubles whose differences and quotients do not overflow, all directions", "why_tests_cant": "rounding errors depend on every bit of every coordinate", "anchors": ["c/epsilon.h: epsilon_additive_minmax:69-96, epsilon_mult_minmax:33-67"]}
{"id": "C53", "title": "The 2-objective hypervolume computed with floating-point numbers has a small relative error", "statement": "For n points with double coordinates the computed hypervolume is non-negative and differs from the exact area V by at most a factor (1 +- 2^-53)^(n+3), plus n times the smallest positive double.", "quantifier": "all sets of points with double coordinates, all results of qsort (no overflow)", "why_tests_cant": "the accumulated rounding error depends on all coordinates and on the number of points", "anchors": ["c/hv.c: hv2d:853-879"]}
{"id": "C54", "title": "Normalisation computed with floating-point numbers keeps weak dominance and the ends of the range", "statement": "With double data, a row that weakly dominates another still does so after normalisation; the ideal bound is mapped exactly to the lower end; the other bound is mapped exactly to the upper end and no value inside the bounds leaves the range.", "quantifier": "all double data sets, bounds, ranges and directions (no overflow)", "why_tests_cant": "rounding errors depend on every bit of every coordinate and bound", "anchors": ["c/nondominated.h: normalise:340-367, agree_normalise:369-382"]}
{"id": "C55", "title": "The Monte-Carlo hypervolume approximation ignores dominated points, respects dominance and estimates the hypervolume without bias", "statement": "hv_approx(data, ref, seed): with the same random numbers, removing dominated or duplicated points does not change the returned double at all, and a set that weakly dominates another never gets a smaller value; maximised objectives behave as negated minimised ones; a number is returned for every data set and is zero if no point strictly dominates ref; every sample is the exact distance from ref to the border of the dominated region along its direction, and the mean of the estimate over the directions is the hypervolume.", "quantifier": "all data sets, reference points, directions of optimisation, random numbers and numbers of samples", "why_tests_cant": "the claim is about every random sequence and about a mean over a continuum of directions", "anchors": ["python/src/moocore/_moocore.py: hv_approx:520-643"]}
{"id": "C56", "title": "The attainment indicators of three-objective surfaces are exact", "statement": "For three objectives, the indicators stored with every point of every attainment surface tell exactly which of the input sets attain that point (contain a point that weakly dominates it); at least as many are set as the level of the surface; the bit array returned with the surface reads back exactly these indicators.", "quantifier": "all collections of non-empty 3-objective sets with values strictly between the sentinels, all orders of ties, all lists of levels, all memory contents", "why_tests_cant": "the indicators are recovered at the end from a graph of promoter, remover and equal pointers built during the whole sweep; a missing link shows only for particular histories of ties and removals", "anchors": ["c/eaf3d.c: find_all_promoters:189-207, add2level, find_promoters, promote, eaf3df:535-693, eaf3d:779-844", "c/eaf.c: eaf_store_point_help:123-144"]}
{"id": "C57", "title": "The eaf program prints exactly the attainment surfaces asked for", "statement": "For two or more sets of two or three objectives, the eaf program writes, for each level asked for and in that order, one line per point of the exact attainment surface. Every output stream gets the columns sent to it, separated by tabs: the coordinates, the indices telling which sets attain the point, and how many of the first half and of the other sets attain it. An empty line follows every level on the stream of the coordinates. Other numbers of objectives are refused.", "quantifier": "all collections of at least two non-empty sets, all valid options (levels, streams that may coincide), all orders of ties, all memory contents", "why_tests_cant": "the columns depend on which of three streams coincide, on the parity of the number of sets and on whether the indices are printed or only counted", "anchors": ["c/eaf_main.c: main:185-455, eaf_print:150-164", "c/eaf.c: eaf_print_line:167-198, eaf_print_attsurf:200-212", "c/eaf.h: attsurf:107-127, attained_left_right:129-145"]}
{"id": "C58", "title": "The options of the eaf program mean what they say", "statement": "The arguments of --level are accepted exactly if they are lists of decimal integers separated by commas, semicolons or white space, and then have these values (fewer than 50 values in the range of int). The levels computed are 1 for --best, the middle for --median, the number of sets for --worst, the levels of the percentiles, the given levels or all of them; the program stops if a level or percentile is out of range. The coordinates, indices and differences go to the streams named by the last options, if the files named explicitly are different, and the program stops exactly if one of them cannot be opened.", "quantifier": "all argument strings, all combinations and orders of the options, all numbers of sets", "why_tests_cant": "the space of argument strings and option orders is unbounded; overflow of the arrays and of int only shows for long lists and large numbers", "anchors": ["c/eaf_main.c: read_ints:116-148, read_doubles:82-114, main:228-422"]}
{"id": "C59", "title": "The linked trees of the three-objective attainment function share memory safely", "statement": "Computing attainment surfaces of three objectives with linked trees and lists that share one memory never reads a freed node, follows a null pointer or disturbs a tree or list other than the one changed. The surfaces and indicators returned are exact and depend neither on what the memory held before nor on what freeing leaves behind.", "quantifier": "all collections of non-empty sets of fewer than 2^118 points strictly inside the sentinel values, all orders of ties, all levels, all memory contents", "why_tests_cant": "nodes move between trees, output lists and the removed list in an order that depends on all the data; a dangling pointer shows only for some orders and some allocators", "anchors": ["c/eaf3d.c: find_point_at_left, add2set:393-419, add2level:421-497, add2output, add2output_all:372-391, eaf3df:535-746, add_sentinels:748-764, eaf3d:779-844", "c/avl.c"]}
{"id": "C60", "title": "The polygons of an EAF difference tile the region between the surfaces", "statement": "The polygons computed for an even number of sets have only horizontal and vertical edges. Every location attained by at least one but not by all sets lies, by the even-odd rule, in exactly one polygon, and the colour of that polygon is the number of first-half sets attaining the location minus the number of second-half sets. No other location lies in a polygon. The R interface puts a polygon on the left side if its scaled and truncated difference is at least 1 and otherwise on the right side, with colour index 1 plus the absolute value.", "quantifier": "all even-length collections of at least two non-empty sets of two-objective points, all orders of ties, all numbers of intervals, all locations of the plane", "why_tests_cant": "each polygon walks down one surface and back along another, with shared corners, ties and colour changes; an error shows up only for some crossing patterns and some locations", "anchors": ["c/eaf.c: eaf_compute_polygon:595-805, init_colors, eaf_print_polygon:941-960", "c/eaf.h: eaf_compute_area", "r/src/Rmoocore.c: polygon_len, polygon_copy, compute_eafdiff_polygon_C:166-258"]}
{"id": "C61", "title": "The hv program prints the hypervolume of every set of every file", "statement": "For every list of readable files with the same number (at least 2) of columns, the hv program writes, for each set of each file (for each file with --union), one line with its hypervolume with respect to the reference point, to standard output or with --suffix to the file whose name is the input name followed by the suffix, and ends with status 0. The reference point is the argument of the last --reference, or otherwise max + 0.1 (max - min) per coordinate over all points of all files. The first set that no point of which strictly dominates the reference point stops the program with status 1 after the lines of the preceding sets. An invalid --reference argument, an unreadable file or a wrong number of columns gives status 1; without --reference and with several files this is noticed before anything is written.", "quantifier": "all options, all numbers and contents of files, all reference points, all sets of points of any size and dimension, all number formats", "why_tests_cant": "combinations of options, files, suffixes and error positions are unbounded; the reference point depends on all files while each file is read twice", "anchors": ["c/main-hv.c: read_reference, data_bounds, file_range, hv_file, main", "c/cmdline.h: handle_read_data_error", "c/io_priv.h: read_objective_t_data", "c/hv.c: fpli_hv, fpli_hv_shift"]}
{"id": "C62", "title": "The epsilon and igd programs print the indicators of every set of every file", "statement": "For every list of readable files with as many columns as the reference set, the epsilon program writes one line per set with the smallest additive shift (with --multiplicative, the smallest factor) by which the set has to be improved to cover the reference set, for the directions of --obj (minimisation by default); the igd program writes one line per set with the values of the indicators asked for, tab separated, in the order GD, IGD, GD_p, IGD_p, IGD+, average Hausdorff, IGD_p always. Output goes to standard output or, with --suffix, to the file with that suffix. epsilon stops with status 1 after the value of the first set that is better than the reference set, and at the first number that is not positive with --multiplicative. A meaningless --obj argument, a missing or unreadable reference set, or a file with another number of columns gives status 1 and no output.", "quantifier": "all option lists, numbers and contents of files, reference sets, directions and exponents, sets of any size and dimension, all number formats", "why_tests_cant": "combinations of options, files and suffixes are unbounded; the order of --obj and --reference matters", "anchors": ["c/epsilon.c: do_file, main", "c/igd.c: do_file, main", "c/cmdline.h: read_reference_set, handle_read_data_error", "c/io.h: read_minmax", "c/epsilon.h: epsilon_additive_minmax, epsilon_mult_minmax", "c/igd.h: gd_common"]}
{"id": "C63", "title": "The nondominated program checks, filters, bounds and turns the sets of every file", "statement": "For every list of readable files with the same number of columns, the nondominated program writes, if --filter, --force-bounds or --agree is given, one file per input file (name plus suffix): a header with the directions and the bounds in use (those given, else the ranges over the points of all the files), and then the sets (with --union their union) without the points outside the bounds (--force-bounds), without dominated and duplicated points (--filter; order kept, one copy of equal points), with the objectives negated that do not agree with --agree. Exit status 1 if and only if a set has a dominated or duplicated point (unless --no-check). --verbose prints the ranges of all the points. Without file names it copies standard input to standard output in the same way. A wrong option, crossed bounds, a point outside the bounds without --force-bounds, or an unreadable file gives status 1, and only the outputs of earlier files have been written.", "quantifier": "all option lists, numbers and contents of files, bounds, directions, sets of any size and dimension, all number formats", "why_tests_cant": "combinations of options, files, bounds and suffixes are unbounded; default bounds depend on all the files; outputs depend on the order of failures", "anchors": ["c/nondominated.c: main, process_file, file_bounds, data_bounds, force_bounds, check_nondominated, print_output_header, print_file_info", "c/io.c: write_sets, write_sets_filtered, read_point, read_minmax", "c/nondominated.h: agree_objectives, find_nondominated_set_agree"]}
{"id": "C64", "title": "The dominatedsets program counts, for every two files, the pairs of sets in which one is better", "statement": "For two or more readable files with the same number of columns, whose sets have no dominated or duplicated points and (unless --no-check) at least two points each, the dominatedsets program prints a table whose entry (k, j) is the number of pairs (set of file k, set of file j) in which the set of file k weakly dominates that of file j and not conversely, with --percentages also that number out of all the pairs, and for each file the number of times a set of another file is better than one of its sets; exit status 0, and no file changes. Otherwise, with the check, the status is 1 and only the heading has been printed. Fewer than two files, a wrong option, or an unreadable file gives status 1 and no table. It does not write outside the memory it allocates.", "quantifier": "all option lists, numbers and contents of files, directions, sets of any size and dimension, all number formats, all allocators", "why_tests_cant": "the numbers of files, sets and points are unbounded; an overflow of a heap block depends on the allocator", "anchors": ["c/dominatedsets.c: main, print_results, cmpparetos, pareto_better, set_dominates, dominance", "c/nondominated.h: find_dominated_point", "c/io.c: read_double_data", "c/io.h: read_minmax"]}
{"id": "C65", "title": "The ndsort program prints the front, or the sort key, of every point of its input", "statement": "For a readable file, or standard input, the ndsort program prints one line per point (all the sets of the input joined), in the order of the input: with --rank the number of the front of the point; otherwise that number, except that a point of the first front gets 2 minus its contribution to the hypervolume of the normalised front (contributions below the tolerance count as zero). --verbose puts the name of the input and the number of points before it. The exit status is 0 and no file changes. A wrong option, --keep-uevs, two or more files, an unreadable file or one with another number of columns than --obj ends the program with nothing printed. The directions of --obj are respected.", "quantifier": "all option lists, inputs from a file or standard input, any number of sets, points and objectives (two or more without --rank), all number formats", "why_tests_cant": "the contents and sizes of the input are unbounded", "anchors": ["c/ndsort.c: main, fprint_rank, fprint_vector_double", "c/cmdline.h: handle_read_data_error", "c/io.h: read_minmax", "c/pareto.c: pareto_rank", "c/nondominated.h: normalise", "c/hv_contrib.c: hv_contributions"]}
{"id": "C66", "title": "The R functions for one matrix give the specified values and refuse wrong arguments", "statement": "In the R package, for a matrix with at least one row and two columns: hypervolume() is the volume dominated by the rows and hv_contributions() what it loses without each row; is_nondominated(), filter_dominated() and pareto_rank() mark, keep and rank exactly the rows that dominance says; epsilon_additive() and epsilon_mult() are the least shift and factor; igd(), igd_plus() and avg_hausdorff_dist() the specified means of distances. A reference point or a vector of directions may be given per objective or as one value for all. A matrix without rows or with fewer than two columns, a reference point of another length, reference sets with another number of columns, differing directions of another length and (epsilon_mult) values that are not positive are errors.", "quantifier": "all matrices, reference points, reference sets and directions", "why_tests_cant": "the data are unbounded, and the functions combine transposition, recycling and negation with the C code", "anchors": ["r/R/hv.R: hypervolume, hv_contributions", "r/R/nondominated.R: is_nondominated, filter_dominated, pareto_rank", "r/R/epsilon.R: epsilon_additive, epsilon_mult, unary_common", "r/R/igd.R: igd, igd_plus, avg_hausdorff_dist", "r/R/utils.R: as_double_matrix, transform_maximise", "r/src/Rmoocore.c: hypervolume_C, hv_contributions_C, is_nondominated_C, pareto_ranking_C, unary_metric_ref"]}
{"id": "C67", "title": "The R functions eaf and eafdiff return the attainment surfaces and differences of the labelled sets", "statement": "In the R package, for two or three objectives: eaf() returns, for every different percentile in increasing order (or for every level, if no percentiles are given), the attainment surface of the sets given by the set numbers of the rows, in whatever order the rows come and for any directions of optimisation, followed by the percentile; with groups, the same for each group in increasing order with the group beside it. eafdiff() returns every point of every attainment surface of the sets of both arguments once, with the difference of the fractions of the sets that attain it times the number of intervals. Matrices without rows, with fewer than two or more than three objectives, differing directions of another length, and two arguments with different numbers of columns are errors.", "quantifier": "all matrices, set numbers, groups, percentiles between 0 and 100, numbers of intervals and directions", "why_tests_cant": "the data are unbounded, and the functions combine sorting, transposition and negation with the C code", "anchors": ["r/R/eaf.R: eaf, compute_1_eaf, compute_eaf_call", "r/R/eafdiff.R: eafdiff, compute_eafdiff_call", "r/src/Rmoocore.c: compute_eaf_helper, compute_eaf_C, compute_eafdiff_C", "c/eaf.c: eaf2matrix_R", "c/eaf.h: eaf_totalpoints"]}
{"id": "C68", "title": "The R functions vorobT and vorobDev end and return Vorob'ev thresholds, surfaces and deviations", "statement": "In the R package, vorobT() ends for every data set of two or three objectives. It returns the mean hypervolume of the sets, a threshold and the attainment surface of this threshold, where the threshold is one end of an interval whose lower end has a surface of more than the mean hypervolume and whose upper end has not. vorobDev() returns the mean volume of the symmetric difference between the region of each set and the region of the given surface (by default the one of vorobT). All directions of optimisation are allowed. Matrices without rows, with fewer than two objectives, and directions of another length are errors.", "quantifier": "all matrices, set numbers, reference points, directions of optimisation and surfaces", "why_tests_cant": "the bisection runs over doubles until two volumes agree, and the data are unbounded", "anchors": ["r/R/vorob.R: vorobT, vorobDev", "r/R/eaf.R: eaf", "r/R/hv.R: hypervolume", "r/R/utils.R: transform_maximise"]}
{"id": "C69", "title": "R data files are read, written and combined without loss", "statement": "In the R package, read_datasets() returns the rows of the file in their order with the number of their set (1, 2, ...) in an additional column, from a file or from the argument text, and refuses files whose rows have different lengths or contain something else than numbers. What write_datasets() writes, in place of what the file contained, is read back as the same rows, up to the text of each number, with the sets in increasing order of their numbers and renumbered. rbind_datasets() returns all rows of both arguments and renumbers the sets of the second one such that no two sets become one; reading two files and combining them gives the same as reading both files one after the other. Files without data, and matrices that are too small, are errors.", "quantifier": "all texts, all matrices and all numbers of sets", "why_tests_cant": "the format of files is free (comments, blank lines, any number of sets and columns) and the sets are numbered in any way", "anchors": ["r/R/read_datasets.R: read_datasets, write_datasets", "r/R/rbind_datasets.R: rbind_datasets", "r/src/Rmoocore.c: R_read_datasets", "c/io_priv.h: read_objective_t_data", "c/common.h: matrix_transpose_double"]}
{"id": "C70", "title": "R normalises and weighs data as documented", "statement": "In the R package, normalise() moves every value of a column from the bounds of the column (given, recycled, or the least and greatest value) to to_range, the other way round for maximised objectives: by default the values fill the range exactly, and dominance between rows is kept. whv_rect() returns the sum over the rectangles of weight times area that the data dominate within the reference point, total_whv_rect() adds it, times scalefactor and the area between the ideal (given, or the best value of each objective) and the reference point, to the hypervolume; the Python functions of the same names agree. whv_hype() returns the fraction of the samples that the data attain times the area of the box, whatever the seed. Wrong numbers of columns, lengths, scale factors and maximised objectives (for whv_rect) are errors.", "quantifier": "all matrices, bounds, ranges, flags, rectangles, reference and ideal points, samples and seeds", "why_tests_cant": "the domain of each argument is infinite and the recycled forms multiply the cases", "anchors": ["r/R/normalise.R: normalise", "r/R/whv.R: whv_rect, total_whv_rect, whv_hype", "r/R/utils.R: get_ideal", "r/src/Rmoocore.c: normalise_C, rect_weighted_hv2d_C, whv_hype_C", "python/src/moocore/_moocore.py: whv_rect, total_whv_rect, get_ideal", "c/whv.c: rect_weighted_hv2d", "c/nondominated.h: agree_normalise"]}
{"id": "C71", "title": "R's rectangles of differences, the choice among them and the largest difference", "statement": "In the R package, eafdiff(x, y, rectangles=TRUE) returns for two objectives disjoint non-empty rectangles that cover exactly the locations attained by some but not by all sets of x and y, and the last column is, on the whole rectangle, the difference between the fractions of sets of x and of y that attain the location, in intervals, for any maximise. choose_eafdiff() of them returns the rectangles of the side chosen, with positive values, covering exactly the locations where that side is ahead. largest_eafdiff() returns the first pair of data sets with the largest difference, where the difference of a pair is the smaller of the two areas between the ideal and the reference point where one side is ahead by at least one interval, and that value. Different numbers of columns, an odd number of sets, fewer than two data sets and an ideal point that is not of two numbers are errors.", "quantifier": "all matrices with two objectives and a column of labels, in any order of rows, with the same number of sets; all intervals, maximise flags, ideal and reference points; all lists of data sets", "why_tests_cant": "rectangles depend on the relative position of all points of all sets, and the largest difference on all pairs", "anchors": ["r/R/eafdiff.R: eafdiff, compute_eafdiff_call", "r/R/largest_eafdiff.R: largest_eafdiff, choose_eafdiff", "r/R/utils.R: range_df_list", "r/src/Rmoocore.c: compute_eafdiff_rectangles_C", "c/eaf.c: eaf_compute_rectangles", "r/R/whv.R: whv_rect"]}
{"id": "C72", "title": "The Python functions compute the documented quantities and leave the caller's arrays alone", "statement": "Called from Python with a list of lists, an array of another type, or a float array of any layout, hypervolume(), pareto_rank(), is_nondominated(), filter_dominated(), filter_dominated_within_sets(), epsilon_additive(), epsilon_mult(), igd(), igd_plus() and avg_hausdorff_dist() return the quantity they document for the data, the reference and the maximise flags, each given as one value or one per objective, and every array of the caller has the same contents afterwards. An object Hypervolume(ref, maximise) gives for every data set what hypervolume(data, ref, maximise) gives, including the errors. Wrong lengths of ref or maximise, different numbers of columns and a parameter p that is not positive are errors.", "quantifier": "all data sets with any number of rows and columns, all memory contents, reference points, flags, and parameters p", "why_tests_cant": "whether an argument is modified depends on its class and layout and on the flags, and the values range over all data", "anchors": ["python/src/moocore/_moocore.py: hypervolume, Hypervolume, pareto_rank, is_nondominated, filter_dominated, filter_dominated_within_sets, _unary_refset_common, igd, igd_plus, avg_hausdorff_dist, epsilon_additive, epsilon_mult, whv_rect, _parse_maximise", "python/src/moocore/_utils.py: asarray_maybe_copy, atleast_1d_of_length_n, np2d_to_double_array"]}
{"id": "C73", "title": "Normalising and logarithmic scale do not change which points the nondominated program keeps", "statement": "With --normalise and --log the nondominated program keeps the same points and returns the same exit status as without them (up to the rounding of quotients and logarithms). Each coordinate that is written is the linear image of the coordinate (of its logarithm, in the columns marked by --log) that takes the lower bound to the lower end of the range and the upper bound to the upper end, or the other way round if --agree turns the objective; it is inside the range, and a column with equal bounds becomes the lower end. The header shows the scale, the range, and the bounds in that scale. Wrong ranges and vectors are refused before anything is read or written.", "quantifier": "all option lists, files, sets, dimensions, bounds, ranges, vectors of columns, any strictly increasing logarithm and any division that is exact when it can be", "why_tests_cant": "values and dominance range over all data, and the transformations combine with all other options and with bounds taken from all files", "anchors": ["c/nondominated.c: read_range, logarithm_scale, process_file, print_output_header, main", "c/io.h: read_bitvector", "c/nondominated.h: normalise, agree_objectives"]}
{"id": "C74", "title": "Hypervolume_MEX returns the hypervolume of the rows of a MATLAB matrix", "statement": "For a full matrix of doubles with at least two columns, Hypervolume_MEX(A, ref) returns the hypervolume of the rows of A with respect to ref, which may be a row or a column of as many numbers as A has columns, and Hypervolume_MEX(A), with at least one row, the hypervolume with respect to the greatest value of every column. No argument, or a text, prints the help; arguments that are not numeric, and a reference of another length, are errors. Only memory of the arguments and of the allocated blocks is accessed.", "quantifier": "all matrices of any size, all references, any contents of new memory blocks, all stable sorts", "why_tests_cant": "the copy from columns to rows, the search of the greatest values and the hypervolume range over all sizes and values", "anchors": ["c/Hypervolume_MEX.c: mexFunction, data_maximum", "c/hv.c: fpli_hv"]}
{"id": "C75", "title": "eaf --polygons prints polygons that tile the region between the first and the last level", "statement": "For an even number of non-empty sets of two-objective points and any request for consecutive levels (all levels by default), eaf --polygons writes to the stream of --output the vertices of each polygon, one per line, a line -inf -inf after each polygon, and a last line with the colours; it writes nothing to any other stream. The polygons have only horizontal and vertical edges; every location attained by at least the first but not by the last level lies in exactly one polygon, whose colour is the number of first-half sets attaining the location minus the number of second-half sets; no other location lies in a polygon. The text determines the polygons. The check for intersecting polygons made by debug builds never fails, at the end or after any polygon.", "quantifier": "all even-length collections of non-empty sets, all orders of ties, all consecutive levels, all combinations of the options for output, levels and percentiles that request them, all locations of the plane", "why_tests_cant": "whether a heuristic check of all pairs of polygons can fail depends on all crossing patterns of the surfaces", "anchors": ["c/eaf.c: eaf_print_polygon:941-960, eaf_check_polygons:559-591, polygons_intersect, min_max_in_objective, polygon_dominates_any_point, next_polygon", "c/eaf_main.c: main:435-439"]}
{"id": "C76", "title": "whv_hype with exponential and point weights estimates what the random numbers say", "statement": "For every seed, number of samples, data set, bounds and maximise flags: with dist='exponential', half of the samples (rounded down) are -mu*log(u) in the first objective and uniform in the second, the others the other way round, relative to the box between ideal and ref, made from the fractions the generator yields in order; the value returned is the area of the box times the proportion of samples at whose location some point is at least as good. The weight of the region a point (a, b) dominates is exp(-a/mu)(1-b) up to 2/2^53. With dist='point' every sample lies on the diagonal through the goal: only the first of the two normal numbers drawn for a sample has an effect.", "quantifier": "all seeds, numbers of samples, data, reference and ideal points, maximise flags, mu, both orders of evaluation in the 64-bit generator, all pairs of fractions", "why_tests_cant": "the values are random and the documented examples fix one seed; that the samples are confined to a line or leave the box is not visible in one estimate", "anchors": ["c/whv_hype.c: gaussian_dist_sample:32-49, exp_dist_sample:51-77, estimate_whv, whv_hype_sample, whv_hype_expo:271-280, whv_hype_gaus:282-294", "c/rng.c: rng_bivariate_normal_fill:101-116, rng_standard_normal:71-99", "python/src/moocore/_moocore.py: whv_hype:1832-1872"]}
{"id": "C77", "title": "the normal sampler has the standard normal distribution", "statement": "If the words and fractions drawn are equally likely and independent, the sampler behind the point weight of whv_hype returns with probability one, and for every real number z the probability that the number returned is at most z differs from the distribution function of the standard normal distribution at z by at most 1e-11.", "quantifier": "all real z; all words of 64 bits and fractions of 53 bits; all numbers of turns of the two loops (as a limit)", "why_tests_cant": "a distribution is a statement about all 2^64 words and unboundedly many rejections; a wrong entry in one of the three tables of 256 constants shifts probabilities by less than any statistical test resolves", "anchors": ["c/rng.c: rng_standard_normal:71-99", "c/ziggurat_constants.h: wi_double, ki_double, fi_double, ziggurat_nor_r, ziggurat_nor_inv_r"]}
{"id": "C78", "title": "random draws are equidistributed in 623 dimensions and purely periodic", "statement": "Of the 2^19937 states of the generator, exactly 2^(19937-32k) produce any given k <= 623 words as the draws number t, t+1, ..., t+k-1, whatever t and the words; likewise exactly 2^(19937-53k) produce any given k <= 311 fractions out of the multiples of 2^-53 in [0,1). So over all states consecutive draws are exactly independent and uniform. The low 31 bits of the first word of the state never affect a draw. Every stream of draws is purely periodic: it returns to its first draw after at most 2^19937 draws.", "quantifier": "all positions t, all lists of at most 623 words or 311 fractions, all states, all numbers of draws", "why_tests_cant": "it counts the 2^19937 states of the generator; a test sees a few streams, and a constant or index that breaks the bijection of the step or of the tempering leaves streams that look random", "anchors": ["c/mt19937/mt19937.c: mt19937_gen:96-133", "c/mt19937/mt19937.h: mt19937_next:28-44, mt19937_next_double:57-60"]}
{"id": "C79", "title": "whv_hype with uniform weights is an unbiased estimate of the hypervolume", "statement": "For data in a box between the ideal and the reference point and any number of samples, the mean of the value returned by whv_hype(dist='uniform') over all 2^19937 states of its generator is exactly the area of the box times the fraction of the 2^106 possible samples that are weakly dominated; for integer data none of which is better than the ideal point this is the hypervolume of the data, less at most 2^-52 times the area of the box.", "quantifier": "all data sets of two objectives, all boxes, all directions, all numbers of samples, all states of the generator", "why_tests_cant": "a mean over 2^19937 states cannot be measured; a bias smaller than the sampling error (a sample that uses one random number twice, a boundary counted on the wrong side) is invisible to tests with seeds", "anchors": ["c/whv_hype.c: whv_hype_unif:260-269, uniform_dist_sample:79-94, estimate_whv:154-196, whv_hype_sample:228-244", "python/src/moocore/_moocore.py: whv_hype:1832-1872", "c/mt19937/mt19937.h: mt19937_next_double:57-60"]}
{"id": "C80", "title": "Generational distances computed with doubles are accurate and IGD+ stays weakly Pareto compliant", "statement": "For all finite double inputs: the computed IGD+ of a set is never larger than that of a set it weakly dominates; IGD+ is exactly 0 if every reference point is weakly dominated, and IGD (GD) is exactly 0 if the reference set is included in the data (the data in the reference set); a finite result of GD, IGD or IGD+ differs from the exact mean distance by a relative error of at most (objectives / 2 + points + 5) * 2^-52 and an absolute error of about 2 * sqrt(objectives * 2^-1074).", "quantifier": "all finite double data and reference sets, numbers of objectives and points, directions, long double formats at least as wide as double", "why_tests_cant": "rounding errors depend on every bit of the data; monotonicity under rounding, underflow and overflow concerns all pairs of sets", "anchors": ["c/igd.h: gd_common:57-98, GD_minmax:100-110, IGD:112-132, IGD_plus:158-179"]}
{"id": "C81", "title": "The estimate of whv_hype with uniform weights is rarely far from the hypervolume", "statement": "For data in a box between the ideal and the reference point, let p be the fraction of the 2^106 possible samples that are weakly dominated. Over all 2^19937 states of the generator the mean squared distance of whv_hype(dist='uniform') from its mean is exactly area^2 * p * (1 - p) / nsamples for up to 155 samples, and at most ceil(nsamples / 155) / nsamples * area^2 * p * (1 - p) for any number of samples. Hence the fraction of the states from which the estimate differs by t * area or more (plus 2^-52 * area, for integer data and the hypervolume itself) is at most ceil(nsamples / 155) / (4 * nsamples * t^2).", "quantifier": "all data sets of two objectives, all boxes, all directions, all numbers of samples, all thresholds, all states of the generator", "why_tests_cant": "correlations between the samples of one run are invisible unless they are averaged over all states; tests with a few seeds measure one or two values", "anchors": ["c/whv_hype.c: whv_hype_unif:260-269, uniform_dist_sample:79-94, estimate_whv:154-196, whv_hype_sample:228-244", "python/src/moocore/_moocore.py: whv_hype:1832-1872", "c/mt19937/mt19937.h: mt19937_next_double:57-60"]}
{"id": "C82", "title": "Two-objective hypervolume contributions computed with doubles are reproducible, zero for redundant points and accurate", "statement": "For two objectives and finite double inputs (no overflow): the computed hypervolume is the same double for every order of the rows and every correct qsort. hv_contributions leaves the points as they were, gives exactly 0 to every point that another row weakly dominates or that is not strictly better than the reference point in both objectives, and for every point either reports a value within 2 ((V + n 2^-1074)(1 + 2^-53)^(n+4) - V) of the exact contribution, or reports 0 for a contribution below 2^-26 plus that error, V being the exact hypervolume. If that error is below 2^-26, as it is when (n + 4)(V + 1) <= 2^24, no contribution is negative and the assertion in the code holds.", "quantifier": "all sets of two-objective points and reference points with double coordinates, all row orders, all correct qsorts, with and without assertions", "why_tests_cant": "cancellation in the difference of two rounded hypervolumes depends on every bit of the data", "anchors": ["c/hv_contrib.c: hv_1point_diffs:15-35, hv_contributions:37-49", "c/hv.c: hv2d:853-879, fpli_hv:1136-1139"]}
{"id": "C83", "title": "ndsort keeps the first front first when its orders are computed with doubles", "statement": "For a first front of at most 2^23 - 4 two-objective points (minimisation) the ordering by hypervolume contribution cannot fail its assertion, no point of the first front gets an order above 2 (the rank of the second front), every order is within 2^-24 of 2 minus the exact contribution of the point to the hypervolume of the normalised front, and rows of the first front that are equal to another one get exactly 2.", "quantifier": "all first fronts of at most 2^23 - 4 points with double coordinates, all correct qsorts, with and without assertions", "why_tests_cant": "the bound must hold for all data after two rounded steps (normalisation, then hypervolume differences that cancel)", "anchors": ["c/ndsort.c: main:236-286", "c/nondominated.h: normalise:340-367", "c/hv_contrib.c: hv_contributions:37-49"]}
{"id": "C84", "title": "The rectangle-weighted hypervolume computed with doubles is accurate", "statement": "For mutually nondominated two-objective points, valid weighted rectangles with weights at most C, and k = number of points times number of rectangles, whv_rect returns a non-negative double that differs from the exact weighted area V by a relative error of at most about (k+4) 2^-53 plus k (1+C) 2^-1074, whenever no point lies exactly at the height of the lowest upper side of the rectangles; in every case it exceeds V by no more than that.", "quantifier": "all mutually nondominated sets, rectangles (also unbounded ones) and reference points with double coordinates, all non-negative double weights, all correct qsorts", "why_tests_cant": "rounding errors accumulate over as many additions as there are pairs of points and rectangles; tests see only a few values", "anchors": ["c/whv.c: rect_weighted_hv2d:74-181", "c/whv.c: whv_preprocess_rectangles:28-72"]}
{"id": "C85", "title": "The three-objective attainment function gives its working trees back exactly once", "statement": "After the output lists are complete, eaf3d gives back every node of the tree of every run exactly once and exactly the two separately allocated sentinel items of each tree, never a part of the caller's data; no memory from which the result is then read has been given back, and the result is still the exact surface of each requested level.", "quantifier": "all non-empty lists of non-empty runs of three-objective points with finite coordinates, all requested levels, all correct sorts, all initial memory contents and all contents left behind by free", "why_tests_cant": "double frees and reads after free depend on the whole history of insertions and removals and often go unnoticed in a test run", "anchors": ["c/eaf3d.c: freetree2:704-722", "c/eaf3d.c: eaf3d:779-844"]}
