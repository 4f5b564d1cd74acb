{
 "claims": [
  {
   "property": "C01",
   "status": "proved",
   "theorems": [
    "C01_is_nondominated_keep_weakly_exact"
   ],
   "note": ""
  },
  {
   "property": "C02",
   "status": "proved",
   "theorems": [
    "C02_is_nondominated_strict_filter",
    "C02_keeps_last_duplicate"
   ],
   "note": ""
  },
  {
   "property": "C03",
   "status": "partial",
   "theorems": [
    "C03_count_correct_partial",
    "C03_count_2d_is_number_removed",
    "C03_count_2d_refuted"
   ],
   "note": "true for d<>2; false for d=2 (the 2-D routines return the number of removed rows): refuted with a witness"
  },
  {
   "property": "C04",
   "status": "partial",
   "theorems": [
    "C04_get_nondominated_set_partial",
    "C04_get_nondominated_set_2d_refuted"
   ],
   "note": "true for d<>2; d=2 refuted (out-of-bounds write) as a consequence of C03"
  },
  {
   "property": "C05",
   "status": "proved",
   "theorems": [
    "C05_find_dominated_point_correct",
    "C05_single_point_refuted"
   ],
   "note": "for all sets of two or more points, as stated; beyond the statement: a one-point set yields 1 instead of -1 (C05_single_point_refuted)"
  },
  {
   "property": "C06",
   "status": "proved",
   "theorems": [
    "C06_pareto_rank_correct",
    "C06_pareto_rank_fronts"
   ],
   "note": ""
  },
  {
   "property": "C07",
   "status": "proved",
   "theorems": [
    "C07_pareto_rank_bounds",
    "C07_empty_2d_refuted"
   ],
   "note": "for a non-empty matrix or d<>2; the empty two-objective matrix is shown to write out of bounds"
  },
  {
   "property": "C08",
   "status": "proved",
   "theorems": [
    "C08_hv2d_exact"
   ],
   "note": ""
  },
  {
   "property": "C09",
   "status": "proved",
   "theorems": [
    "C09_hv3d_exact",
    "C09_hv3d_shift_exact"
   ],
   "note": ""
  },
  {
   "property": "C10",
   "status": "partial",
   "theorems": [
    "C10_hv_exact_stable_partial",
    "C10_hv_shift_exact_stable_partial",
    "C10_hv_exact_no_ties_partial",
    "C10_unstable_sort_refuted",
    "C10_one_objective_refuted"
   ],
   "note": "proved for every stable qsort, and for every qsort without ties in the inner objectives; for an unstable qsort the claim is false (refuted with a 3-row witness)"
  },
  {
   "property": "C11",
   "status": "proved",
   "theorems": [
    "C11_rows_order_and_duplicates",
    "C11_remove_weakly_dominated",
    "C11_remove_outside",
    "C11_filter_dominated"
   ],
   "note": "under the preconditions of C08-C10 (stable qsort for d>=4)"
  },
  {
   "property": "C12",
   "status": "proved",
   "theorems": [
    "C12_adding_points_never_decreases",
    "C12_pareto_compliant",
    "C12_nonnegative_and_zero_iff"
   ],
   "note": "under the preconditions of C08-C10 (stable qsort for d>=4)"
  },
  {
   "property": "C13",
   "status": "proved",
   "theorems": [
    "C13_is_nondominated_maximise_is_negation",
    "C13_hypervolume_maximise",
    "C13_hypervolume_negation",
    "C13_pareto_rank_maximise"
   ],
   "note": ""
  },
  {
   "property": "C14",
   "status": "proved",
   "theorems": [
    "C14_hv_contributions",
    "C14_exact_nonnegative_and_zero_if_covered"
   ],
   "note": "contributions below the tolerance sqrt(DBL_EPSILON) are reported as 0 by the code; the theorem states this"
  },
  {
   "property": "C15",
   "status": "proved",
   "theorems": [
    "C15_additive_epsilon_is_least_shift",
    "C15_nonpositive_iff_weakly_dominates",
    "C15_zero_on_itself",
    "C15_empty_sets"
   ],
   "note": ""
  },
  {
   "property": "C16",
   "status": "proved",
   "theorems": [
    "C16_multiplicative_epsilon_is_least_factor",
    "C16_at_most_one_iff_weakly_dominates",
    "C16_nonpositive_data_is_an_error"
   ],
   "note": "exact rational quotients; rounding of the division is not modelled"
  },
  {
   "property": "C17",
   "status": "proved",
   "theorems": [
    "C17_additive_epsilon_weakly_compliant",
    "C17_multiplicative_epsilon_weakly_compliant"
   ],
   "note": ""
  },
  {
   "property": "C18",
   "status": "proved",
   "theorems": [
    "C18_gd_p_definition",
    "C18_igd_p_definition",
    "C18_gd_igd_definition",
    "C18_zero_iff_included",
    "C18_avg_hausdorff_definition",
    "C18_empty_sets"
   ],
   "note": "over the real numbers; rounding is not modelled"
  },
  {
   "property": "C19",
   "status": "proved",
   "theorems": [
    "C19_igd_plus_definition",
    "C19_igd_plus_weakly_compliant",
    "C19_zero_iff_weakly_dominates",
    "C19_igd_not_compliant"
   ],
   "note": "over the real numbers; rounding is not modelled"
  },
  {
   "property": "C20",
   "status": "proved",
   "theorems": [
    "C20_eaf2d_surfaces_exact",
    "C20_surface_minimal",
    "C20_surface_unique",
    "C20_eaf_matrix_exact"
   ],
   "note": ""
  },
  {
   "property": "C21",
   "status": "proved",
   "theorems": [
    "C21_flags_exact",
    "C21_eafdiff_exact"
   ],
   "note": ""
  },
  {
   "property": "C22",
   "status": "proved",
   "theorems": [
    "C22_levels_nested",
    "C22_eaf2d_nested"
   ],
   "note": ""
  },
  {
   "property": "C23",
   "status": "proved",
   "theorems": [
    "C23_level_in_range",
    "C23_level_robust",
    "C23_roundtrip",
    "C23_all_percentiles",
    "C23_monotone",
    "C23_double_level_in_range",
    "C23_double_monotone",
    "C23_double_integer_percentile",
    "C23_double_median",
    "C23_double_roundtrip",
    "C23_double_all_percentiles"
   ],
   "note": "in exact arithmetic and in IEEE doubles (Flocq); round trips for up to 2^25 (2^24) sets"
  },
  {
   "property": "C24",
   "status": "proved",
   "theorems": [
    "C24_rectangles_exact",
    "C24_outside_zero",
    "C24_python_rectangles",
    "C24_odd_aborts",
    "C24_unequal_refuted"
   ],
   "note": "for the same number of sets on both sides; the refuted theorem shows that this is needed"
  },
  {
   "property": "C25",
   "status": "partial",
   "theorems": [
    "C25_value_exactly",
    "C25_weighted_area_partial",
    "C25_never_overestimates",
    "C25_early_exit_refuted",
    "C25_duplicate_point_refuted",
    "C25_dominated_point_refuted"
   ],
   "note": "exact unless a data point lies at the height of the lowest upper side; C25_value_exactly characterises the result in all cases; the refuted theorems show where the claim is false"
  },
  {
   "property": "C26",
   "status": "proved",
   "theorems": [
    "C26_counts_dominated_samples",
    "C26_bounds",
    "C26_monotone",
    "C26_dominated_points_irrelevant",
    "C26_uniform_every_seed",
    "C26_goal_centre_minimise",
    "C26_goal_centre_maximise_refuted",
    "C26_second_estimate_refuted"
   ],
   "note": "over the rational numbers; uniform sampler included for every seed; the normal and exponential samplers are not modelled (the counting theorem holds for any samples). The refuted theorems record that the goal of dist=point is wrong with maximised objectives and that a distribution object cannot be reused"
  },
  {
   "property": "C27",
   "status": "proved",
   "theorems": [
    "C27_outputs_follow_recurrence",
    "C27_wide_draws",
    "C27_sequence_exists_unique",
    "C27_every_history_in_range",
    "C27_array_history_in_range",
    "C27_never_all_zero",
    "C27_never_all_zero_array",
    "C27_empty_key_array_refuted",
    "C27_next64_order_refuted"
   ],
   "note": "checked against the published reference outputs; an empty key array is read out of bounds, and the value of next64 depends on the evaluation order chosen by the compiler"
  },
  {
   "property": "C28",
   "status": "proved",
   "theorems": [
    "C28_set_get",
    "C28_allocation_covers",
    "C28_rows_disjoint",
    "C28_copy",
    "C28_zero_all"
   ],
   "note": ""
  },
  {
   "property": "C29",
   "status": "proved",
   "theorems": [
    "C29_behaves_as_list",
    "C29_capacity_bound",
    "C29_reserve_no_reallocation",
    "C29_empty_is_caught",
    "C29_at_end_refuted"
   ],
   "note": "the refuted theorem records that the position check of at/set is off by one"
  },
  {
   "property": "C32",
   "status": "proved",
   "theorems": [
    "C32_affine",
    "C32_bounds_to_ends",
    "C32_stays_in_range",
    "C32_order",
    "C32_zero_range",
    "C32_default_bounds",
    "C32_given_bounds"
   ],
   "note": "over the rational numbers; rounding is not modelled"
  },
  {
   "property": "C33",
   "status": "proved",
   "theorems": [
    "C33_dominance_preserved",
    "C33_agree_objectives",
    "C33_inverted_bounds_refuted"
   ],
   "note": "over the rational numbers"
  },
  {
   "property": "C34",
   "status": "proved",
   "theorems": [
    "C34_set_comparison_exact",
    "C34_better_iff_covers_and_differs",
    "C34_antisymmetric",
    "C34_win_counters",
    "C34_duplicate_rows_refuted",
    "C34_dominated_rows_refuted",
    "C34_empty_set_refuted"
   ],
   "note": "the refuted theorems show that the stated precondition (non-empty nondominated sets) is needed"
  },
  {
   "property": "C35",
   "status": "proved",
   "theorems": [
    "C35_force_bounds",
    "C35_result_unique",
    "C35_set_may_become_empty"
   ],
   "note": ""
  },
  {
   "property": "C36",
   "status": "proved",
   "theorems": [
    "C36_each_operation",
    "C36_every_history",
    "C36_depth_logarithmic",
    "C36_walks"
   ],
   "note": "for fewer than 2^120 nodes, so that depths fit the unsigned char field"
  },
  {
   "property": "C37",
   "status": "proved",
   "theorems": [
    "C37_search_closest",
    "C37_equality_reported_iff",
    "C37_insert_sorted"
   ],
   "note": ""
  },
  {
   "property": "C41",
   "status": "proved",
   "theorems": [
    "C41_run_of_point",
    "C41_empty_run_refuted"
   ],
   "note": "the refuted theorem shows the second half of the statement: an empty run breaks the association"
  },
  {
   "property": "C44",
   "status": "proved",
   "theorems": [
    "C44_symmetric_difference"
   ],
   "note": ""
  },
  {
   "property": "C45",
   "status": "partial",
   "theorems": [
    "C45_check_nondominated_partial",
    "C45_check_nondominated_2d_refuted"
   ],
   "note": "d<>2 proved; d=2 refuted"
  },
  {
   "property": "C46",
   "status": "partial",
   "theorems": [
    "C46_agree_same_verdict_partial",
    "C46_agree_minimise_2d_refuted",
    "C46_agree_maximise_2d_refuted",
    "C46_agree_ignored_refuted"
   ],
   "note": "proved for a number of objectives other than two and no ignored objective; refuted for two objectives and for ignored objectives"
  },
  {
   "property": "C47",
   "status": "proved",
   "theorems": [
    "C47_hypervolume_with_pointer_tree"
   ],
   "note": "stable qsort for d>=4, as for C10"
  },
  {
   "property": "C38",
   "status": "proved",
   "theorems": [
    "C38_row_results_aligned",
    "C38_one_result_per_set",
    "C38_wrong_length_raises",
    "C38_nondominated_within_sets",
    "C38_nondominated_within_sets_strict",
    "C38_unique_nosort",
    "C38_short_sets_refuted"
   ],
   "note": "the refuted theorem records that a too short vector of labels is not rejected"
  },
  {
   "property": "C39",
   "status": "partial",
   "theorems": [
    "C39_percentiles_unique",
    "C39_eaf_sorted_labels_partial",
    "C39_eaf_all_levels",
    "C39_eaf_unsorted_labels_refuted",
    "C39_eafdiff_exact"
   ],
   "note": "eaf(): exact if the rows are sorted by label, refuted otherwise; eafdiff(): exact"
  },
  {
   "property": "C40",
   "status": "proved",
   "theorems": [
    "C40_vorobT_terminates",
    "C40_vorobT_terminates_gen",
    "C40_double_midpoint"
   ],
   "note": "the threshold is an IEEE double (Flocq), volumes and means are exact"
  },
  {
   "property": "C48",
   "status": "partial",
   "theorems": [
    "C48_mean_hypervolume",
    "C48_vorobT_partial",
    "C48_vorobT_double_partial",
    "C48_early_stop_refuted"
   ],
   "note": "the returned surface and the mean are exact for sorted labels; the refuted theorem shows that the loop may stop before the crossing is reached"
  },
  {
   "property": "C49",
   "status": "proved",
   "theorems": [
    "C49_vorobDev_exact"
   ],
   "note": ""
  },
  {
   "property": "C30",
   "status": "proved",
   "theorems": [
    "C30_roundtrip",
    "C30_filtered_roundtrip",
    "C30_decimal_roundtrip",
    "C30_double_exact",
    "C30_double_roundtrip",
    "C30_double_stable",
    "C30_all_doubles_refuted"
   ],
   "note": "printf and scanf are modelled for decimal numerals and IEEE doubles (Flocq; overflow and the sign of zero are not modelled); C30_roundtrip holds for any scanner and printer that agree. The refuted theorem shows that 15 digits do not restore every double"
  },
  {
   "property": "C31",
   "status": "proved",
   "theorems": [
    "C31_memory_safe",
    "C31_accepts",
    "C31_accepted_iff",
    "C31_every_text",
    "C31_empty_file",
    "C31_conversion_error",
    "C31_column_error",
    "C31_sets_are_rectangular",
    "C31_set_numbers",
    "C31_missing_separator_refuted",
    "C31_form_feed_refuted",
    "C31_indented_comment_refuted",
    "C31_initial_dim_refuted"
   ],
   "note": "memory safety for every text; the accepted language for texts without form feeds and vertical tabs. The refuted theorems record numbers without separator, lines joined by a form feed, indented comments, and the error code for a file of another width"
  },
  {
   "property": "C42",
   "status": "proved",
   "theorems": [
    "C42_eaf3d_surfaces_exact",
    "C42_surface_unique",
    "C42_surface_coordinates",
    "C42_levels_nested",
    "C42_eaf_matrix_3d",
    "C42_infinite_value_refuted"
   ],
   "note": "c/eaf3d.c modelled with the trees as ordered node lists ; the attaining runs are C56. Coordinates must be finite: with the sentinel value the refuted theorem applies."
  },
  {
   "property": "C43",
   "status": "partial",
   "theorems": [
    "C43_ndsort_exact",
    "C43_scaled_is_normalised",
    "C43_contribution_unique",
    "C43_fronts_in_order",
    "C43_first_front_by_contribution",
    "C43_uev_exact",
    "C43_second_front_refuted",
    "C43_directions_ignored",
    "C43_maximise_refuted"
   ],
   "note": "ranks and the first front exact for minimisation; the refuted theorems show that later fronts are not ordered by contribution and that --obj has no effect. Exact arithmetic; the rounding of the printed %g is not modelled"
  },
  {
   "property": "C50",
   "status": "proved",
   "theorems": [
    "C50_directions",
    "C50_bitvector",
    "C50_later_option_refuted"
   ],
   "note": "each option by itself; the refuted theorem shows that a later --log with more characters makes the direction array too short"
  },
  {
   "property": "C51",
   "status": "partial",
   "theorems": [
    "C51_ignored_weak_partial",
    "C51_ignored_strict_partial",
    "C51_ignored_2d_refuted"
   ],
   "note": "proved for a number of objectives other than two; refuted for two"
  },
  {
   "property": "C52",
   "status": "proved",
   "theorems": [
    "C52_additive_correctly_rounded",
    "C52_additive_sign_exact",
    "C52_additive_compliant",
    "C52_multiplicative_correctly_rounded",
    "C52_multiplicative_one_exact",
    "C52_multiplicative_refused"
   ],
   "note": "IEEE binary64 through Flocq; overflow to infinity is not modelled"
  },
  {
   "property": "C53",
   "status": "proved",
   "theorems": [
    "C53_hv2d_accuracy"
   ],
   "note": "IEEE binary64 through Flocq; overflow to infinity is not modelled"
  },
  {
   "property": "C54",
   "status": "partial",
   "theorems": [
    "C54_weak_dominance_preserved",
    "C54_ideal_to_lower_end",
    "C54_unit_range",
    "C54_upper_end_exceeded_refuted",
    "C54_strictness_lost_refuted"
   ],
   "note": "the statements about the upper end hold for ranges of length one and are refuted for other ranges; strict dominance can become equality"
  },
  {
   "property": "C55",
   "status": "partial",
   "theorems": [
    "C55_dominated_points_ignored",
    "C55_weakly_pareto_compliant",
    "C55_defined_iff",
    "C55_zero_without_contribution_refuted",
    "C55_maximise_is_negation",
    "C55_sample_is_ray_length",
    "C55_estimate_is_average",
    "C55_unbiased_from_boxes",
    "C55_unbiased_2d",
    "C55_unbiased",
    "C55_mean_of_result"
   ],
   "note": "dominated points, compliance, maximisation and definedness for IEEE doubles (and exact arithmetic); the mean of the estimate is the hypervolume for any number of objectives and samples (C55_unbiased, C55_mean_of_result; exact arithmetic, direction uniform on the sphere, in spherical coordinates). False part: without a point that strictly dominates ref an exception is raised (C55_zero_without_contribution_refuted)"
  },
  {
   "property": "C56",
   "status": "proved",
   "theorems": [
    "C56_flags_exact",
    "C56_stored_bits_exact"
   ],
   "note": "the promoter, remover and equal links are part of the model; the runs reached from a node are shown to be those that attain it"
  },
  {
   "property": "C57",
   "status": "proved",
   "theorems": [
    "C57_output_2d",
    "C57_output_3d",
    "C57_other_dimensions",
    "C57_single_set_refuted",
    "C57_empty_input_refuted"
   ],
   "note": "formatting of numbers not modelled (tokens); --polygons not modelled; with a single set the output is wrong (refuted), with an empty input the program reads out of bounds (refuted)"
  },
  {
   "property": "C58",
   "status": "proved",
   "theorems": [
    "C58_level_lists",
    "C58_level_lists_only",
    "C58_levels",
    "C58_streams",
    "C58_fifty_levels_refuted",
    "C58_large_level_refuted",
    "C58_nan_refuted",
    "C58_same_file_refuted"
   ],
   "note": "outside the stated limits the claims fail: 50 levels overflow the array, larger integers wrap around, nan is accepted, and an explicit file name equal to that of --output loses the column"
  },
  {
   "property": "C59",
   "status": "proved",
   "theorems": [
    "C59_pointer_eaf3d_exact",
    "C59_pointers_refine_sequences",
    "C59_insert_keeps_other_trees",
    "C59_unlink_keeps_other_trees"
   ],
   "note": "the final deallocation (freetrees, freeremoved) is not modelled; addresses are distinct numbers, never reused"
  },
  {
   "property": "C60",
   "status": "proved",
   "theorems": [
    "C60_polygons_exact",
    "C60_R_sides",
    "C60_odd_aborts",
    "C60_selected_levels_refuted"
   ],
   "note": "for all levels; eaf --polygons with selected non-consecutive levels is refuted, odd numbers of sets abort"
  },
  {
   "property": "C61",
   "status": "proved",
   "theorems": [
    "C61_volumes",
    "C61_volumes_stdin",
    "C61_stops_at_zero",
    "C61_reference_refused",
    "C61_file_refused_early",
    "C61_file_refused",
    "C61_output_refused",
    "C61_equal_coordinate_fails",
    "C61_single_point_refuted",
    "C61_dash_refuted"
   ],
   "note": "dimension above 3 with a stable sort (see C10); the usage text is refuted for FILE - and the default reference point fails for a single point"
  },
  {
   "property": "C62",
   "status": "proved",
   "theorems": [
    "C62_epsilon",
    "C62_epsilon_stdin",
    "C62_epsilon_stops",
    "C62_epsilon_nonpositive",
    "C62_igd",
    "C62_igd_stdin",
    "C62_option_refused",
    "C62_no_reference",
    "C62_file_refused",
    "C62_output_refused",
    "C62_several_reference_sets_abort",
    "C62_reference_columns_refuted",
    "C62_reference_overrun_refuted",
    "C62_ignored_objective_refuted"
   ],
   "note": "--obj with as many directions as there are columns, none ignored; refuted: --reference followed by an --obj of another length is not noticed (wrong rows or a read after the end), a reference file with several sets aborts, ignored objectives make the additive indicator non-negative"
  },
  {
   "property": "C63",
   "status": "proved",
   "theorems": [
    "C63_files",
    "C63_two_objectives",
    "C63_stdin",
    "C63_plain",
    "C63_option_refused",
    "C63_bounds_crossed",
    "C63_out_of_bounds",
    "C63_file_refused",
    "C63_output_refused",
    "C63_file_refused_early",
    "C63_clean_file_refuted",
    "C63_agree_min_refuted",
    "C63_agree_max_refuted",
    "C63_bound_lengths_refuted"
   ],
   "note": "no objective ignored; C63_plain gives the case without --normalise and --log, C73 the case with them; with two objectives the exit status is 1 for every set of two or more points (refuted, C63_two_objectives gives the exact condition), --agree aborts or inverts dominance; bounds of different lengths are accepted (refuted)"
  },
  {
   "property": "C64",
   "status": "partial",
   "theorems": [
    "C64_table",
    "C64_check",
    "C64_option_refused",
    "C64_too_few_files",
    "C64_file_refused",
    "C64_no_overflow_refuted",
    "C64_single_point_refuted",
    "C64_no_check_refuted"
   ],
   "note": "no objective ignored. False in general: strncpy (p, buffer, 32) overflows the block of strlen (buffer) + 1 bytes with every allocator whose block has fewer than 32 bytes (C64_no_overflow_refuted, for all inputs), so C64_table and C64_check assume blocks of at least 32 bytes; a set with one point is refused although it is nondominated (C64_single_point_refuted; C64_check gives the exact condition); with --no-check duplicated points end in abort (C64_no_check_refuted)"
  },
  {
   "property": "C65",
   "status": "partial",
   "theorems": [
    "C65_rank",
    "C65_order",
    "C65_option_refused",
    "C65_several_files",
    "C65_file_refused",
    "C65_objectives_ignored",
    "C65_maximise_refuted"
   ],
   "note": "proved for all inputs, except that the directions of --obj are ignored (C65_objectives_ignored, C65_maximise_refuted): all objectives are minimised"
  },
  {
   "property": "C66",
   "status": "partial",
   "theorems": [
    "C66_hypervolume",
    "C66_contributions",
    "C66_is_nondominated_weakly",
    "C66_is_nondominated",
    "C66_filter_dominated",
    "C66_pareto_rank",
    "C66_epsilon_additive",
    "C66_epsilon_mult",
    "C66_epsilon_mult_refused",
    "C66_igd",
    "C66_igd_plus",
    "C66_avg_hausdorff_dist",
    "C66_too_small",
    "C66_reference_length",
    "C66_columns_differ",
    "C66_maximise_length",
    "C66_short_reference_refuted"
   ],
   "note": "proved except that a reference point with too few values is not refused when the directions differ and the missing objective is maximised (C66_short_reference_refuted)"
  },
  {
   "property": "C67",
   "status": "partial",
   "theorems": [
    "C67_eaf",
    "C67_eaf_groups",
    "C67_eafdiff",
    "C67_eaf_too_small",
    "C67_eaf_objectives",
    "C67_maximise_length",
    "C67_eafdiff_columns",
    "C67_eafdiff_one_point_refuted",
    "C67_eafdiff_unequal_refuted"
   ],
   "note": "eaf proved in full; eafdiff proved when both arguments have the same number of sets and more than one point is left: one point gives a vector, or an error with maximise (C67_eafdiff, C67_eafdiff_one_point_refuted), and with different numbers of sets the values are wrong (C67_eafdiff_unequal_refuted)"
  },
  {
   "property": "C68",
   "status": "partial",
   "theorems": [
    "C68_vorobT",
    "C68_vorobT_one_point",
    "C68_vorobDev",
    "C68_vorobDev_default",
    "C68_refused",
    "C68_one_point_refuted",
    "C68_scalar_reference_refuted",
    "C68_early_stop_refuted"
   ],
   "note": "vorobDev proved in full; vorobT fails when it meets a surface with a single point (C68_vorobT_one_point, C68_one_point_refuted), uses a wrong reference point when one value is given and the directions differ (C68_scalar_reference_refuted), and may stop before the Vorob'ev threshold is reached (C68_early_stop_refuted)"
  },
  {
   "property": "C69",
   "status": "partial",
   "theorems": [
    "C69_read",
    "C69_read_names",
    "C69_read_text",
    "C69_read_refused",
    "C69_write_read",
    "C69_write_empty",
    "C69_rbind",
    "C69_rbind_unique",
    "C69_rbind_refused",
    "C69_rbind_files",
    "C69_empty_file_refuted",
    "C69_column_name_refuted"
   ],
   "note": "false for files without data: memory outside of an array is read instead of an error (C69_empty_file_refuted); names of columns that contain a newline are read back as data (C69_column_name_refuted), otherwise proved in full. The text of numbers is a parameter that must be a numeral; files with vertical tabs or form feeds are excluded (see C31)."
  },
  {
   "property": "C70",
   "status": "partial",
   "theorems": [
    "C70_normalise",
    "C70_normalise_range",
    "C70_normalise_dominance",
    "C70_normalise_refused",
    "C70_whv_rect",
    "C70_whv_rect_refused",
    "C70_total_whv_rect",
    "C70_total_refused",
    "C70_py_whv_rect",
    "C70_py_total_whv_rect",
    "C70_py_maximise_list_refuted",
    "C70_py_refused",
    "C70_whv_hype",
    "C70_whv_hype_uniform",
    "C70_whv_hype_mu_refuted",
    "C70_whv_hype_refused",
    "C70_whv_hype_goal",
    "C70_whv_hype_goal_refuted"
   ],
   "note": "normalise and the refusals are proved in full. The weighted area is exact unless a row is exactly at the height of the lowest upper side (C25_early_exit_refuted) and never too large. False parts: Python refuses a list of flags even if all are False (C70_py_maximise_list_refuted); with dist = 'point' one number in mu makes C read after the array (C70_whv_hype_mu_refuted) and the goal of a maximised objective is misplaced (C70_whv_hype_goal_refuted)."
  },
  {
   "property": "C71",
   "status": "partial",
   "theorems": [
    "C71_eafdiff",
    "C71_eafdiff_columns",
    "C71_eafdiff_odd",
    "C71_choose",
    "C71_choose_vector",
    "C71_largest",
    "C71_largest_few",
    "C71_largest_corner",
    "C71_largest_maximise",
    "C71_one_rectangle_refuted",
    "C71_maximise_columns_refuted",
    "C71_unequal_refuted"
   ],
   "note": "False parts: if there is only one rectangle eafdiff returns a vector (or, with maximise, fails) and choose_eafdiff and largest_eafdiff fail (C71_one_rectangle_refuted, C71_choose_vector); for a maximised objective the columns xmin and xmax are exchanged (C71_maximise_columns_refuted); largest_eafdiff fails whenever an objective is maximised (C71_largest_maximise); with different numbers of sets the value is not the difference of the fractions (C71_unequal_refuted). Everything else is proved for data sets with the same number of sets."
  },
  {
   "property": "C72",
   "status": "partial",
   "theorems": [
    "C72_hypervolume",
    "C72_object",
    "C72_pareto_rank",
    "C72_is_nondominated_weakly",
    "C72_is_nondominated",
    "C72_filter_dominated",
    "C72_filter_within_sets_weakly",
    "C72_filter_within_sets",
    "C72_epsilon_additive",
    "C72_epsilon_mult",
    "C72_igd",
    "C72_igd_plus",
    "C72_avg_hausdorff",
    "C72_parameter_cut_off",
    "C72_parameter_not_positive",
    "C72_columns_differ",
    "C72_lengths",
    "C72_whv_rect",
    "C72_filter_dominated_lists_refuted",
    "C72_small_parameter_refuted",
    "C72_shared_is_negated_refuted",
    "C72_shared_twice_refuted",
    "C72_whv_rect_sorts_refuted"
   ],
   "note": "False parts: an object of another class that shares its floats (a pandas data frame, a numpy matrix) is negated in place when an objective is maximised, so that the same call gives another value the second time (C72_shared_is_negated_refuted, C72_shared_twice_refuted); whv_rect sorts the caller's array in place (C72_whv_rect_sorts_refuted); filter_dominated fails on a list of lists (C72_filter_dominated_lists_refuted); avg_hausdorff_dist cuts off the fraction of p and returns 1 for every data set if 0 < p < 1 (C72_parameter_cut_off, C72_small_parameter_refuted). Everything else is proved."
  },
  {
   "property": "C73",
   "status": "proved",
   "theorems": [
    "C73_run",
    "C73_values",
    "C73_selection",
    "C63_files",
    "C63_stdin",
    "C63_option_refused",
    "C73_log_length_refuted",
    "C73_rounded_refuted"
   ],
   "note": "exact arithmetic: the quotients are whole numbers of units (for rational data there is such a unit), and the logarithms are of positive numbers; with rounding, distinct points can be merged and a nondominated point be removed (C73_rounded_refuted); a --log vector that is empty, or followed by an option for another number of objectives, is read beyond its end (C73_log_length_refuted)"
  },
  {
   "property": "C74",
   "status": "proved",
   "theorems": [
    "C74_reference",
    "C74_maximum",
    "C74_refused",
    "C74_one_column_refuted",
    "C74_no_rows_refuted",
    "C74_not_doubles_refuted",
    "C74_sparse_refuted"
   ],
   "note": "as stated; beyond the statement the function does not check its arguments: a matrix with one column violates an assumption of fpli_hv, no rows and no reference, elements of another numeric type and sparse matrices are read out of bounds (the refuted theorems)"
  },
  {
   "property": "C75",
   "status": "proved",
   "theorems": [
    "C75_output",
    "C75_self_check",
    "C75_readable",
    "C75_selected_levels_refuted",
    "C75_decreasing_levels_refuted",
    "C75_odd_refuted"
   ],
   "note": "as stated; the refuted theorems show that other requests (levels that are not consecutive, decreasing levels, an odd number of sets) give overlapping polygons or violate assertions; builds without assertions are covered only where no assertion fails"
  },
  {
   "property": "C76",
   "status": "proved",
   "theorems": [
    "C76_point_on_diagonal",
    "C76_point_weight_refuted",
    "C76_exponential",
    "C76_exponential_weight",
    "C76_beyond_reference_refuted"
   ],
   "note": "real arithmetic (rounding not modelled); log is only applied to positive numbers, as the assertions of debug builds require; the refuted theorems show that the weight of dist='point' is not a two-dimensional normal weight and that samples beyond the reference point count"
  },
  {
   "property": "C77",
   "status": "proved",
   "theorems": [
    "C77_same_program",
    "C77_returns",
    "C77_distribution",
    "C77_cdf",
    "C77_point_weight"
   ],
   "note": "real arithmetic (rounding of the products, log and exp is not modelled); the draws are taken as equally likely and independent, which is the idealisation of the generator; C77_same_program shows that the same tree answered by mt19937 is the model of the C function"
  },
  {
   "property": "C78",
   "status": "proved",
   "theorems": [
    "C78_equidistribution",
    "C78_exactly_two",
    "C78_doubles_equidistribution",
    "C78_low_bits_unused",
    "C78_purely_periodic"
   ],
   "note": "the full length 2^19937 - 1 of the period is not claimed: it needs the primitivity of a polynomial of degree 19937; that the 2^32 states reachable from a seed are spread evenly is not claimed either"
  },
  {
   "property": "C79",
   "status": "proved",
   "theorems": [
    "C79_same_program",
    "C79_mean",
    "C79_unbiased"
   ],
   "note": "rational arithmetic; the mean is over the states of the generator, not over the 2^32 states that seeds give; no bound on the variance is claimed"
  },
  {
   "property": "C80",
   "status": "proved",
   "theorems": [
    "C80_igd_plus_weakly_compliant",
    "C80_exact_zero",
    "C80_accuracy",
    "C80_error_bound",
    "C80_zero_sufficient_refuted",
    "C80_finite_refuted"
   ],
   "note": "p = 1 only (powl is not correctly rounded); no fused multiply-add; the refuted theorems show that a result of 0 does not mean that the reference set is reached (squares underflow) and that the result may overflow although the exact distance is a double"
  },
  {
   "property": "C81",
   "status": "proved",
   "theorems": [
    "C81_variance",
    "C81_variance_bound",
    "C81_deviation",
    "C81_hypervolume"
   ],
   "note": "rational arithmetic; over the states of the generator, not over the 2^32 states that seeds give; for more than 155 samples the bound does not improve with the number of samples, because samples further apart are not shown to be uncorrelated"
  },
  {
   "property": "C82",
   "status": "proved",
   "theorems": [
    "C82_hv_order_independent",
    "C82_redundant_zero",
    "C82_accuracy",
    "C82_nonnegative",
    "C82_nonnegative_small",
    "C82_nonnegative_refuted",
    "C82_hv_monotone_refuted",
    "C82_positive_refuted"
   ],
   "note": "two objectives; overflow to infinity and fused multiply-add are not modelled; the refuted theorems show that for large hypervolumes a point with exact contribution 1 is given -4 (or the assertion aborts the program), that adding a point can lower the computed hypervolume, and that a point with hypervolume 2^-28 is said to contribute nothing"
  },
  {
   "property": "C83",
   "status": "proved",
   "theorems": [
    "C83_first_front_first",
    "C83_order_accuracy",
    "C83_duplicates_last"
   ],
   "note": "two objectives, all minimised; overflow to infinity and fused multiply-add are not modelled; the upper bound of the range, 0.9, is the double nearest to it"
  },
  {
   "property": "C84",
   "status": "proved",
   "theorems": [
    "C84_whv_accuracy",
    "C84_never_overestimates",
    "C84_monotone_refuted"
   ],
   "note": "overflow to infinity and fused multiply-add are not modelled; the refuted theorem shows that adding a nondominated point can lower the computed value; the condition on the heights is the defect of C25 (scan ends too early), refuted there"
  },
  {
   "property": "C85",
   "status": "proved",
   "theorems": [
    "C85_sets_given_back_once"
   ],
   "note": "the headers of the trees, the arrays of trees and the sorted list, each given back once and not used afterwards, are not modelled; the output lists are never given back (finding)"
  }
 ]
}