{
 "claims": [
  {
   "property": "C01",
   "status": "proved",
   "theorems": [
    "C01_operator_text_roundtrip",
    "C01_evaluate_is_the_relation",
    "C01_evaluate_mixed_kinds",
    "C01_operator_order"
   ],
   "note": "All operators, all values (str/int/decimal float)."
  },
  {
   "property": "C02",
   "status": "proved",
   "theorems": [
    "C02_pool_fields_refuted",
    "C02_pool_fields_no_space",
    "C02_pool_identity_no_space",
    "C02_fields_exact",
    "C02_errors_exact",
    "C02_identity_exact"
   ],
   "note": "C02_fields_exact is the equivalence for every set of requests; C02_errors_exact and C02_identity_exact the errors and the identity. The _partial theorems (attribute names without spaces) are the special case used elsewhere; C02_pool_fields_refuted shows a set of requests for which it fails."
  },
  {
   "property": "C03",
   "status": "proved",
   "theorems": [
    "C03_selector_roundtrip_refuted",
    "C03_selector_roundtrip_no_space",
    "C03_roundtrip_exact"
   ],
   "note": "C03_roundtrip_exact; C03_selector_roundtrip_no_space is its direct half."
  },
  {
   "property": "C04",
   "status": "proved",
   "theorems": [
    "C04_not_equal",
    "C04_order_total_refuted",
    "C04_order_total_same_kind",
    "C04_equality_is_equivalence",
    "C04_pair_exact",
    "C04_set_ordered"
   ],
   "note": "C04_pair_exact for all pairs; C04_order_total_same_kind and C04_set_ordered under the explicit same-kind condition of the statement; the refuted theorem is the cycle."
  },
  {
   "property": "C05",
   "status": "proved",
   "theorems": [
    "C05_hash_contract_refuted",
    "C05_hash_contract_same_type",
    "C05_hash_exact"
   ],
   "note": "C05_hash_exact is the equivalence; C05_hash_contract_same_type its direct half for every hash."
  },
  {
   "property": "C06",
   "status": "proved",
   "theorems": [
    "C06_get_selector",
    "C06_remove_by_index",
    "C06_pattern_history_same_kind",
    "C06_pattern_history_refuted",
    "C06_history_exact"
   ],
   "note": "C06_history_exact is the equivalence; C06_pattern_history_same_kind the same-kind special case used elsewhere. list.sort is modelled as insertion sort, which agrees with timsort on strict total orders; the converse only uses add_selector."
  },
  {
   "property": "C07",
   "status": "proved",
   "theorems": [
    "C07_equal_or_not",
    "C07_pattern_equality_same_kind",
    "C07_add_remove_same_kind",
    "C07_pattern_equality_refuted",
    "C07_equality_exact",
    "C07_inequality",
    "C07_add_remove_exact"
   ],
   "note": "C07_equality_exact is the equivalence; C07_add_remove_exact and C07_inequality the rest. The converse sorts lists of at most three selectors."
  },
  {
   "property": "C08",
   "status": "proved",
   "theorems": [
    "C08_pattern_roundtrip_refuted",
    "C08_pattern_roundtrip_clean",
    "C08_roundtrip_exact"
   ],
   "note": "C08_roundtrip_exact; C08_pattern_roundtrip_clean is its direct half."
  },
  {
   "property": "C09",
   "status": "proved",
   "theorems": [
    "C09_subgroup_equal_or_not",
    "C09_subgroup_roundtrip_refuted",
    "C09_subgroup_roundtrip_clean",
    "C09_roundtrip_exact"
   ],
   "note": "C09_roundtrip_exact; C09_subgroup_roundtrip_clean is its direct half."
  },
  {
   "property": "C10",
   "status": "proved",
   "theorems": [
    "C10_match_scalar",
    "C10_match_relation",
    "C10_contained_is_match",
    "C10_match_series",
    "C10_is_contained_rowwise",
    "C10_is_contained_defined",
    "C10_missing_column_refuted",
    "C10_missing_column_reached",
    "C10_errors_exact"
   ],
   "note": "C10_is_contained_rowwise, C10_is_contained_defined and C10_errors_exact."
  },
  {
   "property": "C11",
   "status": "proved",
   "theorems": [
    "C11_filter_rows",
    "C11_empty_loses_columns",
    "C11_filter_order_irrelevant"
   ],
   "note": "C11_empty_loses_columns: the exception for DataFrames without rows. Row labels: C76."
  },
  {
   "property": "C12",
   "status": "proved",
   "theorems": [
    "C12_refinement_is_inclusion_typed",
    "C12_refinement_transitive",
    "C12_subgroup_refinement_typed",
    "C12_refinement_refuted",
    "C12_refinement_shrinks_coverage",
    "C12_refinement_shrinks_tp_fp",
    "C12_refinement_exact",
    "C12_inclusion_exact"
   ],
   "note": "C12_refinement_exact and C12_inclusion_exact; transitivity and coverage theorems; the subgroup theorem for type-consistent values."
  },
  {
   "property": "C13",
   "status": "proved",
   "theorems": [
    "C13_subgroup_filter_partition",
    "C13_target_in_description_reached",
    "C13_keyerror_exact"
   ],
   "note": "C13_subgroup_filter_partition and C13_keyerror_exact."
  },
  {
   "property": "C14",
   "status": "proved",
   "theorems": [
    "C14_ranges"
   ],
   "note": "Exact rational arithmetic."
  },
  {
   "property": "C15",
   "status": "proved",
   "theorems": [
    "C15_missing_parameter",
    "C15_missing_g",
    "C15_value_or_zero_division",
    "C15_other_keys_irrelevant",
    "C15_binomial_value",
    "C15_binomial_error"
   ],
   "note": "Exact rational/real arithmetic; the binomial test is covered over the reals."
  },
  {
   "property": "C16",
   "status": "proved",
   "theorems": [
    "C16_ps_is_scaled_wracc",
    "C16_absolute_wracc",
    "C16_f1_harmonic_mean",
    "C16_youden",
    "C16_irr",
    "C16_coverage_ppv_support",
    "C16_wracc_youden"
   ],
   "note": "Exact rational arithmetic."
  },
  {
   "property": "C17",
   "status": "proved",
   "theorems": [
    "C17_ps_estimates_bound"
   ],
   "note": "Exact rational arithmetic."
  },
  {
   "property": "C18",
   "status": "proved",
   "theorems": [
    "C18_wracc_estimate_bounds"
   ],
   "note": "For integer counts (needed: with fractional tp the bound fails)."
  },
  {
   "property": "C19",
   "status": "proved",
   "theorems": [
    "C19_binomial_estimate_refuted",
    "C19_pure_refuted",
    "C19_binomial_estimate_up_to_factor"
   ],
   "note": "The estimate up to the two normalising factors; the promise of the class is refuted, on a table and on every pure subgroup."
  },
  {
   "property": "C20",
   "status": "proved",
   "theorems": [
    "C20_ps_estimates_antimonotone",
    "C20_binomial_antimonotone",
    "C20_wracc_estimate_refuted",
    "C20_wracc_exact",
    "C20_wracc_same_fp"
   ],
   "note": "Piatetsky-Shapiro and binomial estimates antimonotone; exact condition for WRAccOptimisticEstimate1, whose antimonotonicity is refuted."
  },
  {
   "property": "C21",
   "status": "proved",
   "theorems": [
    "C21_vertical_list_exact_sets",
    "C21_vertical_list_exact_bitsets",
    "C21_compute_quality",
    "C21_join_none",
    "C21_join_size_error",
    "C21_undisciplined_join_refuted"
   ],
   "note": "Any measure, any dataset, both representations; the unguarded join is shown to misdescribe its rows."
  },
  {
   "property": "C22",
   "status": "proved",
   "theorems": [
    "C22_representations_interchangeable"
   ],
   "note": "For row ids below the dataset size (the constructor of the bitset version raises IndexError otherwise)."
  },
  {
   "property": "C23",
   "status": "proved",
   "theorems": [
    "C23_get_by_index",
    "C23_partition",
    "C23_first_covering_subgroup",
    "C23_counts_add_up"
   ],
   "note": ""
  },
  {
   "property": "C24",
   "status": "proved",
   "theorems": [
    "C24_delete_undoes_add",
    "C24_delete_on_empty",
    "C24_delete_never_fails",
    "C24_rejected_addition"
   ],
   "note": "Bitarrays returned by the getters are assumed not to be mutated by the client."
  },
  {
   "property": "C25",
   "status": "proved",
   "theorems": [
    "C25_header_totals",
    "C25_node_links",
    "C25_node_counters"
   ],
   "note": "For categorical datasets without quote characters in the column names: header totals, node links, node counters by path; the tree contains each path of a row exactly once."
  },
  {
   "property": "C26",
   "status": "proved",
   "theorems": [
    "C26_conditional_header",
    "C26_conditional_counts",
    "C26_conditional_complete"
   ],
   "note": "Any sequence of conditionings; header entries and counts of any set of header selectors; completeness: each frequent description is met. Same dataset hypotheses as C25."
  },
  {
   "property": "C27",
   "status": "proved",
   "theorems": [
    "C27_one_selector_per_column",
    "C27_sound_and_complete",
    "C27_errors",
    "C27_nothing_frequent",
    "C27_numeric_columns",
    "C27_quoted_columns_counterexample"
   ],
   "note": "Sound, complete, each line once with the true numbers, errors, no-result case; for every measure as a function returning a value or raising. Hypothesis: the dictionary keys column+repr(value) are distinct (implied by column names without quotes); the counterexample theorem shows that it is needed."
  },
  {
   "property": "C28",
   "status": "proved",
   "theorems": [
    "C28_counters"
   ],
   "note": "Counters of a fit on a new object."
  },
  {
   "property": "C29",
   "status": "proved",
   "theorems": [
    "C29_sound",
    "C29_sound_and_complete",
    "C29_errors",
    "C29_numeric_columns",
    "C29_counters",
    "C29_bounding_estimate",
    "C29_piatetsky_shapiro",
    "C29_wracc"
   ],
   "note": "Generic in the measure, the estimate and both thresholds, for both vertical-list classes; corollaries give unconditional success and exactness for PiatetskyShapiro and WRAcc with their own estimates (over the rationals instead of floats)."
  },
  {
   "property": "C30",
   "status": "proved",
   "theorems": [
    "C30_representation",
    "C30_sort_criteria",
    "C30_visited",
    "C30_sort_criteria_counterexample"
   ],
   "note": "Lock-step theorem for the two classes; permutation of the lines for any two sort criteria under the soundness condition; counterexample without it; number of visited nodes under inherited thresholds."
  },
  {
   "property": "C31",
   "status": "proved",
   "theorems": [
    "C31_agreement",
    "C31_both_succeed"
   ],
   "note": "Permutation of the written lines, for categorical datasets without quotes in column names (as C27) with at least one covered description; both succeed whenever measure and estimate are defined."
  },
  {
   "property": "C32",
   "status": "proved",
   "theorems": [
    "C32_same_results"
   ],
   "note": "Same counters and the same lines (as a permutation) or both raise an exception of the measure; on categorical datasets without quotes in column names (as C27)."
  },
  {
   "property": "C33",
   "status": "proved",
   "theorems": [
    "C33_errors",
    "C33_piatetsky_shapiro_never_raises",
    "C33_sound",
    "C33_exact_counts",
    "C33_nothing_pruned",
    "C33_top_k",
    "C33_top_k_piatetsky_shapiro",
    "C33_counts_counterexample",
    "C33_best_counterexample"
   ],
   "note": "Soundness with counts at most the true ones; exact counts and top-k when no conditional node was pruned; SDMap lines when nothing was pruned; two counterexamples (Piatetsky-Shapiro) for the unconditional claims."
  },
  {
   "property": "C34",
   "status": "proved",
   "theorems": [
    "C34_bsd_counterexample",
    "C34_sdmap_as_new",
    "C34_vlsd_as_new",
    "C34_sdmapstar_as_new",
    "C34_idsd_again",
    "C34_sdiga_refuted",
    "C34_sdmap_again",
    "C34_counters_counterexample",
    "C34_stale_file_counterexample",
    "C34_sdmapstar_counterexample",
    "C34_vlsd_again",
    "C34_vlsd_counters_counterexample"
   ],
   "note": "as_new: any state and any dataset, for SDMap, VLSD, SDMapStar; IDSD repeated; refutations for the counters, the stale file, SDMapStar, BSD and SDIGA."
  },
  {
   "property": "C35",
   "status": "proved",
   "theorems": [
    "C35_best_list",
    "C35_output",
    "C35_second_fit_counterexample",
    "C35_zero_subgroups_counterexample",
    "C35_alike_refuted"
   ],
   "note": "Every point of a fit on a new object, all three classes, any measure and estimate whose qualities are totally preordered and not below the dummy -99999, num_subgroups >= 1, distinct selector texts. Counterexamples outside: second fit, num_subgroups = 0, selectors with the same text."
  },
  {
   "property": "C36",
   "status": "proved",
   "theorems": [
    "C36_depth",
    "C36_counterexample"
   ],
   "note": "At most max(0, max_depth) + 1 selectors; max_depth itself is refuted."
  },
  {
   "property": "C37",
   "status": "proved",
   "theorems": [
    "C37_bsd",
    "C37_cbsd",
    "C37_cpbsd",
    "C37_cbsd_counterexample",
    "C37_cpbsd_counterexample"
   ],
   "note": "BSD in full; CBSD/CPBSD: same quality never with the same (positive) rows; the closed-irrelevance claims are refuted."
  },
  {
   "property": "C38",
   "status": "proved",
   "theorems": [
    "C38_errors",
    "C38_accepts",
    "C38_wracc",
    "C38_counterexample"
   ],
   "note": "Exact reasons for which fit raises; accepts otherwise; BSD on positives-only data refuted."
  },
  {
   "property": "C39",
   "status": "proved",
   "theorems": [
    "C39_terminates",
    "C39_errors",
    "C39_well_formed",
    "C39_mdl_terminates"
   ],
   "note": "Generic in the numeric layer (any gain functions of the same counts, any strict order)."
  },
  {
   "property": "C40",
   "status": "proved",
   "theorems": [
    "C40_no_refinement",
    "C40_no_strict_refinement",
    "C40_no_two_related",
    "C40_inconsistent_file_counterexample"
   ],
   "note": "Also shown: with inconsistent bitarrays two copies of the same subgroup may be in the same list (counterexample)."
  },
  {
   "property": "C41",
   "status": "proved",
   "theorems": [
    "C41_evaluation_keeps_list",
    "C41_greedy",
    "C41_first_among_ties",
    "C41_mdl_greedy"
   ],
   "note": "The first among ties for a comparison that is total up to ties (no nan)."
  },
  {
   "property": "C42",
   "status": "proved",
   "theorems": [
    "C42_double",
    "C42_double_zero",
    "C42_exact_limit_refuted",
    "C42_admitted",
    "C42_overlap",
    "C42_limit_zero"
   ],
   "note": "C42_admitted: for whatever comparison of the factors; C42_overlap, C42_limit_zero: with exact quotients; C42_double, C42_double_zero: with the quotients rounded to binary64 as Python does (Flocq); C42_exact_limit_refuted: without the rounding the bound is false (limit 0.3, factor 3/10)."
  },
  {
   "property": "C43",
   "status": "proved",
   "theorems": [
    "C43_size",
    "C43_sorted",
    "C43_members",
    "C43_best",
    "C43_keeps",
    "C43_fit",
    "C43_evicts",
    "C43_rejects",
    "C43_enters",
    "C43_reported",
    "C43_no_redundancy_refuted"
   ],
   "note": "All sequences of offers whose odds ratio is not nan (proved for all offers of a fit). C43_no_redundancy_refuted: two nested subgroups may be in the list."
  },
  {
   "property": "C44",
   "status": "proved",
   "theorems": [
    "C44_exact",
    "C44_distinct",
    "C44_attributes",
    "C44_counters",
    "C44_refit",
    "C44_errors",
    "C44_pruned_uncounted",
    "C44_refit_refuted",
    "C44_non_unique_visited_refuted"
   ],
   "note": "See C44_*; refit for datasets with the same number of rows."
  },
  {
   "property": "C45",
   "status": "proved",
   "theorems": [
    "C45_candidates",
    "C45_columns",
    "C45_measures",
    "C45_file",
    "C45_space_refuted",
    "C45_comma_refuted"
   ],
   "note": "Categorical datasets whose selectors can be written and read back (no space in the column names, no \", \" in the texts), with the GLM as an arbitrary function; with a space in a column name or \", \" in a value fit raises (refuted)."
  },
  {
   "property": "C46",
   "status": "proved",
   "theorems": [
    "C46_rank",
    "C46_size",
    "C46_total",
    "C46_distinct",
    "C46_nested",
    "C46_reasons",
    "C46_enough",
    "C46_best",
    "C46_fit",
    "C46_counters",
    "C46_zero_refuted",
    "C46_no_redundancy_refuted",
    "C46_best_refuted"
   ],
   "note": "Selection for p-values that are numbers and num_subgroups >= 1. Non-redundancy of the result, the report of the smallest p-value and num_subgroups = 0 are refuted."
  },
  {
   "property": "C47",
   "status": "proved",
   "theorems": [
    "C47_round_trip",
    "C47_decoding",
    "C47_injective",
    "C47_wrap_refuted"
   ],
   "note": "For categorical datasets with two attributes besides the target, none of them called fitness; refuted beyond 65535 values (C47_wrap_refuted)."
  },
  {
   "property": "C48",
   "status": "proved",
   "theorems": [
    "C48_local_search",
    "C48_greedy"
   ],
   "note": "Floats are rationals."
  },
  {
   "property": "C49",
   "status": "proved",
   "theorems": [
    "C49_total",
    "C49_cross_product",
    "C49_independence",
    "C49_nonnegative",
    "C49_extremes",
    "C49_monotone",
    "C49_series",
    "C49_parameters"
   ],
   "note": "Rationals instead of floats; parameters as optional dictionary entries."
  },
  {
   "property": "C50",
   "status": "proved",
   "theorems": [
    "C50_small",
    "C50_contributions",
    "C50_ratio_at_least_1",
    "C50_threshold",
    "C50_appearance",
    "C50_statistic_total",
    "C50_min_le_max_refuted"
   ],
   "note": "odds is an arbitrary function of the pattern (dictionary of odds ratios or recomputed; the table version is C50_statistic_total). The min<=max wording is refuted: C50_min_le_max_refuted."
  },
  {
   "property": "C51",
   "status": "proved",
   "theorems": [
    "C51_complexity",
    "C51_complexity_exact",
    "C51_two_categories",
    "C51_complexity_defined",
    "C51_at_least_one",
    "C51_log_nonnegative",
    "C51_errors",
    "C51_universal_code",
    "C51_universal_increasing",
    "C51_universal_zero",
    "C51_code_with_maximum"
   ],
   "note": "Real numbers instead of floats. The relative error bound 10^-10 is that of the truncated sum, not of rounding. The completeness of the code with a maximum assumes that the code lengths are numbers (arguments of the logarithm positive)."
  },
  {
   "property": "C52",
   "status": "proved",
   "theorems": [
    "C52_line_by_line",
    "C52_counts",
    "C52_newlines",
    "C52_no_bitarray",
    "C52_vlsd"
   ],
   "note": "For all texts; open/encoding errors of files are not modelled."
  },
  {
   "property": "C53",
   "status": "proved",
   "theorems": [
    "C53_lookup_exact",
    "C53_one_per_selector",
    "C53_number",
    "C53_parent_exact",
    "C53_child_and_parent",
    "C53_errors",
    "C53_trees",
    "C53_equal_selectors_refuted",
    "C53_is_child",
    "C53_has_child",
    "C53_shared_child_refuted",
    "C53_children",
    "C53_parents",
    "C53_shared_child_counterexample"
   ],
   "note": "C53_lookup_exact, C53_one_per_selector, C53_number, C53_parent_exact, C53_child_and_parent, C53_errors for every history; C53_trees: on the selectors of FP-trees the nodes of FPTreeModel behave like them; the refuted wordings in C53_*_refuted. The other C53 theorems are the special case of histories of additions."
  },
  {
   "property": "C54",
   "status": "proved",
   "theorems": [
    "C54_combinations"
   ],
   "note": "For a list of distinct selectors."
  },
  {
   "property": "C55",
   "status": "proved",
   "theorems": [
    "C55_selectors",
    "C55_counterexample"
   ],
   "note": "Every selector of a stored description has min_support positive rows; the claim for descriptions is refuted."
  },
  {
   "property": "C56",
   "status": "proved",
   "theorems": [
    "C56_best_quality",
    "C56_best_wracc",
    "C56_top_k_counterexample"
   ],
   "note": "Also shown: only the best one is guaranteed; BSD may end with fewer than num_subgroups entries although a further relevant description within the limits exists (counterexample)."
  },
  {
   "property": "C57",
   "status": "proved",
   "theorems": [
    "C57_compresses",
    "C57_shorter",
    "C57_one_class",
    "C57_long_descriptions",
    "C57_penalty"
   ],
   "note": "Real numbers instead of floats; the +inf gain of over-long descriptions is C57_long_descriptions, so the limit on descriptions is a necessary hypothesis."
  },
  {
   "property": "C58",
   "status": "proved",
   "theorems": [
    "C58_probability",
    "C58_independent",
    "C58_monotone",
    "C58_one_class"
   ],
   "note": "Reals instead of floats; cdf is any function with the properties half_cdf (scipy norm.cdf is not modelled)."
  },
  {
   "property": "C59",
   "status": "proved",
   "theorems": [
    "C59_fresh_other",
    "C59_small",
    "C59_grouped",
    "C59_dataset"
   ],
   "note": "All columns of texts."
  },
  {
   "property": "C60",
   "status": "proved",
   "theorems": [
    "C60_ok",
    "C60_refuted",
    "C60_before_fit",
    "C60_file",
    "C60_own_data_refuted"
   ],
   "note": "test_subgroups characterized (values, KeyError); that it always works on the data of the fit is refuted."
  },
  {
   "property": "C61",
   "status": "proved",
   "theorems": [
    "C61_outcomes",
    "C61_outcome_unique",
    "C61_errors",
    "C61_comma_refuted",
    "C61_space_refuted",
    "C61_round_trip",
    "C61_messages",
    "C61_characters",
    "C61_pipeline"
   ],
   "note": "For all texts; that every mined candidate is loaded and that loading never raises are refuted (see C61_*_refuted)."
  },
  {
   "property": "C62",
   "status": "proved",
   "theorems": [
    "C62_output_file",
    "C62_errors",
    "C62_invalid"
   ],
   "note": "For runs that return; the partial file left by an exception is not modelled."
  },
  {
   "property": "C63",
   "status": "proved",
   "theorems": [
    "C63_fit",
    "C63_distinct",
    "C63_errors",
    "C63_population_of_one_refuted",
    "C63_new_rows_refuted",
    "C63_fitness_attribute_refuted",
    "C63_single_attribute_refuted"
   ],
   "note": "For at least two attributes besides the target, none called fitness, population >= 2 and a positive sum of weights; the excluded cases are refuted (C63_*_refuted). Floats are rationals."
  },
  {
   "property": "C64",
   "status": "proved",
   "theorems": [
    "C64_round",
    "C64_first_child_refuted"
   ],
   "note": "Floats are rationals."
  },
  {
   "property": "C65",
   "status": "proved",
   "theorems": [
    "C65_callers_dictionaries",
    "C65_own_dictionaries",
    "C65_calls",
    "C65_never_shared",
    "C65_exposed_refuted",
    "C65_star_topk_refuted",
    "C65_star_topk"
   ],
   "note": "C65_callers_dictionaries, C65_own_dictionaries, C65_calls (any history), C65_never_shared; the refuted wordings in C65_exposed_refuted and C65_star_topk_refuted."
  },
  {
   "property": "C66",
   "status": "proved",
   "theorems": [
    "C66_sdmap",
    "C66_sdmapstar",
    "C66_vlsd",
    "C66_bsd",
    "C66_idsd",
    "C66_qfinder",
    "C66_sdiga",
    "C66_lists",
    "C66_types_first",
    "C66_bool_is_no_int",
    "C66_nan_refuted",
    "C66_attributes",
    "C66_configurations"
   ],
   "note": "decided_by: created iff all requirements hold, otherwise the error of the first one violated; C66_nan_refuted. The configurations of the models of IDSD and QFinder are the accepted ones (C66_configurations)."
  },
  {
   "property": "C67",
   "status": "proved",
   "theorems": [
    "C67_accepted_pairs",
    "C67_estimates_bound",
    "C67_binomial_refuted"
   ],
   "note": "C67_accepted_pairs and C67_estimates_bound; C67_binomial_refuted."
  },
  {
   "property": "C68",
   "status": "proved",
   "theorems": [
    "C68_error",
    "C68_ranges",
    "C68_sign",
    "C68_order",
    "C68_ties_refuted",
    "C68_monotone"
   ],
   "note": "Measures in binary64 (rounding function of Flocq): error bound, ranges, sign, monotonicity and order; refutation of ties. Qg and the binomial measures are not modelled in binary64; overflow, underflow and signed zeros do not arise at these sizes."
  },
  {
   "property": "C69",
   "status": "proved",
   "theorems": [
    "C69_estimates_bound",
    "C69_ps_estimates_antimonotone"
   ],
   "note": "By monotonicity of rounding where the formulas are monotone, and by the gap between different quotients of counts elsewhere."
  },
  {
   "property": "C70",
   "status": "proved",
   "theorems": [
    "C70_top_k",
    "C70_vlsd_sound_and_complete",
    "C70_bsd_best"
   ],
   "note": "Instances of C29, C33 and C56 with the binary64 measures; the hypotheses of those theorems follow from C68 and C69."
  },
  {
   "property": "C71",
   "status": "proved",
   "theorems": [
    "C71_records",
    "C71_sdmap",
    "C71_bsd",
    "C71_sdmapstar",
    "C71_vlsd",
    "C71_idsd",
    "C71_qfinder",
    "C71_sdiga",
    "C71_separator_refuted"
   ],
   "note": "Names without spaces, not ending in a comma and other than ; and Target: ; values without the separators, one line. The text of a float is any text without semicolons on one line. VLSD: bitsets (str of a set is not modelled). C71_separator_refuted: outside these conditions the lines cannot be read."
  },
  {
   "property": "C72",
   "status": "proved",
   "theorems": [
    "C72_sets",
    "C72_bitsets",
    "C72_same_text",
    "C72_dataset",
    "C72_determines"
   ],
   "note": "The text of the quality value is arbitrary. The rows can be read back when the selectors are known (a value can contain the separators)."
  },
  {
   "property": "C73",
   "status": "proved",
   "theorems": [
    "C73_sdmap_faithful",
    "C73_sdmap_crash_lines",
    "C73_sdmap_crash_counters",
    "C73_sdmap_crash_text",
    "C73_sdmap_closing",
    "C73_sdiga_faithful",
    "C73_sdiga_closing",
    "C73_sdiga_crash_lines",
    "C73_sdiga_crash_text",
    "C73_sdiga_one_refuted",
    "C73_bsd_run",
    "C73_idsd_run",
    "C73_qfinder_run",
    "C73_bsd_crash_text",
    "C73_idsd_crash_text",
    "C73_qfinder_crash_text",
    "C73_sdmapstar_faithful",
    "C73_sdmapstar_closing",
    "C73_sdmapstar_crash_lines",
    "C73_sdmapstar_crash_counters",
    "C73_sdmapstar_crash_text",
    "C73_vlsd_faithful",
    "C73_vlsd_closing",
    "C73_vlsd_crash_lines",
    "C73_vlsd_crash_counters",
    "C73_vlsd_crash_text"
   ],
   "note": "The runs of CrashModel.v are the same programs as the models of the final state (C73_*_faithful). Crash text: names and values as in C71; VLSD with bitsets. SDIGA: under the hypotheses of C63, with which fit does not raise; C73_sdiga_one_refuted otherwise. On the disk: any beginning of the text written so far until the file is closed."
  },
  {
   "property": "C74",
   "status": "proved",
   "theorems": [
    "C74_crash_points",
    "C74_next_call",
    "C74_no_exception",
    "C74_intact",
    "C74_reached",
    "C74_deleted",
    "C74_sdmap",
    "C74_sdmapstar",
    "C74_vlsd",
    "C74_sdiga",
    "C74_bsd",
    "C74_idsd",
    "C74_intact_refuted"
   ],
   "note": "The behaviour of a file object (buffer, place, closed by CPython when it is dropped) is modelled in SessionModel.v and is part of the trusted base. C74_crash_points: the contents of C73 are exactly those of the file object. C74_reached: every content of C74_next_call can be found. QFinder is not among the instances (C73_qfinder_run with C74_no_exception gives it for accepted datasets)."
  },
  {
   "property": "C75",
   "status": "proved",
   "theorems": [
    "C75_binomial",
    "C75_estimate",
    "C75_estimate_antimonotone",
    "C75_estimate_refuted",
    "C75_qg",
    "C75_qg_monotone",
    "C75_qg_int"
   ],
   "note": "math.sqrt is taken to be correctly rounded (IEEE 754), part of the trusted base. Overflow to inf is not modelled: with the counts and g of C75_binomial, C75_estimate and the bound of C75_qg no value leaves the range; C75_qg_monotone speaks of g so small that tp/g overflows only in the model without a largest number. C75_estimate_refuted: the computed estimate is below the computed value for tp=1, fp=0, TP=FP=1, as C19 shows for the exact ones."
  },
  {
   "property": "C76",
   "status": "proved",
   "theorems": [
    "C76_is_contained",
    "C76_when_right",
    "C76_default_index",
    "C76_filter",
    "C76_filter_raises",
    "C76_subgroup_filter",
    "C76_idempotent_refuted"
   ],
   "note": "Distinct row labels; with repeated labels pandas refuses to align or multiplies rows, not modelled. The meaning of `&` between Series with different indexes (outer join, missing values count as False) and of df[mask] (reindexing, IndexingError) is part of the trusted base. C76_idempotent_refuted: a frame filtered once (labels 1 and 3) filtered again by the same selectors loses the row labelled 3."
  },
  {
   "property": "C77",
   "status": "proved",
   "theorems": [
    "C77_sdmap_distinct",
    "C77_star_distinct",
    "C77_tree",
    "C77_nothing_found",
    "C77_star_nothing_found",
    "C77_concat",
    "C77_repeated_refuted"
   ],
   "note": "That df.loc[label, column] is a Series for a repeated label, and that its repr is no key of the dictionary of frequent selectors, is part of the trusted base. The other algorithms read columns by position (or build their Series on the index of the DataFrame) and do not depend on the labels."
  },
  {
   "property": "C78",
   "status": "proved",
   "theorems": [
    "C78_bsd_differences",
    "C78_bsd",
    "C78_bsd_refuted",
    "C78_star"
   ],
   "note": "C78_bsd_refuted also is the non-trivial case that meets the hypotheses of C78_bsd (7 visited, 1 selected, 10 unselected, 2 pruned on the toy dataset); with a measure that reaches -99999 selected_subgroups misses the first entry, hence the hypothesis."
  },
  {
   "property": "C79",
   "status": "proved",
   "theorems": [
    "C79_lists",
    "C79_patterns",
    "C79_bits",
    "C79_created",
    "C79_taken",
    "C79_default_live",
    "C79_getters",
    "C79_nonvacuous",
    "C79_refuted"
   ],
   "note": "careful is the only hypothesis on programs (C79_refuted shows three programs without it where the list changes); C79_nonvacuous runs a careful program with shared patterns, copies, changed bitarrays, additions and a deletion. Operations: those listed in AliasModel.v; extend/slices of bitarrays are not among them."
  },
  {
   "property": "C80",
   "status": "proved",
   "theorems": [
    "C80_tree",
    "C80_subtree",
    "C80_header"
   ],
   "note": "C80_nonvacuous gives the full text of a tree with two branches and of its header table. Trees of SDMap (dataset tree and conditional trees); ids are an arbitrary function of the node; Python's recursion limit is not modelled."
  },
  {
   "property": "C81",
   "status": "proved",
   "theorems": [
    "C81_construction",
    "C81_one_instance",
    "C81_type",
    "C81_library_classes",
    "C81_copies",
    "C81_estimates",
    "C81_subclass_refuted"
   ],
   "note": "C81_construction, C81_one_instance, C81_type, C81_copies: every program, client subclasses included; C81_library_classes, C81_estimates: documented behaviour without client subclasses; C81_subclass_refuted."
  },
  {
   "property": "C82",
   "status": "proved",
   "theorems": [
    "C82_steps",
    "C82_pruned"
   ],
   "note": "C82_steps: each step of the search, stated with row sets and qualities, and the final list; C82_pruned: nothing evaluated later contains a pruned description. C82_nonvacuous: a run of 17 steps with a replacement and a pruning."
  },
  {
   "property": "C83",
   "status": "proved",
   "theorems": [
    "C83_sdmap",
    "C83_vlsd",
    "C83_lists",
    "C83_bsd",
    "C83_qfinder",
    "C83_idsd",
    "C83_sdiga",
    "C83_test",
    "C83_untouched",
    "C83_vlsd_file",
    "C83_starts",
    "C83_vlsd_starts",
    "C83_models",
    "C83_absent_value",
    "C83_untouched_refuted",
    "C83_pair_refuted"
   ],
   "note": "requirements in order (decided_by, as C66) for every argument type; refused calls leave file and object unchanged whatever the rest of fit is, VLSD excepted (its exact effect proved); accepted calls meet categorical/has_column; the models of the algorithms raise the same errors. Targets whose first two elements are lists, slices or DataFrames are outside the model."
  },
  {
   "property": "C84",
   "status": "proved",
   "theorems": [
    "C84_sdmap",
    "C84_sdmapstar",
    "C84_vlsd",
    "C84_bsd",
    "C84_idsd",
    "C84_finished"
   ],
   "note": "_within limit models: the searches with a bound on nested calls (RecursionModel.v), equal to the unbounded fit from the stated limit on; C84_finished: below it a finished run has the same result; _tight examples: one call fewer is a RecursionError. Frames of non-recursive calls and of Subgroup/Pattern helpers are part of what the limit excludes; tree_as_str is not covered."
  },
  {
   "property": "C85",
   "status": "proved",
   "theorems": [
    "C85_is_contained",
    "C85_counts",
    "C85_sdmap",
    "C85_sdmapstar",
    "C85_vlsd",
    "C85_vlsd_visited",
    "C85_bsd_best",
    "C85_arranged",
    "C85_line_order_refuted",
    "C85_sdmapstar_limit_refuted",
    "C85_vlsd_refuted",
    "C85_bsd_list_refuted"
   ],
   "note": "reordered: same column names, rows related by a permutation; C85_arranged shows every permutation of rows and of columns gives one. VLSD: the lines without the rows and the estimate; both fits are assumed to succeed. BSD: best quality for WRAcc with its first estimate. What depends on the order is refuted by concrete datasets. The subgroup-list learners, IDSD, QFinder, SDIGA are not covered."
  },
  {
   "property": "C86",
   "status": "proved",
   "theorems": [
    "C86_refused",
    "C86_unchanged",
    "C86_pattern_methods",
    "C86_other_methods",
    "C86_two_series",
    "C86_bools",
    "C86_mixed",
    "C86_mixed_type_error",
    "C86_unordered",
    "C86_pure",
    "C86_never_mixed",
    "C86_unchecked_element",
    "C86_unchecked_later",
    "C86_refinement",
    "C86_refinement_of_itself",
    "C86_refinement_refused",
    "C86_subgroup_refinement",
    "C86_empty_name_refused_refuted",
    "C86_selector_exact"
   ],
   "note": "The object universe is pobj (CoreArgModel.v): exact str/int/float, bool, None, core objects, Series, DataFrame, list, tuple, other. C86_pattern_methods and C86_other_methods: on the proper arguments these are the methods of CoreModel.v. Comparisons of lists, tuples, Series and unknown objects among themselves are outside (Unmodelled). Documented but not enforced: a non-empty name. C86_two_series, C86_bools: Series against Series, and bools beside ints."
  },
  {
   "property": "C87",
   "status": "proved",
   "theorems": [
    "C87_sdmap_thresholds",
    "C87_sdmap_columns",
    "C87_sdmapstar_thresholds",
    "C87_sdmapstar_columns",
    "C87_vlsd_thresholds",
    "C87_vlsd_columns",
    "C87_bsd_best",
    "C87_bsd_list_refuted"
   ],
   "note": "stricter: any two configurations with the same measure, the second accepting less (minimum supports of either kind). extends: the same rows, the old columns unchanged. SDMap, SDMapStar (0 = no limit): both counters, and success carries over; VLSD: the lines without the rows, a sound estimate in both configurations, both fits assumed to succeed; BSD: best quality for WRAcc with its first estimate. The BSD list is refuted to be monotone in the depth."
  },
  {
   "property": "C88",
   "status": "proved",
   "theorems": [
    "C88_sdmap",
    "C88_sdmapstar",
    "C88_sound_estimate",
    "C88_vlsd",
    "C88_vlsd_succeeds",
    "C88_bsd_best",
    "C88_renamed",
    "C88_bsd_list_refuted"
   ],
   "note": "relabelled: the same columns, and equal cells in the same places of each column; same_target: the target value marks the same rows; twin: descriptions over the same columns covering the same rows. C88_renamed: applying an injective renaming to the values gives such a dataset. BSD: best quality for WRAcc with its first estimate, in either direction; the kept list is refuted to be invariant for CPBSD. VLSD: a sound estimate on one dataset suffices (C88_sound_estimate); C88_vlsd_succeeds: both fits succeed where the measure and the estimate are defined on the candidates."
  },
  {
   "property": "C89",
   "status": "proved",
   "theorems": [
    "C89_sdmap",
    "C89_sdmapstar",
    "C89_sound_estimate",
    "C89_vlsd",
    "C89_bsd_best",
    "C89_values",
    "C89_composition",
    "C89_renamed"
   ],
   "note": "corresponds R: R pairs the columns one to one, equal cells in the same places of paired columns; same_mark: the target columns are paired and the values mark the same rows; image: descriptions over paired columns covering the same rows. C89_values (C88 is an instance), C89_renamed (columns renamed without quotes in the new names), C89_composition give the pairs. VLSD: both fits assumed to succeed. BSD: best quality for WRAcc with its first estimate, in either direction."
  },
  {
   "property": "C90",
   "status": "proved",
   "theorems": [
    "C90_sdmap",
    "C90_sdmapstar",
    "C90_vlsd",
    "C90_measures",
    "C90_scaled",
    "C90_vl_scaled",
    "C90_bsd_best"
   ],
   "note": "repeat_rows k: the dataset k times over. scaled: the minimum supports multiplied, the measures agree up to E, the threshold does not distinguish E-related values; C90_scaled and C90_vl_scaled: the exact rational measures with threshold qmin (k*qmin for the amounts) are so. Over exact rationals: in floating point the ratios need not agree. VLSD: sound estimates on both and success of both assumed. Qg is not scale invariant and not included. BSD: best quality for WRAcc with its first estimate, in either direction."
  }
 ]
}