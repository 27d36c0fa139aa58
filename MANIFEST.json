{
 "claims": [
  {
   "property": "C01",
   "status": "proved",
   "theorems": [
    "C01_is_perfect_decides"
   ],
   "note": ""
  },
  {
   "property": "C02",
   "status": "proved",
   "theorems": [
    "C02_is_odd_perfect_decides"
   ],
   "note": ""
  },
  {
   "property": "C03",
   "status": "proved",
   "theorems": [
    "C03_quadruple_round_trip",
    "C03_quaternion_round_trip",
    "C03_from_pqs_panics_iff"
   ],
   "note": ""
  },
  {
   "property": "C04",
   "status": "proved",
   "theorems": [
    "C04_values_round_trip",
    "C04_text_round_trip",
    "C04_from_str_panics_iff"
   ],
   "note": ""
  },
  {
   "property": "C05",
   "status": "proved",
   "theorems": [
    "C05_QT_iff_perfect",
    "C05_QT_iff_perfect_spec"
   ],
   "note": ""
  },
  {
   "property": "C06",
   "status": "proved",
   "theorems": [
    "C06_QT_iff_WT",
    "C06_QT_iff_WT_spec"
   ],
   "note": ""
  },
  {
   "property": "C07",
   "status": "proved",
   "theorems": [
    "C07_W_implies_WT",
    "C07_WT_implies_QT",
    "C07_other_types_rejected"
   ],
   "note": ""
  },
  {
   "property": "C08",
   "status": "proved",
   "theorems": [
    "C08_verify_decides"
   ],
   "note": ""
  },
  {
   "property": "C09",
   "status": "proved",
   "theorems": [
    "C09_operations_preserve_type",
    "C09_reachable_keeps_type"
   ],
   "note": ""
  },
  {
   "property": "C10",
   "status": "proved",
   "theorems": [
    "C10_class_is_orbit",
    "C10_class_of_type_is_orbit",
    "C10_any_result_is_orbit"
   ],
   "note": ""
  },
  {
   "property": "C11",
   "status": "proved",
   "theorems": [
    "C11_equivalence_relation",
    "C11_classes_equal_or_disjoint",
    "C11_equivalent_to_is_reachability"
   ],
   "note": ""
  },
  {
   "property": "C12",
   "status": "proved",
   "theorems": [
    "C12_fast_agrees",
    "C12_fast_agrees_for_type",
    "C12_fast_wrong_at_32_refuted"
   ],
   "note": ""
  },
  {
   "property": "C13",
   "status": "proved",
   "theorems": [
    "C13_strict_total_order",
    "C13_is_lexicographic"
   ],
   "note": ""
  },
  {
   "property": "C14",
   "status": "proved",
   "theorems": [
    "C14_representative_is_least",
    "C14_same_representative_iff_equivalent"
   ],
   "note": ""
  },
  {
   "property": "C15",
   "status": "proved",
   "theorems": [
    "C15_ns_canonical_is_least",
    "C15_ns_canonical_complete"
   ],
   "note": ""
  },
  {
   "property": "C16",
   "status": "proved",
   "theorems": [
    "C16_sn_ss_canonical_is_least",
    "C16_sn_ss_canonical_complete"
   ],
   "note": ""
  },
  {
   "property": "C17",
   "status": "proved",
   "theorems": [
    "C17_qt_canonical_is_brute_force"
   ],
   "note": ""
  },
  {
   "property": "C18",
   "status": "proved",
   "theorems": [
    "C18_one_representative_per_class",
    "C18_empty_list_panics"
   ],
   "note": ""
  },
  {
   "property": "C19",
   "status": "proved",
   "theorems": [
    "C19_williamson_one_representative_per_class",
    "C19_representative_is_williamson_refuted"
   ],
   "note": ""
  },
  {
   "property": "C20",
   "status": "proved",
   "theorems": [
    "C20_equiv_decides_equivalence",
    "C20_equiv_is_reachability",
    "C20_equiv_panics_on_invalid"
   ],
   "note": ""
  },
  {
   "property": "C21",
   "status": "proved",
   "theorems": [
    "C21_reduce_to_equivalence",
    "C21_reduce_to_equivalence_par",
    "C21_agree",
    "C21_empty_panics"
   ],
   "note": ""
  },
  {
   "property": "C22",
   "status": "proved",
   "theorems": [
    "C22_set_dif_result",
    "C22_set_dif_refuted"
   ],
   "note": ""
  },
  {
   "property": "C23",
   "status": "proved",
   "theorems": [
    "C23_rowsum_squares",
    "C23_rowsum_total"
   ],
   "note": ""
  },
  {
   "property": "C24",
   "status": "proved",
   "theorems": [
    "C24_sum_of_four_squares"
   ],
   "note": ""
  },
  {
   "property": "C25",
   "status": "proved",
   "theorems": [
    "C25_generate_rowsums_exact",
    "C25_generate_rowsums_covers"
   ],
   "note": ""
  },
  {
   "property": "C26",
   "status": "proved",
   "theorems": [
    "C26_generate_sequences_with_rowsum"
   ],
   "note": ""
  },
  {
   "property": "C27",
   "status": "proved",
   "theorems": [
    "C27_psd_bound",
    "C27_filter_keeps_solutions",
    "C27_filter_exact",
    "C27_couples_keep_solutions",
    "C27_couples_exact",
    "C27_single_exact"
   ],
   "note": ""
  },
  {
   "property": "C28",
   "status": "proved",
   "theorems": [
    "C28_keys_agree"
   ],
   "note": ""
  },
  {
   "property": "C29",
   "status": "proved",
   "theorems": [
    "C29_pair_line_round_trip",
    "C29_sequence_file_round_trip",
    "C29_numbers"
   ],
   "note": ""
  },
  {
   "property": "C30",
   "status": "proved",
   "theorems": [
    "C30_join_exact",
    "C30_sort_sorts"
   ],
   "note": ""
  },
  {
   "property": "C31",
   "status": "proved",
   "theorems": [
    "C31_merge_misses_match"
   ],
   "note": ""
  },
  {
   "property": "C32",
   "status": "proved",
   "theorems": [
    "C32_matches_are_valid",
    "C32_join_any_folder"
   ],
   "note": ""
  },
  {
   "property": "C33",
   "status": "proved",
   "theorems": [
    "C33_matches_exhaustive",
    "C33_one_per_class",
    "C33_one_per_class_W"
   ],
   "note": ""
  },
  {
   "property": "C34",
   "status": "proved",
   "theorems": [
    "C34_extension_exhaustive"
   ],
   "note": ""
  },
  {
   "property": "C35",
   "status": "proved",
   "theorems": [
    "C35_from_williamson_hadamard"
   ],
   "note": ""
  },
  {
   "property": "C36",
   "status": "proved",
   "theorems": [
    "C36_verify_exact_below_256",
    "C36_verify_modulo_256",
    "C36_verify_at_256_refuted"
   ],
   "note": ""
  },
  {
   "property": "C37",
   "status": "proved",
   "theorems": [
    "C37_from_pqs_verify",
    "C37_verify_exact"
   ],
   "note": ""
  },
  {
   "property": "C38",
   "status": "proved",
   "theorems": [
    "C38_dephase",
    "C38_dephase_scales"
   ],
   "note": ""
  },
  {
   "property": "C39",
   "status": "proved",
   "theorems": [
    "C39_dephase",
    "C39_dephased_exact",
    "C39_dephased_refuted"
   ],
   "note": ""
  },
  {
   "property": "C40",
   "status": "proved",
   "theorems": [
    "C40_non_commuting",
    "C40_non_commuting_core"
   ],
   "note": ""
  },
  {
   "property": "C41",
   "status": "proved",
   "theorems": [
    "C41_graph_shape",
    "C41_isomorphic_iff_equivalent",
    "C41_reduce",
    "C41_canonical_exists"
   ],
   "note": ""
  },
  {
   "property": "C42",
   "status": "proved",
   "theorems": [
    "C42_product_perfect",
    "C42_product_not_coprime"
   ],
   "note": ""
  },
  {
   "property": "C43",
   "status": "proved",
   "theorems": [
    "C43_naive_find",
    "C43_parallel_find",
    "C43_agree",
    "C43_parallel_find_q24"
   ],
   "note": ""
  },
  {
   "property": "C44",
   "status": "proved",
   "theorems": [
    "C44_symmetric_search",
    "C44_symmetric_everywhere",
    "C44_symmetry_IV_middle_refuted"
   ],
   "note": ""
  },
  {
   "property": "C45",
   "status": "proved",
   "theorems": [
    "C45_enumeration",
    "C45_find_unique"
   ],
   "note": ""
  },
  {
   "property": "C46",
   "status": "proved",
   "theorems": [
    "C46_coprime_is_gcd",
    "C46_table",
    "C46_table_panics_above_100",
    "C46_automorphism_panics_above_100"
   ],
   "note": ""
  },
  {
   "property": "C47",
   "status": "proved",
   "theorems": [
    "C47_match_data",
    "C47_table_drops_first",
    "C47_single_pair_refuted"
   ],
   "note": ""
  },
  {
   "property": "C48",
   "status": "proved",
   "theorems": [
    "C48_products",
    "C48_sums",
    "C48_conjugates",
    "C48_injective",
    "C48_conjugate_transpose",
    "C48_blocks",
    "C48_hadamard_of_unitaries"
   ],
   "note": ""
  },
  {
   "property": "C49",
   "status": "proved",
   "theorems": [
    "C49_tensor",
    "C49_tensor_right_sizes",
    "C49_tensor_refuted"
   ],
   "note": ""
  },
  {
   "property": "C50",
   "status": "proved",
   "theorems": [
    "C50_separate_jobs",
    "C50_prepared_jobs",
    "C50_no_pairing"
   ],
   "note": ""
  },
  {
   "property": "C51",
   "status": "proved",
   "theorems": [
    "C51_linear_equations",
    "C51_encode",
    "C51_decode",
    "C51_right_identities",
    "C51_linear_complete",
    "C51_quadratic_equations",
    "C51_complete_refuted",
    "C51_panics"
   ],
   "note": ""
  },
  {
   "property": "C52",
   "status": "proved",
   "theorems": [
    "C52_transpose_negates_index",
    "C52_transpose_involutive"
   ],
   "note": ""
  },
  {
   "property": "C53",
   "status": "proved",
   "theorems": [
    "C53_alphabet",
    "C53_periodic_autocorrelation",
    "C53_odd_periodic_autocorrelation",
    "C53_is_perfect",
    "C53_verify",
    "C53_bound"
   ],
   "note": ""
  },
  {
   "property": "C54",
   "status": "proved",
   "theorems": [
    "C54_operations_return_documented_variants"
   ],
   "note": ""
  },
  {
   "property": "C55",
   "status": "proved",
   "theorems": [
    "C55_every_operation_keeps_QT_and_WT",
    "C55_alternated_negation_refuted"
   ],
   "note": ""
  },
  {
   "property": "C56",
   "status": "proved",
   "theorems": [
    "C56_union_of_classes"
   ],
   "note": ""
  },
  {
   "property": "C57",
   "status": "proved",
   "theorems": [
    "C57_find_williamson",
    "C57_find_williamson_type"
   ],
   "note": ""
  },
  {
   "property": "C58",
   "status": "proved",
   "theorems": [
    "C58_has_sorted_rowsums",
    "C58_filter_keeps_classes",
    "C58_has_sorted_refuted"
   ],
   "note": ""
  },
  {
   "property": "C59",
   "status": "proved",
   "theorems": [
    "C59_to_string_text",
    "C59_to_string_injective",
    "C59_magma_text",
    "C59_magma_injective",
    "C59_magma_empty_panics",
    "C59_qhm_to_string_injective"
   ],
   "note": ""
  },
  {
   "property": "C60",
   "status": "proved",
   "theorems": [
    "C60_conjugate_perfect",
    "C60_is_perfect"
   ],
   "note": ""
  },
  {
   "property": "C61",
   "status": "proved",
   "theorems": [
    "C61_projectors",
    "C61_measurement",
    "C61_dephased_refuted"
   ],
   "note": ""
  },
  {
   "property": "C62",
   "status": "proved",
   "theorems": [
    "C62_product_measurement",
    "C62_of_perfect"
   ],
   "note": ""
  },
  {
   "property": "C63",
   "status": "proved",
   "theorems": [
    "C63_result_file"
   ],
   "note": ""
  },
  {
   "property": "C64",
   "status": "proved",
   "theorems": [
    "C64_ns_reduction"
   ],
   "note": ""
  },
  {
   "property": "C65",
   "status": "proved",
   "theorems": [
    "C65_driver_QT",
    "C65_driver_WT",
    "C65_driver_W"
   ],
   "note": ""
  },
  {
   "property": "C66",
   "status": "proved",
   "theorems": [
    "C66_no_match_panics",
    "C66_no_solution_panics"
   ],
   "note": ""
  },
  {
   "property": "C67",
   "status": "proved",
   "theorems": [
    "C67_options_agree"
   ],
   "note": ""
  },
  {
   "property": "C68",
   "status": "proved",
   "theorems": [
    "C68_same_result"
   ],
   "note": ""
  },
  {
   "property": "C69",
   "status": "proved",
   "theorems": [
    "C69_equivalent_is_least",
    "C69_equivalent_iff"
   ],
   "note": ""
  },
  {
   "property": "C70",
   "status": "proved",
   "theorems": [
    "C70_is_symmetric_decides",
    "C70_quadruple_is_symmetric_decides",
    "C70_tests_agree"
   ],
   "note": ""
  },
  {
   "property": "C71",
   "status": "proved",
   "theorems": [
    "C71_quaternion_type",
    "C71_williamson_type_odd",
    "C71_without_half_shifts"
   ],
   "note": ""
  },
  {
   "property": "C72",
   "status": "proved",
   "theorems": [
    "C72_driver_qts",
    "C72_driver_wts",
    "C72_matrix_count",
    "C72_existing_pairs_kept"
   ],
   "note": ""
  },
  {
   "property": "C73",
   "status": "proved",
   "theorems": [
    "C73_command_line"
   ],
   "note": ""
  },
  {
   "property": "C74",
   "status": "proved",
   "theorems": [
    "C74_convert_qhm"
   ],
   "note": ""
  },
  {
   "property": "C75",
   "status": "proved",
   "theorems": [
    "C75_qhm_all"
   ],
   "note": ""
  },
  {
   "property": "C76",
   "status": "proved",
   "theorems": [
    "C76_amicable"
   ],
   "note": ""
  },
  {
   "property": "C77",
   "status": "proved",
   "theorems": [
    "C77_representative_never_williamson",
    "C77_convert_hm_panics",
    "C77_driver_ws"
   ],
   "note": ""
  },
  {
   "property": "C78",
   "status": "proved",
   "theorems": [
    "C78_one_directory",
    "C78_leading_zero_refuted",
    "C78_other_types"
   ],
   "note": ""
  },
  {
   "property": "C79",
   "status": "proved",
   "theorems": [
    "C79_outputs",
    "C79_rowsums_file",
    "C79_rowsums_without_directory",
    "C79_qhm_all_file"
   ],
   "note": ""
  },
  {
   "property": "C80",
   "status": "proved",
   "theorems": [
    "C80_table_qts",
    "C80_table_wts",
    "C80_qt_time_wts_refuted",
    "C80_table_ws_refuted",
    "C80_matrix_lines"
   ],
   "note": ""
  },
  {
   "property": "C81",
   "status": "proved",
   "theorems": [
    "C81_pairs_total"
   ],
   "note": ""
  },
  {
   "property": "C82",
   "status": "proved",
   "theorems": [
    "C82_split_same_files",
    "C82_split_results_qts",
    "C82_split_results_wts",
    "C82_some_rowsums"
   ],
   "note": ""
  },
  {
   "property": "C83",
   "status": "proved",
   "theorems": [
    "C83_same_tree",
    "C83_same_row"
   ],
   "note": ""
  },
  {
   "property": "C84",
   "status": "proved",
   "theorems": [
    "C84_rerun",
    "C84_stale_files"
   ],
   "note": ""
  },
  {
   "property": "C85",
   "status": "proved",
   "theorems": [
    "C85_sorting_twice"
   ],
   "note": ""
  },
  {
   "property": "C86",
   "status": "proved",
   "theorems": [
    "C86_operation_passes",
    "C86_operation_panics",
    "C86_symmetry_group",
    "C86_operations_of_type",
    "C86_every_operation",
    "C86_class_of_member",
    "C86_class_of_nonmember",
    "C86_equivalent_to",
    "C86_representative",
    "C86_nonmember",
    "C86_reduce_to_equivalence",
    "C86_reduce_at_32_refuted",
    "C86_alternated_negation_refuted"
   ],
   "note": ""
  },
  {
   "property": "C87",
   "status": "proved",
   "theorems": [
    "C87_driver_same",
    "C87_qhm_all_same",
    "C87_qhm_all_panics",
    "C87_qhm_all_ws_refuted"
   ],
   "note": ""
  },
  {
   "property": "C88",
   "status": "proved",
   "theorems": [
    "C88_two_best",
    "C88_files",
    "C88_complete",
    "C88_all_rowsums_refuted",
    "C88_other_types"
   ],
   "note": ""
  },
  {
   "property": "C89",
   "status": "proved",
   "theorems": [
    "C89_correlation_file",
    "C89_computed_file",
    "C89_exact"
   ],
   "note": ""
  },
  {
   "property": "C90",
   "status": "proved",
   "theorems": [
    "C90_never_half",
    "C90_no_warning",
    "C90_negative_never_warns"
   ],
   "note": ""
  },
  {
   "property": "C91",
   "status": "proved",
   "theorems": [
    "C91_correlation_search",
    "C91_computed_search",
    "C91_classes",
    "C91_ties_lost",
    "C91_all_found_refuted"
   ],
   "note": ""
  },
  {
   "property": "C92",
   "status": "proved",
   "theorems": [
    "C92_no_ties",
    "C92_vanishing",
    "C92_search",
    "C92_classes"
   ],
   "note": ""
  },
  {
   "property": "C93",
   "status": "proved",
   "theorems": [
    "C93_complement_exact",
    "C93_bad_tags",
    "C93_equal_tags",
    "C93_tags_swapped"
   ],
   "note": ""
  },
  {
   "property": "C94",
   "status": "proved",
   "theorems": [
    "C94_agrees",
    "C94_one_directory",
    "C94_own_files",
    "C94_bad_arguments",
    "C94_join_all_or_nothing",
    "C94_qhm_all_all_or_nothing",
    "C94_convert_hm_all_or_nothing",
    "C94_convert_qhm_all_or_nothing_refuted",
    "C94_create_all_or_nothing_refuted",
    "C94_create_keeps"
   ],
   "note": ""
  },
  {
   "property": "C95",
   "status": "proved",
   "theorems": [
    "C95_driver",
    "C95_other_types",
    "C95_stops"
   ],
   "note": ""
  },
  {
   "property": "C96",
   "status": "proved",
   "theorems": [
    "C96_steps_of_a_run",
    "C96_no_steps",
    "C96_parallel_same_files",
    "C96_parallel_results_qts",
    "C96_parallel_results_wts"
   ],
   "note": ""
  },
  {
   "property": "C97",
   "status": "proved",
   "theorems": [
    "C97_qts_wts",
    "C97_ws_wts",
    "C97_same_search",
    "C97_classes_nested",
    "C97_strict"
   ],
   "note": ""
  },
  {
   "property": "C98",
   "status": "proved",
   "theorems": [
    "C98_first_letter_q24",
    "C98_first_letter_q8",
    "C98_first_letter_listed",
    "C98_found_iff",
    "C98_symmetric_empty",
    "C98_find_pqs",
    "C98_find_williamson",
    "C98_unique_wts",
    "C98_unique_wts_refuted"
   ],
   "note": ""
  },
  {
   "property": "C99",
   "status": "proved",
   "theorems": [
    "C99_identities_amicable",
    "C99_matching_amicable",
    "C99_check_alone_refuted",
    "C99_rowsum_count",
    "C99_filter_then_reduce",
    "C99_negate_counts"
   ],
   "note": ""
  },
  {
   "property": "C100",
   "status": "proved",
   "theorems": [
    "C100_orbit_stabilizer",
    "C100_symmetry_count",
    "C100_class_size_divides"
   ],
   "note": ""
  },
  {
   "property": "C101",
   "status": "proved",
   "theorems": [
    "C101_couples_with_positions",
    "C101_two_graphs",
    "C101_both_halves",
    "C101_equals",
    "C101_equals_prefix_refuted",
    "C101_contains",
    "C101_iterator",
    "C101_set_values_extra",
    "C101_set_values_missing",
    "C101_new_matrix",
    "C101_column"
   ],
   "note": ""
  },
  {
   "property": "C102",
   "status": "proved",
   "theorems": [
    "C102_operator_text",
    "C102_operator_never_panics",
    "C102_measurement_text",
    "C102_unitary_text",
    "C102_size_not_printed_refuted",
    "C102_empty",
    "C102_new"
   ],
   "note": ""
  },
  {
   "property": "C103",
   "status": "proved",
   "theorems": [
    "C103_representatives",
    "C103_driver_refuted",
    "C103_equiv_refuted"
   ],
   "note": ""
  },
  {
   "property": "C104",
   "status": "proved",
   "theorems": [
    "C104_representatives_refuted",
    "C104_panic",
    "C104_equiv_refuted",
    "C104_join_refuted",
    "C104_driver_refuted"
   ],
   "note": ""
  },
  {
   "property": "C105",
   "status": "proved",
   "theorems": [
    "C105_representatives",
    "C105_representatives_odd",
    "C105_prefix_refuted",
    "C105_driver_refuted",
    "C105_equiv_refuted"
   ],
   "note": ""
  },
  {
   "property": "C106",
   "status": "proved",
   "theorems": [
    "C106_repeated_same_files",
    "C106_repeated_results_qts",
    "C106_repeated_results_wts",
    "C106_unrepeated_unnoticed",
    "C106_unrepeated_lost"
   ],
   "note": ""
  },
  {
   "property": "C107",
   "status": "proved",
   "theorems": [
    "C107_odd_row_sums",
    "C107_even_row_sums",
    "C107_odd_reachable",
    "C107_even_reachable",
    "C107_one_row_sum",
    "C107_results_add_up",
    "C107_even_refuted"
   ],
   "note": ""
  },
  {
   "property": "C108",
   "status": "proved",
   "theorems": [
    "C108_operation_same",
    "C108_operation_panics",
    "C108_class_of_member",
    "C108_symmetry_group",
    "C108_representatives",
    "C108_equiv",
    "C108_reduce_to_equivalence",
    "C108_driver_same",
    "C108_representatives_panic",
    "C108_panic",
    "C108_equiv_panics",
    "C108_join_panics",
    "C108_driver_panics",
    "C108_verify_right",
    "C108_verify_same",
    "C108_verify_accepts",
    "C108_verify_ones",
    "C108_verify_256_refuted"
   ],
   "note": ""
  },
  {
   "property": "C109",
   "status": "proved",
   "theorems": [
    "C109_values",
    "C109_driver_same",
    "C109_sortpairs_same",
    "C109_pairs_same",
    "C109_not_compiled",
    "C109_unset_refuted",
    "C109_words_refuted",
    "C109_words_recovered",
    "C109_directories"
   ],
   "note": ""
  },
  {
   "property": "C110",
   "status": "proved",
   "theorems": [
    "C110_enough_space",
    "C110_panics_iff",
    "C110_unnoticed_files",
    "C110_silent_loss_refuted"
   ],
   "note": ""
  },
  {
   "property": "C111",
   "status": "proved",
   "theorems": [
    "C111_options_qts",
    "C111_options_wts",
    "C111_pairings"
   ],
   "note": ""
  },
  {
   "property": "C112",
   "status": "proved",
   "theorems": [
    "C112_pairs_text"
   ],
   "note": ""
  },
  {
   "property": "C113",
   "status": "proved",
   "theorems": [
    "C113_join_text"
   ],
   "note": ""
  },
  {
   "property": "C114",
   "status": "proved",
   "theorems": [
    "C114_result_log",
    "C114_complete"
   ],
   "note": ""
  },
  {
   "property": "C115",
   "status": "proved",
   "theorems": [
    "C115_matches",
    "C115_all_lines",
    "C115_join",
    "C115_results_qts"
   ],
   "note": ""
  },
  {
   "property": "C116",
   "status": "proved",
   "theorems": [
    "C116_truncated",
    "C116_matches",
    "C116_join"
   ],
   "note": ""
  }
 ]
}