# What Print Assumptions lists

Generated by `tools/assumptions.py` from the built development, for every theorem named in `MANIFEST.json`.

## Closed under the global context


Theorems: `C01_ifit_all` (PropsTree), `C01_root_is_histogram` (PropsTree), `C02_children_partition` (PropsTree), `C03_terminates` (PropsTree), `C04_proper_tree` (PropsTree), `C05_returned_leaf` (PropsTree), `C06_leaves_pure` (PropsTree), `C07_leaves_persist` (PropsTree), `C08_categorize_read_only` (PropsTree), `C08_infer_read_only` (PropsQuery), `C09_only_path_changes` (PropsTree), `C101_fit_cat` (PropsRename), `C101_history` (PropsRename), `C101_infer` (PropsRename), `C101_standardized` (PropsRename), `C102_sanity` (PropsOrder), `C103_infer` (PropsNamesI), `C103_infer3` (PropsNamesI3), `C103_names` (PropsNames), `C103_names3` (PropsNames3), `C103_probability3` (PropsNamesI3), `C104_other_attributes_refuted` (PropsConstX), `C105_draws_only_break_ties` (PropsTies), `C105_no_tie_no_exception` (PropsTies), `C105_ties_do_not_depend_on_draws` (PropsTies), `C105_ties_need_draws` (PropsTiesX), `C105_trestle` (PropsTTies), `C105_trestle_ties` (PropsTTies), `C106_size` (PropsSize), `C106_size3` (PropsSize), `C106_size_trestle` (PropsTSize), `C108_any_fitted_recognised_refuted` (PropsRecallX), `C108_just_fitted_gaps_refuted` (PropsRecallX), `C110_ends` (PropsHill), `C110_flat_match` (PropsHill), `C110_locally_best` (PropsHill), `C110_moves_bounded` (PropsHill), `C17_infer_only_adds` (PropsQuery), `C18_orders_exist` (PropsQuery), `C19_accepted_calls` (PropsRaw), `C19_accepted_effect` (PropsRaw), `C19_infer_rejects` (PropsQuery), `C19_rejected_no_trace` (PropsTree), `C20_fitting_never_raises` (PropsTotal), `C20_ifit_returns` (PropsTotal), `C21_raise_leaves_tree` (PropsTotal), `C22_dead_objects_untouched` (PropsTree), `C22_gensym` (PropsTree), `C22_ids_never_reused` (PropsTree), `C23_depth` (PropsQuery), `C23_is_parent` (PropsQuery), `C23_num_concepts` (PropsQuery), `C24_fit3_adds` (PropsFit), `C24_fit_adds` (PropsFit), `C24_fit_is_calls` (Fit), `C24_fit_nothing` (Fit), `C24_fit_root` (PropsTree), `C24_fit_trestle` (PropsFit), `C25_clear3_like_new` (PropsC3), `C25_clear_like_new` (PropsTree), `C25_trestle_clear_like_new` (PropsTrestle), `C26_hidden_irrelevant` (PropsTree), `C31_counts_any_arithmetic` (PropsC3), `C36_nominal_leaves_numbers` (PropsC3), `C38_no_key_error` (PropsC3), `C38_scales_available` (PropsC3), `C38_scales_exact` (PropsC3), `C39_one_draw` (PropsUtils), `C41_degenerate_refuted` (PropsPre), `C41_leading_relation_refuted` (PropsPre), `C41_numeric_token_refuted` (PropsPre), `C41_tuplizer_round_trip` (PropsPre), `C42_component_relation_refuted` (PropsPre), `C42_plain_variable_refuted` (PropsPre), `C42_standardize` (PropsPre), `C42_undo_standardize` (PropsPre), `C43_empty_component_refuted` (PropsPre), `C43_flattener` (PropsPre), `C43_top_pair_refuted` (PropsPre), `C43_underscore_refuted` (PropsPre), `C44_hidden_component_refuted` (PropsPre), `C44_hidden_leaves` (PropsPre), `C45_one_way` (PropsPre2), `C45_pipeline` (PropsPre2), `C45_repeated_stage_refuted` (PropsPre2), `C46_list_attributes` (PropsLists2), `C46_named_values` (PropsLists2), `C47_bare_mention_refuted` (PropsPre2), `C47_constant_parent_refuted` (PropsPre2), `C47_cycle_refuted` (PropsPre2), `C47_own_relation_refuted` (PropsPre2), `C47_sub_components` (PropsPre2), `C48_initial_mapping` (PropsStruct), `C48_initial_mapping_refuted` (PropsStruct), `C48_last_attribute_wins` (PropsClash), `C48_never_merges` (PropsStruct), `C48_states` (PropsStruct), `C49_collision` (PropsStruct), `C49_rename_and_undo` (PropsStruct), `C49_succeeds` (PropsStruct), `C50_names_apart` (PropsTrestle), `C50_no_collision` (PropsTrestle), `C51_cluster_iter` (PropsCluster), `C51_cluster_returns` (PropsClusterT), `C51_least_split` (PropsCluster), `C51_split_search` (PropsCluster), `C52_k_cluster_fails` (PropsCluster), `C52_k_cluster_type_error` (PropsCluster), `C53_minsplit_yields_nothing` (PropsCluster), `C54_depth_labels` (PropsCluster), `C54_no_instances` (PropsCluster), `C55_scores_ask` (PropsEvalR), `C55_target_hidden` (PropsEvalR), `C55_target_hidden_cobweb3` (PropsEvalR), `C55_tests_before_training` (PropsEval), `C56_row_length` (PropsEval), `C57_loads_all` (PropsVis), `C57_loads_one_more` (PropsVis), `C57_num_instances_refuted` (PropsVis), `C58_labels` (PropsVis), `C58_no_leaves` (PropsVis), `C58_nodes_not_trimmed` (PropsVis), `C58_one_cut` (PropsVis), `C58_output_json` (PropsVis), `C59_fit_returns` (PropsDummy), `C59_histogram` (PropsDummy), `C59_plain_counted` (PropsDummy), `C60_no_number_left` (PropsPre2), `C60_nominal_keys` (PropsPre2), `C60_nominal_values` (PropsPre2), `C60_numeric` (PropsPre2), `C60_numeric_component_refuted` (PropsPre2), `C60_numeric_components` (PropsPre3), `C60_numeric_deep` (PropsPre3), `C60_sanitized` (PropsPre3), `C60_sanitized_all` (PropsPre3), `C60_sanitized_same` (PropsPre3), `C60_sanitized_twice` (PropsPre3), `C60_sanitizer` (PropsPre2), `C60_sanitizer_case_refuted` (PropsPre2), `C60_sanitizer_none_refuted` (PropsPre2), `C61_collision_refuted` (PropsPre2), `C61_relations_unchanged` (PropsPre2), `C61_stale_relation_refuted` (PropsPre2), `C62_accepted_calls` (PropsRaw), `C62_accepted_effect` (PropsRaw), `C62_categorize_read_only` (PropsC3), `C62_ids_never_reused` (PropsC3), `C62_only_path_changes` (PropsC3), `C62_proper_tree` (PropsC3), `C62_rejected_no_trace` (PropsC3), `C62_terminates` (PropsC3), `C64_cobweb3_extends_cobweb` (C3Nominal), `C66_apart_off` (C3Hidden), `C66_hidden_irrelevant` (C3Hidden), `C70_repeat_returns_same` (PropsClimb), `C70_single_concept` (PropsClimb), `C73_infer_only_adds` (PropsQ3I), `C73_infer_rejects` (PropsQ3I), `C75_counts` (PropsTrestle), `C75_mapped_instance` (PropsTrestle), `C75_proper_tree` (PropsTrestle), `C77_pipeline_undone` (PropsTrestleU), `C78_components_kept` (PropsTrestleK), `C78_infer_adds_to_mapped` (PropsTrestleI), `C78_keeps_given` (PropsTrestleK), `C78_keeps_given_flat` (PropsTrestleK), `C78_nothing_missing` (PropsTrestleU), `C79_evaluation_returns` (PropsEvalR), `C79_first_without_target` (PropsEvalR), `C81_maps_like_trestle` (PropsDummyM), `C81_numeric_probability_raises` (PropsDummy), `C82_counting_failure` (PropsDummy), `C82_preprocessing_failure` (PropsDummy), `C84_numeric_errors_raise` (PropsEval3), `C87_absent` (PropsMatch), `C87_contains` (PropsMatch), `C87_match_answers` (PropsMatch), `C87_match_complete` (PropsMatch), `C87_match_sound` (PropsMatch), `C87_repeated_variable_refuted` (PropsMatch), `C88_never_returns` (PropsRand), `C88_random_is_successor` (PropsRand), `C88_random_keeps_inv` (PropsRand), `C88_returns_refuted` (PropsRand), `C89_accepts` (PropsTrestleS), `C89_rejects` (PropsTrestleS), `C89_returned` (PropsTrestleS), `C91_cluster_iter` (PropsTCluster), `C91_depth_labels` (PropsTCluster), `C91_k_cluster_fails` (PropsTCluster), `C91_minsplit_yields_nothing` (PropsTCluster), `C93_get_mapping` (PropsStructTab), `C94_batch_refuted` (PropsBatch), `C94_batch_undone` (PropsBatch), `C94_flattener` (PropsBatch), `C94_last_undone` (PropsBatch), `C94_not_restored` (PropsBatch), `C94_pipeline_last` (PropsBatch), `C94_standardizer` (PropsBatch), `C94_sub_components` (PropsBatch), `C94_tuplizer` (PropsBatch), `C95_dict_initial` (PropsSearch), `C95_keys` (PropsSearch), `C95_never_unmatched` (PropsSearch), `C95_reachable` (PropsSearch), `C95_successors` (PropsSearch), `C95_unmatch_refuted` (PropsSearch), `C96_printed` (PropsPrint), `C96_read_back` (PropsPrint), `C96_text_determines_tree` (PropsPrintR), `C97_counts` (PropsCounts), `C97_counts3` (PropsCounts), `C97_strings` (PropsCounts), `C98_flat` (PropsDummyI), `C98_infer_adds_to_mapped` (PropsDummyI), `C98_read_only` (PropsDummyI), `C99_scores_only_ask` (PropsTEval), `C99_tests_before_training` (PropsTEval), `C99_unknown_names` (PropsTEval), `CU_reads` (ClusterCU), `climb_visits` (PropsStruct), `cycle_kept_refuted` (PropsLists), `empty_list_refuted` (PropsLists), `ex_C102` (PropsOrderX), `ex_C105` (PropsTiesX), `ex_C106` (PropsSizeX), `ex_C110_flat_match` (PropsHillR), `ex_C110_moves` (PropsHillR), `ex_C45` (PropsPre2), `ex_C47` (PropsPre2), `ex_C47_run` (PropsPre2), `ex_C49` (PropsStruct), `ex_C60` (PropsPre2), `ex_C60_numeric` (PropsPre2), `ex_C60_numeric_deep` (PropsPre3), `ex_C60_sanitized` (PropsPre3), `ex_C79` (PropsEvalR), `ex_C87` (PropsMatch), `ex_C93_get_mapping` (PropsStructTab), `ex_C94_batch_undone` (PropsBatch), `ex_C94_flattener` (PropsBatch), `ex_C94_not_restored` (PropsBatch), `ex_C94_pipeline` (PropsBatch), `ex_C94_sub_components` (PropsBatch), `ex_C95_dict_initial` (PropsSearch), `ex_C95_never_unmatched` (PropsSearch), `ex_C95_reachable` (PropsSearch), `ex_C95_successors` (PropsSearch), `ex_C96_repr` (PropsPrintX), `ex_flat_ok` (PropsPre), `ex_flat_run` (PropsPre), `ex_front_chain` (PropsLists), `ex_hidden_leaf` (PropsPre), `ex_last_attribute_wins` (PropsClash), `ex_list_attributes` (PropsLists2), `ex_list_backwards` (PropsLists), `ex_list_round_trip` (PropsLists), `ex_list_transform` (PropsLists), `ex_nested_lists` (PropsLists2), `ex_processable` (PropsLists), `ex_std_ok` (PropsPre), `ex_std_run` (PropsPre), `ex_tuplized` (PropsPre), `ex_tuplizer_run` (PropsPre), `extract_round_trip` (PropsLists), `hidden_list_refuted` (PropsLists), `id_oracle_ok` (PropsStruct), `list_processor_any_order` (PropsLists), `list_processor_removes_lists` (PropsLists), `list_processor_round_trip` (PropsLists), `no_order_refuted` (PropsLists), `number_list_refuted` (PropsLists), `pair_attribute_refuted` (PropsLists), `partial_order_garbage_refuted` (PropsLists), `partial_order_kept_refuted` (PropsLists), `relations_any_order` (ListOrd), `relations_of_nested_lists` (PropsLists2), `relations_round_trip` (ListRel), `repeated_element_refuted` (PropsLists), `std_undone` (PropsPre2), `tree_bounded` (PropsSize), `undo_extract_any_order` (ListOrd), `val_component_refuted` (PropsLists)

## 2 assumptions of the standard library

* `ClassicalDedekindReals.sig_forall_dec`
* `FunctionalExtensionality.functional_extensionality_dep`

Theorems: `C100_flat_match` (PropsHung), `C100_start_is_best` (PropsHung), `C39_intervals_tile` (PropsUtils), `best_oracle_best` (PropsHungX), `best_oracle_ok` (PropsHungX), `ex_C90_hits` (PropsQuad)

## 3 assumptions of the standard library

* `ClassicalDedekindReals.sig_forall_dec`
* `ClassicalDedekindReals.sig_not_dec`
* `FunctionalExtensionality.functional_extensionality_dep`

Theorems: `ex_number_guess_0` (PropsCU3)

## 4 assumptions of the standard library

* `ClassicalDedekindReals.sig_forall_dec`
* `ClassicalDedekindReals.sig_not_dec`
* `Classical_Prop.classic`
* `FunctionalExtensionality.functional_extensionality_dep`

Theorems: `C100_start_is_best_overall_refuted` (PropsHungX), `C102_order` (PropsOrder), `C102_order3` (PropsOrder3), `C102_probability` (PropsOrder), `C104_constant` (PropsConst), `C104_constant3` (PropsConst3), `C104_constant3_always` (PropsConst3), `C104_constant_always` (PropsConst), `C107_none_scores_as_missing` (PropsNone), `C108_cobweb3_nominal` (PropsRecall3), `C108_just_fitted_recognised` (PropsRecall), `C109_json_numbers` (PropsCVJson), `C109_json_root` (PropsCVJson), `C10_relative_score` (PropsScore), `C10_two_best` (PropsScore), `C10_two_best_effect` (PropsScore), `C110_mapping_ends` (PropsHillR), `C111_categorize` (PropsTLift), `C111_ecg_is_probability` (PropsTLift), `C111_ifit` (PropsTLift), `C111_leaf_instances` (PropsTLift), `C111_leaves_persist` (PropsTLift), `C111_root_summaries` (PropsTLift), `C11_best_operation` (PropsScore), `C11_choice_is_made` (PropsScore), `C11_every_tied_operation_can_win` (PropsScore), `C11_largest_draw_wins` (PropsScore), `C12_all_foretold` (PropsPredict), `C12_all_foretold3` (PropsPredict), `C12_fringe_split` (PropsScore), `C12_insert` (PropsScore), `C12_merge` (PropsScore), `C12_new_child` (PropsScore), `C12_split` (PropsScore), `C13_guesses_probability` (PropsScore), `C13_guesses_value` (PropsCU), `C14_utility_nonnegative` (PropsScore), `C14_utility_value` (PropsCU), `C15_probability_is_share` (PropsQuery), `C15_weights_are_distribution` (PropsQuery), `C15_weights_without_none` (PropsQuery), `C16_most_likely` (PropsQuery), `C16_never_none` (PropsQuery), `C16_other_names` (PropsQuery), `C16_returns` (PropsQuery), `C16_sampled` (PropsQuery), `C16_sampling_frequency` (PropsQuery), `C16_unknown_attribute` (PropsQuery), `C17_infer_returns` (PropsQuery), `C18_log_likelihood` (PropsQuery), `C27_update_batch` (PropsCV), `C27_updates_extend` (PropsCV), `C28_associative` (PropsCV), `C28_combine` (PropsCV), `C28_combine_empty` (PropsCV), `C28_commutative` (PropsCV), `C28_order` (PropsCV), `C29_biased_std` (PropsCV), `C29_biased_std_empty` (PropsCV), `C29_scaled` (PropsCV), `C29_unbiased_std` (PropsCV), `C29_unbiased_std_value` (PropsCV), `C30_c4_defined` (PropsCV), `C30_c4_gamma` (PropsCV), `C30_c4_monotone` (PropsCV), `C30_c4_raises` (PropsCV), `C31_children_combine` (PropsC3R), `C31_root_summaries` (PropsC3R), `C32_any_table` (PropsC3R), `C32_ecg_is_probability` (PropsC3R), `C32_numeric_share` (PropsC3R), `C33_numeric_probability` (PropsC3U), `C34_integral_of_data` (PropsCV), `C34_integral_range` (PropsCV), `C34_integral_symmetric` (PropsCV), `C35_leaf_instances` (PropsC3R), `C35_leaves_pure` (PropsC3R), `C37_units_do_not_matter` (PropsC3U), `C39_chosen` (PropsUtils), `C39_interval` (PropsUtils), `C39_raises` (PropsUtils), `C40_any_tied` (PropsUtils), `C40_maximal` (PropsUtils), `C40_raises` (PropsUtils), `C40_rejects` (PropsUtils), `C40_returns` (PropsUtils), `C51_cluster_returns_cobweb3` (PropsClusterT), `C63_fitting_never_raises` (PropsC3R), `C65_leaves_persist` (PropsC3R), `C65_returned_leaf` (PropsC3R), `C67_ifit_climbs` (PropsClimb), `C68_categorize_greedy` (PropsClimb), `C69_best_operation3` (PropsClimb), `C69_categorize_greedy3` (PropsClimb), `C69_ifit_climbs3` (PropsClimb), `C70_repeat_returns_same3` (PropsClimb), `C70_single_concept3` (PropsClimb), `C71_mean` (PropsQ3), `C71_std` (PropsQ3), `C72_most_likely` (PropsQ3), `C72_never_missing` (PropsQ3), `C72_probability_is_share` (PropsQ3), `C72_returns` (PropsQ3), `C72_sampled` (PropsQ3), `C72_sampling_frequency` (PropsQ3), `C72_weights_are_distribution` (PropsQ3), `C72_weights_without_missing` (PropsQ3), `C73_infer_returns` (PropsQ3), `C74_log_likelihood` (PropsLL), `C74_log_likelihood3` (PropsLL), `C74_log_likelihood3_nonpositive` (PropsLL), `C76_fitting_never_raises` (PropsTrestleR), `C79_evaluation_returns3` (PropsEval3), `C80_score_is_0_or_1` (PropsEvalR), `C83_error_scores` (PropsEval3), `C83_error_scores3` (PropsEval3), `C84_nominal_errors_return` (PropsEval3), `C84_numeric_errors_refuted` (PropsEval3), `C85_CU_value` (PropsCU), `C86_cluster_iter_returns` (PropsInfoT), `C86_cluster_iter_returns3` (PropsInfoT), `C86_criteria` (PropsInfo), `C86_criteria3` (PropsInfo), `C86_documented_k_refuted` (PropsInfoT), `C88_raises_refuted` (PropsRand), `C88_returns_mapped` (PropsRand), `C88_returns_unmapped` (PropsRand), `C90_animals` (PropsQuad), `C90_kinds` (PropsQuad), `C90_never_returns` (PropsQuad), `C90_returns` (PropsQuad), `C90_sizes` (PropsQuadS), `C90_sizes_reached` (PropsQuadS), `C90_tail` (PropsQuad), `C90_tail_refuted` (PropsQuad), `C90_trestle` (PropsQuad), `C91_cluster_returns` (PropsTCluster), `C91_quadrupeds` (PropsTCluster), `C92_CU_value` (PropsCU3), `C92_guesses_value` (PropsCU3), `C92_utility_value` (PropsCU3), `C93_instance_cost` (PropsStructTab), `C93_table_cost` (PropsStructTab), `C93_table_cost_refuted` (PropsStructTab), `C93_trestle` (PropsStructTab), `C95_matching_helps` (PropsSearchR), `C95_optimum_reachable` (PropsSearchR), `C95_stuck_refuted` (PropsSearchR), `C98_overall_average` (PropsDummyR), `C98_returns` (PropsDummyR), `C99_errors` (PropsTEvalE), `C99_evaluation_returns` (PropsTEvalR), `C99_probability_is_share` (PropsTEvalR), `counting_R` (PropsTotal), `ex_C102_3` (PropsOrder3), `ex_C103_infer` (PropsNamesX), `ex_C104` (PropsConstX), `ex_C104_3` (PropsConst3), `ex_C108` (PropsRecall), `ex_C108_3` (PropsRecall3), `ex_C109` (PropsCVJson), `ex_C110` (PropsHillR), `ex_C111` (PropsTLift), `ex_C12` (PropsPredict), `ex_C12_3` (PropsPredict), `ex_C27` (PropsCV), `ex_C28` (PropsCV), `ex_C29` (PropsCV), `ex_C30` (PropsCV), `ex_C31` (PropsC3E), `ex_C31_root` (PropsC3E), `ex_C34` (PropsCV), `ex_C37` (PropsC3E), `ex_C51_returns` (PropsClusterT), `ex_C67` (PropsClimb), `ex_C69` (PropsClimb), `ex_C70` (PropsClimb), `ex_C72` (PropsQ3), `ex_C74` (PropsLL), `ex_C76` (PropsTrestleR), `ex_C80` (PropsEvalR), `ex_C83` (PropsEval3), `ex_C84` (PropsEval3), `ex_C85` (PropsCU), `ex_C86` (PropsInfoT), `ex_C86_returns` (PropsInfoT), `ex_C88` (PropsRand), `ex_C90_animals` (PropsQuad), `ex_C90_kinds` (PropsQuad), `ex_C90_trestle` (PropsQuad), `ex_C91_quadrupeds` (PropsTCluster), `ex_C91_sorted` (PropsTCluster), `ex_C92` (PropsCU3), `ex_C93_instance` (PropsStructTab), `ex_C93_table` (PropsStructTab), `ex_C93_trestle` (PropsStructTab), `ex_C95_optimum` (PropsSearchR), `ex_C98_hyps` (PropsDummyR), `ex_C99_errors` (PropsTEvalE), `ex_C99_evaluation_returns` (PropsTEvalR), `ex_draws_distinct` (PropsTotal), `ex_guess_rate3` (PropsCU3), `ex_inner_concept` (PropsScore), `ex_never_raises` (PropsTotal), `ex_options` (PropsUtils), `ex_query_concept` (PropsQuery), `ex_raises` (PropsTotal), `rescaled_same` (TreeAff), `tr_inst_fits` (PropsTrestleR)

## 13 assumptions of the standard library

* `PrimFloat.add`
* `PrimFloat.div`
* `PrimFloat.eqb`
* `PrimFloat.float`
* `PrimFloat.ltb`
* `PrimFloat.mul`
* `PrimFloat.of_uint63`
* `PrimFloat.sqrt`
* `PrimFloat.sub`
* `PrimInt63.int`
* `PrimInt63.lor`
* `PrimInt63.lsl`
* `PrimInt63.sub`

Theorems: `C101_order_refuted` (PropsRenameX), `C101_set_order_refuted` (PropsRenameX), `C102_rounding_refuted` (PropsOrderX), `C103_hidden_refuted` (PropsNamesX), `C107_none_is_a_value_refuted` (PropsNoneX), `C21_raise_leaves_tree_refuted` (PropsRaise), `C36_reserved_alone_refuted` (PropsC3X), `C36_reserved_string_refuted` (PropsC3X), `C37_categorize_units_refuted` (PropsC3X), `C52_k_cluster_refuted` (PropsClusterX), `C53_minsplit_refuted` (PropsClusterX), `C56_run_length_refuted` (PropsEvalX), `C58_nodes_refuted` (PropsVisX), `C66_hidden_scale_refuted` (PropsC3X), `C70_one_leaf_per_instance_refuted` (PropsClimbX), `C77_nested_relation_refuted` (PropsTrestleX), `C78_infer_adds_refuted` (PropsTrestleX), `C78_owner_moved_refuted` (PropsTrestleY), `C79_evaluation_returns_refuted` (PropsEvalX), `C81_mapping_refuted` (PropsDummyX), `C81_probability_refuted` (PropsDummyX), `C82_failed_fit_refuted` (PropsDummyX), `C96_cobweb3_text_refuted` (PropsPrintX), `C96_cobweb3_values_refuted` (PropsPrintX), `C97_same_text_refuted` (PropsPrintX), `C98_collision_refuted` (PropsDummyX), `C98_numbers_refuted` (PropsDummyX), `C99_names_matter_refuted` (PropsTEvalX), `C99_relation_scores_refuted` (PropsTEvalX), `ex3_good` (PropsC3X), `ex3_reachable` (PropsC3X), `ex3_results` (PropsC3X), `ex3_root` (PropsC3X), `ex3_scales` (PropsC3X), `ex_C101` (PropsRenameX), `ex_C101_fit` (PropsRenameX), `ex_C103` (PropsNamesX), `ex_C103_3` (PropsNamesX), `ex_C105_trestle` (PropsTTies), `ex_C106_trestle` (PropsTSize), `ex_C107_evaluation_raises` (PropsNoneX), `ex_C107_other_value` (PropsNoneX), `ex_C19_accepted` (PropsRawX), `ex_C24_fit3` (PropsFitX), `ex_C24_fit_adds` (PropsFitX), `ex_C24_stops` (PropsFitX), `ex_C24_trestle` (PropsFitX), `ex_C25_trestle` (PropsTrestleX), `ex_C49_undo_first` (PropsTrestleX), `ex_C50` (PropsTrestleX), `ex_C50_run` (PropsTrestleX), `ex_C51` (PropsClusterX), `ex_C51_run` (PropsClusterX), `ex_C51_sorted` (PropsClusterX), `ex_C54` (PropsClusterX), `ex_C55` (PropsEvalX), `ex_C58_labels` (PropsVisX), `ex_C58_nodes` (PropsVisX), `ex_C58_one_cut` (PropsVisX), `ex_C58_two_cuts` (PropsVisX), `ex_C58_whole` (PropsVisX), `ex_C59` (PropsDummyX), `ex_C59_mapping` (PropsDummyX), `ex_C62_accepted` (PropsRawX), `ex_C64` (PropsC3X), `ex_C66` (PropsC3X), `ex_C75` (PropsTrestleX), `ex_C75_history` (PropsTrestleX), `ex_C77` (PropsTrestleX), `ex_C77_back` (PropsTrestleX), `ex_C77_there` (PropsTrestleX), `ex_C77_there_value` (PropsTrestleX), `ex_C78_components_kept` (PropsTrestleY), `ex_C78_keeps_flat` (PropsTrestleY), `ex_C78_keeps_given` (PropsTrestleY), `ex_C78_mapping` (PropsTrestleX), `ex_C78_nothing_missing` (PropsTrestleX), `ex_C81_maps_like_trestle` (PropsDummyX), `ex_C89` (PropsTrestleS), `ex_C89_component` (PropsTrestleS), `ex_C96_hyps` (PropsPrintX), `ex_C96_text` (PropsPrintX), `ex_C97_hyps` (PropsPrintX), `ex_C97_hyps3` (PropsPrintX), `ex_C98_flat` (PropsDummyX), `ex_C99_tests_before_training` (PropsTEvalX), `ex_C99_unknown_names` (PropsTEvalX), `ex_good` (Example), `ex_ok` (Example), `ex_reachable` (Example), `ex_te_rows` (PropsTEvalX), `ex_te_scores` (PropsTEvalX), `tx_nest_obj` (PropsTrestleX)

## 14 assumptions of the standard library

* `PrimFloat.add`
* `PrimFloat.div`
* `PrimFloat.eqb`
* `PrimFloat.float`
* `PrimFloat.ltb`
* `PrimFloat.mul`
* `PrimFloat.of_uint63`
* `PrimFloat.opp`
* `PrimFloat.sqrt`
* `PrimFloat.sub`
* `PrimInt63.int`
* `PrimInt63.lor`
* `PrimInt63.lsl`
* `PrimInt63.sub`

Theorems: `C85_clustered_instances_refuted` (PropsClusterX)

## 17 assumptions of the standard library

* `ClassicalDedekindReals.sig_forall_dec`
* `ClassicalDedekindReals.sig_not_dec`
* `Classical_Prop.classic`
* `FunctionalExtensionality.functional_extensionality_dep`
* `PrimFloat.add`
* `PrimFloat.div`
* `PrimFloat.eqb`
* `PrimFloat.float`
* `PrimFloat.ltb`
* `PrimFloat.mul`
* `PrimFloat.of_uint63`
* `PrimFloat.sqrt`
* `PrimFloat.sub`
* `PrimInt63.int`
* `PrimInt63.lor`
* `PrimInt63.lsl`
* `PrimInt63.sub`

Theorems: `ex_C103_infer3` (PropsNamesX)
