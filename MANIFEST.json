{
 "claims": [
  {
   "property": "C01",
   "status": "proved",
   "theorems": [
    "C01_root_is_histogram",
    "C01_ifit_all",
    "ex_reachable",
    "ex_good",
    "ex_ok"
   ],
   "note": "Any arithmetic, any random draws, histories mixing ifit, categorize, clear."
  },
  {
   "property": "C02",
   "status": "proved",
   "theorems": [
    "C02_children_partition",
    "ex_reachable",
    "ex_good",
    "ex_ok"
   ],
   "note": "At every concept of every tree reached by ifit calls that return."
  },
  {
   "property": "C03",
   "status": "proved",
   "theorems": [
    "C03_terminates",
    "ex_reachable",
    "ex_good",
    "ex_ok"
   ],
   "note": "The loop bound is the number of concepts; larger bounds give the same result."
  },
  {
   "property": "C04",
   "status": "proved",
   "theorems": [
    "C04_proper_tree",
    "ex_reachable",
    "ex_good",
    "ex_ok"
   ],
   "note": "Also after calls that raised."
  },
  {
   "property": "C05",
   "status": "proved",
   "theorems": [
    "C05_returned_leaf",
    "ex_reachable",
    "ex_good",
    "ex_ok"
   ],
   "note": "Stated on the table: each visible value of i has the full count. Also after calls that raised."
  },
  {
   "property": "C06",
   "status": "proved",
   "theorems": [
    "C06_leaves_pure",
    "ex_reachable",
    "ex_good",
    "ex_ok"
   ],
   "note": "Also after calls that raised."
  },
  {
   "property": "C07",
   "status": "proved",
   "theorems": [
    "C07_leaves_persist",
    "ex_reachable",
    "ex_good",
    "ex_ok"
   ],
   "note": "Through any later run without clear, including calls that raise."
  },
  {
   "property": "C08",
   "status": "proved",
   "theorems": [
    "C08_categorize_read_only",
    "C08_infer_read_only",
    "ex_reachable",
    "ex_good",
    "ex_ok"
   ],
   "note": "Any arithmetic, any random stream, also when the call raises."
  },
  {
   "property": "C09",
   "status": "proved",
   "theorems": [
    "C09_only_path_changes",
    "ex_reachable",
    "ex_good",
    "ex_ok"
   ],
   "note": ""
  },
  {
   "property": "C10",
   "status": "proved",
   "theorems": [
    "C10_relative_score",
    "C10_two_best",
    "C10_two_best_effect",
    "C11_choice_is_made",
    "ex_inner_concept"
   ],
   "note": "CobwebTree over exact reals, every reachable tree and random stream; C11_choice_is_made shows the success hypotheses hold for visible instances and distinct draws."
  },
  {
   "property": "C11",
   "status": "proved",
   "theorems": [
    "C11_best_operation",
    "C11_largest_draw_wins",
    "C11_every_tied_operation_can_win",
    "C11_choice_is_made",
    "ex_inner_concept"
   ],
   "note": "Optimality is stated by effect: performing the chosen operation gives category_utility u and performing any other open operation gives at most u."
  },
  {
   "property": "C12",
   "status": "proved",
   "theorems": [
    "C12_insert",
    "C12_new_child",
    "C12_merge",
    "C12_split",
    "C12_fringe_split",
    "C12_all_foretold",
    "C12_all_foretold3",
    "ex_C12",
    "ex_C12_3"
   ],
   "note": "Every reachable CobwebTree over exact reals: a prediction that returns is right. C12_all_foretold(3): it does return, in CobwebTree and Cobweb3Tree."
  },
  {
   "property": "C13",
   "status": "proved",
   "theorems": [
    "C13_guesses_probability",
    "ex_inner_concept",
    "C13_guesses_value"
   ],
   "note": "Every concept with count > 0 of a tree fitted with instances that have a visible attribute. C13_guesses_value: the value itself, as a formula over the instances."
  },
  {
   "property": "C14",
   "status": "proved",
   "theorems": [
    "C14_utility_nonnegative",
    "ex_inner_concept",
    "C14_utility_value"
   ],
   "note": "Proved with the strict upper bound 1/n. C14_utility_value: the value itself, as a formula over the instances."
  },
  {
   "property": "C15",
   "status": "proved",
   "theorems": [
    "C15_probability_is_share",
    "C15_weights_are_distribution",
    "C15_weights_without_none",
    "ex_query_concept"
   ],
   "note": "CobwebTree over exact reals; identifies each probability with a share of the instances the concept stands for."
  },
  {
   "property": "C16",
   "status": "proved",
   "theorems": [
    "C16_most_likely",
    "C16_sampled",
    "C16_sampling_frequency",
    "C16_never_none",
    "C16_unknown_attribute",
    "C16_returns",
    "C16_other_names",
    "ex_query_concept"
   ],
   "note": "Includes when predict returns at all, and that sampled draws hit a value with its probability."
  },
  {
   "property": "C17",
   "status": "proved",
   "theorems": [
    "C17_infer_only_adds",
    "C17_infer_returns",
    "ex_query_concept"
   ],
   "note": "First theorem for any arithmetic, also when the call raises. Instances are values in the model, so the input dict cannot change; the code copies it at cobweb.py:246."
  },
  {
   "property": "C18",
   "status": "proved",
   "theorems": [
    "C18_log_likelihood",
    "C18_orders_exist",
    "ex_query_concept"
   ],
   "note": "For every order in which Python may visit the two sets."
  },
  {
   "property": "C19",
   "status": "proved",
   "theorems": [
    "C19_rejected_no_trace",
    "C19_infer_rejects",
    "C19_accepted_calls",
    "C19_accepted_effect",
    "ex_C19_accepted"
   ],
   "note": "ifit, categorize and infer_missing, any state."
  },
  {
   "property": "C20",
   "status": "proved",
   "theorems": [
    "C20_fitting_never_raises",
    "C20_ifit_returns",
    "counting_R",
    "ex_draws_distinct",
    "ex_never_raises"
   ],
   "note": "Any number system where 0 == 0 and positive counts are not 0."
  },
  {
   "property": "C21",
   "status": "proved",
   "theorems": [
    "C21_raise_leaves_tree",
    "C21_raise_leaves_tree_refuted",
    "ex_raises"
   ],
   "note": "Proved when no two random draws coincide; refuted (TypeError half-way down, over floats) when draws may coincide."
  },
  {
   "property": "C22",
   "status": "proved",
   "theorems": [
    "C22_ids_never_reused",
    "C22_gensym",
    "C22_dead_objects_untouched",
    "ex_reachable",
    "ex_good",
    "ex_ok"
   ],
   "note": ""
  },
  {
   "property": "C23",
   "status": "proved",
   "theorems": [
    "C23_depth",
    "C23_is_parent",
    "C23_num_concepts",
    "ex_reachable",
    "ex_good",
    "ex_ok"
   ],
   "note": "Any arithmetic; num_concepts for every concept, not only the root."
  },
  {
   "property": "C24",
   "status": "proved",
   "theorems": [
    "C24_fit_root",
    "C24_fit_is_calls",
    "C24_fit_nothing",
    "C24_fit_adds",
    "C24_fit3_adds",
    "C24_fit_trestle",
    "ex_C24_fit_adds",
    "ex_C24_fit3",
    "ex_C24_stops",
    "ex_C24_trestle"
   ],
   "note": "shuffle is an arbitrary permutation. fit_any (Fit.v) is fit over any ifit, as the subclasses inherit it; fit_is_fit_any ties it to the model of Nominal.v."
  },
  {
   "property": "C25",
   "status": "proved",
   "theorems": [
    "C25_clear_like_new",
    "C25_clear3_like_new",
    "C25_trestle_clear_like_new",
    "ex_C25_trestle"
   ],
   "note": "For CobwebTree, Cobweb3Tree and TrestleTree: answers and view of every later list of calls are those of a new object created at the same point."
  },
  {
   "property": "C26",
   "status": "proved",
   "theorems": [
    "C26_hidden_irrelevant",
    "ex_reachable",
    "ex_good",
    "ex_ok"
   ],
   "note": "Instances agree on visible attributes including their order in the dict, so the result holds for floating point."
  },
  {
   "property": "C27",
   "status": "proved",
   "theorems": [
    "C27_update_batch",
    "C27_updates_extend",
    "ex_C27"
   ],
   "note": "Exact arithmetic (Coq reals)."
  },
  {
   "property": "C28",
   "status": "proved",
   "theorems": [
    "C28_combine",
    "C28_combine_empty",
    "C28_commutative",
    "C28_associative",
    "C28_order",
    "ex_C28"
   ],
   "note": "Commutativity and associativity for arbitrary summaries, not only those of data."
  },
  {
   "property": "C29",
   "status": "proved",
   "theorems": [
    "C29_biased_std",
    "C29_biased_std_empty",
    "C29_unbiased_std",
    "C29_unbiased_std_value",
    "C29_scaled",
    "ex_C29"
   ],
   "note": "Exact arithmetic."
  },
  {
   "property": "C30",
   "status": "proved",
   "theorems": [
    "C30_c4_defined",
    "C30_c4_raises",
    "C30_c4_monotone",
    "C30_c4_gamma",
    "ex_C30"
   ],
   "note": "Gamma at half integers is characterised by Gamma(1/2), Gamma(1) and the recurrence; the table entries are read as exact decimals (their float rounding is not modelled)."
  },
  {
   "property": "C31",
   "status": "proved",
   "theorems": [
    "C31_root_summaries",
    "C31_children_combine",
    "C31_counts_any_arithmetic",
    "ex_C31",
    "ex_C31_root"
   ],
   "note": "Exact arithmetic for mean and spread; counts and number of values for every number system."
  },
  {
   "property": "C32",
   "status": "proved",
   "theorems": [
    "C32_ecg_is_probability",
    "C32_any_table",
    "C32_numeric_share",
    "ex_C31"
   ],
   "note": "Reachable concepts, and any table summarising a list of instances."
  },
  {
   "property": "C33",
   "status": "proved",
   "theorems": [
    "C33_numeric_probability",
    "ex_C31"
   ],
   "note": "Also: strictly positive, decreasing with the distance from the mean."
  },
  {
   "property": "C34",
   "status": "proved",
   "theorems": [
    "C34_integral_symmetric",
    "C34_integral_range",
    "C34_integral_of_data",
    "ex_C34"
   ],
   "note": "Exact arithmetic; value 1 exactly for zero spread and equal means."
  },
  {
   "property": "C35",
   "status": "proved",
   "theorems": [
    "C35_leaves_pure",
    "C35_leaf_instances",
    "ex_C31"
   ],
   "note": ""
  },
  {
   "property": "C36",
   "status": "proved",
   "theorems": [
    "C36_nominal_leaves_numbers",
    "C36_reserved_string_refuted",
    "C36_reserved_alone_refuted",
    "ex3_reachable",
    "ex3_good",
    "ex3_root"
   ],
   "note": "Holds for instances avoiding the reserved string; refuted (raises) for the reserved string."
  },
  {
   "property": "C37",
   "status": "proved",
   "theorems": [
    "C37_units_do_not_matter",
    "C37_categorize_units_refuted",
    "ex_C37"
   ],
   "note": "Whole-run statement: results, shapes, ids, tables up to units, expected correct guesses. The refutation (floats) shows the proviso on categorize is needed."
  },
  {
   "property": "C38",
   "status": "proved",
   "theorems": [
    "C38_scales_exact",
    "C38_scales_available",
    "C38_no_key_error",
    "ex3_scales",
    "ex3_root"
   ],
   "note": "Any number system."
  },
  {
   "property": "C39",
   "status": "proved",
   "theorems": [
    "C39_interval",
    "C39_chosen",
    "C39_intervals_tile",
    "C39_raises",
    "C39_one_draw",
    "ex_options"
   ],
   "note": "Exact reals."
  },
  {
   "property": "C40",
   "status": "proved",
   "theorems": [
    "C40_maximal",
    "C40_raises",
    "C40_rejects",
    "C40_returns",
    "C40_any_tied",
    "ex_options"
   ],
   "note": "Exact reals."
  },
  {
   "property": "C41",
   "status": "proved",
   "theorems": [
    "C41_tuplizer_round_trip",
    "C41_numeric_token_refuted",
    "C41_leading_relation_refuted",
    "C41_degenerate_refuted",
    "ex_tuplized",
    "ex_tuplizer_run"
   ],
   "note": "Round trip for all instances whose relation strings are canonical, for any float(); the general claim is refuted by witnesses."
  },
  {
   "property": "C42",
   "status": "proved",
   "theorems": [
    "C42_standardize",
    "C42_undo_standardize",
    "C42_plain_variable_refuted",
    "C42_component_relation_refuted",
    "ex_std_ok",
    "ex_std_run"
   ],
   "note": "For any nesting, any str() and any set order. Undo is up to the order of dictionary items (Python ==). General undo refuted by witnesses."
  },
  {
   "property": "C43",
   "status": "proved",
   "theorems": [
    "C43_flattener",
    "C43_empty_component_refuted",
    "C43_underscore_refuted",
    "C43_top_pair_refuted",
    "ex_flat_ok",
    "ex_flat_run"
   ],
   "note": "Exact round trip and injective naming; without the restrictions refuted by witnesses."
  },
  {
   "property": "C44",
   "status": "proved",
   "theorems": [
    "C44_hidden_component_refuted",
    "C44_hidden_leaves",
    "ex_hidden_leaf"
   ],
   "note": "The claim is refuted; proved instead: a flattened attribute is hidden exactly when its own (last) name is."
  },
  {
   "property": "C45",
   "status": "proved",
   "theorems": [
    "C45_pipeline",
    "C45_one_way",
    "C45_repeated_stage_refuted",
    "std_undone",
    "ex_C45"
   ],
   "note": "Proved for pipelines of distinct objects; refuted when one stateful object occurs twice."
  },
  {
   "property": "C46",
   "status": "proved",
   "theorems": [
    "extract_round_trip",
    "relations_round_trip",
    "list_processor_round_trip",
    "list_processor_any_order",
    "relations_any_order",
    "undo_extract_any_order",
    "list_processor_removes_lists",
    "ex_processable",
    "ex_list_round_trip",
    "ex_list_transform",
    "empty_list_refuted",
    "val_component_refuted",
    "hidden_list_refuted",
    "partial_order_kept_refuted",
    "partial_order_garbage_refuted",
    "no_order_refuted",
    "cycle_kept_refuted",
    "number_list_refuted",
    "repeated_element_refuted",
    "pair_attribute_refuted",
    "ex_list_backwards",
    "ex_front_chain",
    "relations_of_nested_lists",
    "ex_nested_lists",
    "C46_list_attributes",
    "ex_list_attributes",
    "C46_named_values"
   ],
   "note": "Round trip of both preprocessors and of their pipeline for all nestings in the class (processable), for any generator state. Outside the class the witnesses show what goes wrong; the documented behaviour for partial orders and cycles (relations left in place) is violated. The way back works for any order of the attributes of the transformed instance. C46_list_attributes: the exact result for one list at the top level, also with elements that are not strings."
  },
  {
   "property": "C47",
   "status": "proved",
   "theorems": [
    "C47_sub_components",
    "C47_constant_parent_refuted",
    "C47_bare_mention_refuted",
    "C47_own_relation_refuted",
    "C47_cycle_refuted",
    "ex_C47",
    "ex_C47_run"
   ],
   "note": "The refuted theorems are what lies outside the stated class of instances."
  },
  {
   "property": "C48",
   "status": "proved",
   "theorems": [
    "C48_never_merges",
    "C48_states",
    "climb_visits",
    "C48_initial_mapping",
    "C48_initial_mapping_refuted",
    "id_oracle_ok",
    "ex_C49",
    "C48_last_attribute_wins",
    "ex_last_attribute_wins"
   ],
   "note": "For any cost function, any complete assignment of the solver, any trajectory of the search. With a caller-supplied initial_mapping it holds for injective ones and is refuted otherwise. C48_last_attribute_wins: for any mapping, also one that merges components, rename_flat keeps the last attribute's value under each name."
  },
  {
   "property": "C49",
   "status": "proved",
   "theorems": [
    "C49_rename_and_undo",
    "C49_succeeds",
    "C49_collision",
    "ex_C49",
    "ex_C49_undo_first"
   ],
   "note": ""
  },
  {
   "property": "C50",
   "status": "proved",
   "theorems": [
    "C50_names_apart",
    "C50_no_collision",
    "ex_C50_run",
    "ex_C50"
   ],
   "note": "Any arithmetic. Assumes that iterating over a set visits its elements and that normalvariate only moves the random generator on."
  },
  {
   "property": "C51",
   "status": "proved",
   "theorems": [
    "C51_cluster_iter",
    "C51_least_split",
    "C51_split_search",
    "CU_reads",
    "C51_cluster_returns",
    "C51_cluster_returns_cobweb3",
    "ex_C51_sorted",
    "ex_C51_run",
    "ex_C51",
    "ex_C51_returns"
   ],
   "note": "Any node class, arithmetic, random stream, enumeration order of sets, and heuristic that only reads the tree (CU does: CU_reads). Labels are concepts directly below the root of the copy at the time of the yield; in the tree as it was before the splits they are an antichain of concepts covering the leaves, and each next labeling replaces one concept by its children. C51_cluster_returns: with CU, cluster does not raise (Cobweb: any arithmetic in which counts are not 0; Cobweb/3: exact arithmetic; distinct random draws)."
  },
  {
   "property": "C52",
   "status": "proved",
   "theorems": [
    "C52_k_cluster_refuted",
    "C52_k_cluster_fails",
    "C52_k_cluster_type_error"
   ],
   "note": "The code violates the claim: k_cluster never returns."
  },
  {
   "property": "C53",
   "status": "proved",
   "theorems": [
    "C53_minsplit_refuted",
    "C53_minsplit_yields_nothing"
   ],
   "note": "The code violates the claim for every minsplit > 1."
  },
  {
   "property": "C54",
   "status": "proved",
   "theorems": [
    "C54_depth_labels",
    "C54_no_instances",
    "ex_C54"
   ],
   "note": "Any node class and arithmetic."
  },
  {
   "property": "C55",
   "status": "proved",
   "theorems": [
    "C55_tests_before_training",
    "C55_target_hidden",
    "C55_target_hidden_cobweb3",
    "C55_scores_ask",
    "ex_C55"
   ],
   "note": "Any node class, arithmetic, score that only asks the tree, shuffle and run length. TrestleTree and component values are not modelled."
  },
  {
   "property": "C56",
   "status": "proved",
   "theorems": [
    "C56_run_length_refuted",
    "C56_row_length"
   ],
   "note": "The code violates the claim: a row has min(run_length + 2, number of instances) entries."
  },
  {
   "property": "C57",
   "status": "proved",
   "theorems": [
    "C57_num_instances_refuted",
    "C57_loads_one_more",
    "C57_loads_all"
   ],
   "note": "The code violates the claim: n + 1 instances are loaded (if the file has them). json.loads of a stripped line is a parameter; a negative n is covered by the model only."
  },
  {
   "property": "C58",
   "status": "proved",
   "theorems": [
    "C58_labels",
    "C58_nodes_refuted",
    "C58_nodes_not_trimmed",
    "C58_output_json",
    "C58_no_leaves",
    "C58_one_cut",
    "ex_C58_whole",
    "ex_C58_one_cut",
    "ex_C58_two_cuts",
    "ex_C58_labels",
    "ex_C58_nodes"
   ],
   "note": "Any node class and arithmetic. With labels the claim holds; with nodes the code violates it: nothing is trimmed. The printing of the tables as JSON and the writing of files are not modelled."
  },
  {
   "property": "C59",
   "status": "proved",
   "theorems": [
    "C59_histogram",
    "C59_fit_returns",
    "C59_plain_counted",
    "ex_C59",
    "ex_C59_mapping"
   ],
   "note": "Any arithmetic, both modes of ifit, any answers of the searches. The histogram is of the instances after preprocessing; without mapping an instance without components is counted as it is."
  },
  {
   "property": "C60",
   "status": "proved",
   "theorems": [
    "C60_no_number_left",
    "C60_nominal_values",
    "C60_nominal_keys",
    "C60_numeric",
    "C60_numeric_deep",
    "C60_numeric_components",
    "C60_numeric_component_refuted",
    "C60_sanitizer",
    "C60_sanitizer_none_refuted",
    "C60_sanitizer_case_refuted",
    "C60_sanitized",
    "C60_sanitized_all",
    "C60_sanitized_same",
    "C60_sanitized_twice",
    "ex_C60",
    "ex_C60_numeric",
    "ex_C60_numeric_deep",
    "ex_C60_sanitized"
   ],
   "note": "The sanitizer statement for 'cobweb' holds when no attribute is empty and no value is None, and is refuted for None."
  },
  {
   "property": "C61",
   "status": "proved",
   "theorems": [
    "C61_stale_relation_refuted",
    "C61_collision_refuted",
    "C61_relations_unchanged"
   ],
   "note": "The code violates the claim; refuted, and what it does instead is proved."
  },
  {
   "property": "C62",
   "status": "proved",
   "theorems": [
    "C62_terminates",
    "C62_proper_tree",
    "C62_categorize_read_only",
    "C62_only_path_changes",
    "C62_ids_never_reused",
    "C62_rejected_no_trace",
    "ex3_reachable",
    "ex3_results",
    "ex3_good",
    "C62_accepted_calls",
    "C62_accepted_effect",
    "ex_C62_accepted"
   ],
   "note": "Any number system."
  },
  {
   "property": "C63",
   "status": "proved",
   "theorems": [
    "C63_fitting_never_raises",
    "ex_C31"
   ],
   "note": "Exact arithmetic; draws pairwise distinct."
  },
  {
   "property": "C64",
   "status": "proved",
   "theorems": [
    "C64_cobweb3_extends_cobweb",
    "ex_C64"
   ],
   "note": "Any number system."
  },
  {
   "property": "C65",
   "status": "proved",
   "theorems": [
    "C65_returned_leaf",
    "C65_leaves_persist",
    "ex_C31"
   ],
   "note": ""
  },
  {
   "property": "C66",
   "status": "proved",
   "theorems": [
    "C66_hidden_irrelevant",
    "C66_apart_off",
    "C66_hidden_scale_refuted",
    "ex_C66"
   ],
   "note": "Any number system. The refutation shows the proviso is needed."
  },
  {
   "property": "C67",
   "status": "proved",
   "theorems": [
    "C67_ifit_climbs",
    "ex_C67"
   ],
   "note": "Over the reals, for every reachable tree of nominal instances."
  },
  {
   "property": "C68",
   "status": "proved",
   "theorems": [
    "C68_categorize_greedy",
    "ex_C67"
   ],
   "note": "Over the reals."
  },
  {
   "property": "C69",
   "status": "proved",
   "theorems": [
    "C69_ifit_climbs3",
    "C69_categorize_greedy3",
    "C69_best_operation3",
    "ex_C69"
   ],
   "note": "Over the reals."
  },
  {
   "property": "C70",
   "status": "proved",
   "theorems": [
    "C70_single_concept",
    "C70_repeat_returns_same",
    "C70_single_concept3",
    "C70_repeat_returns_same3",
    "C70_one_leaf_per_instance_refuted",
    "ex_C70"
   ],
   "note": "The single-concept part is proved for any arithmetic (nominal) and the reals (Cobweb/3); the general uniqueness of leaves is refuted on IEEE floats."
  },
  {
   "property": "C71",
   "status": "proved",
   "theorems": [
    "C71_mean",
    "C71_std"
   ],
   "note": "Exact arithmetic (ROps)."
  },
  {
   "property": "C72",
   "status": "proved",
   "theorems": [
    "C72_probability_is_share",
    "C72_weights_are_distribution",
    "C72_weights_without_missing",
    "C72_most_likely",
    "C72_sampled",
    "C72_sampling_frequency",
    "C72_never_missing",
    "C72_returns",
    "ex_C72"
   ],
   "note": "Exact arithmetic. normalvariate is an arbitrary function of its arguments and the stream."
  },
  {
   "property": "C73",
   "status": "proved",
   "theorems": [
    "C73_infer_only_adds",
    "C73_infer_rejects",
    "C73_infer_returns",
    "ex_C72"
   ],
   "note": "The first two hold for any arithmetic."
  },
  {
   "property": "C74",
   "status": "proved",
   "theorems": [
    "C74_log_likelihood",
    "C74_log_likelihood3",
    "C74_log_likelihood3_nonpositive",
    "ex_query_concept",
    "ex_C74"
   ],
   "note": "Exact arithmetic; the two Python sets are enumerated in any order."
  },
  {
   "property": "C75",
   "status": "proved",
   "theorems": [
    "C75_mapped_instance",
    "C75_proper_tree",
    "C75_counts",
    "ex_C75",
    "ex_C75_history"
   ],
   "note": "Instances avoid the reserved string #ContinuousValue#."
  },
  {
   "property": "C76",
   "status": "proved",
   "theorems": [
    "C76_fitting_never_raises",
    "tr_inst_fits",
    "ex_C76"
   ],
   "note": "Exact arithmetic; recursion limit of rename/undo not involved in fitting."
  },
  {
   "property": "C77",
   "status": "proved",
   "theorems": [
    "C77_pipeline_undone",
    "C77_nested_relation_refuted",
    "tx_nest_obj",
    "ex_C77_there",
    "ex_C77_back",
    "ex_C77",
    "ex_C77_there_value"
   ],
   "note": "Any arithmetic. t_obj (PreObj.v) is the class of instances; C77_nested_relation_refuted shows that its condition on relations is needed. Binary tuples, numbers and lists as attributes or values are outside t_obj."
  },
  {
   "property": "C78",
   "status": "proved",
   "theorems": [
    "C78_infer_adds_to_mapped",
    "C78_components_kept",
    "ex_C78_components_kept",
    "C78_keeps_given",
    "ex_C78_keeps_given",
    "C78_keeps_given_flat",
    "ex_C78_keeps_flat",
    "C78_nothing_missing",
    "ex_C78_nothing_missing",
    "C78_infer_adds_refuted",
    "ex_C78_mapping",
    "C78_owner_moved_refuted"
   ],
   "note": "That everything given is kept is refuted without the conditions on names and owners. The instances are t_obj: components with string attributes and plain values, relations at the top whose elements are strings."
  },
  {
   "property": "C79",
   "status": "proved",
   "theorems": [
    "C79_evaluation_returns",
    "C79_evaluation_returns3",
    "C79_first_without_target",
    "C79_evaluation_returns_refuted",
    "ex_C79"
   ],
   "note": "CobwebTree: arithmetic in which counts are not 0; Cobweb3Tree: exact arithmetic, and the scores are between 0 and 1; distinct random draws. The refutation shows that the hypothesis on the first instance is needed."
  },
  {
   "property": "C80",
   "status": "proved",
   "theorems": [
    "C80_score_is_0_or_1",
    "ex_C80"
   ],
   "note": "CobwebTree, exact arithmetic."
  },
  {
   "property": "C81",
   "status": "proved",
   "theorems": [
    "C81_probability_refuted",
    "C81_mapping_refuted",
    "C81_numeric_probability_raises",
    "C81_maps_like_trestle",
    "ex_C81_maps_like_trestle"
   ],
   "note": "The code violates the claim; for the probability it does so after every history with a number under the attribute. C81_maps_like_trestle: without numbers it maps as a TrestleTree does."
  },
  {
   "property": "C82",
   "status": "proved",
   "theorems": [
    "C82_failed_fit_refuted",
    "C82_preprocessing_failure",
    "C82_counting_failure"
   ],
   "note": "The code violates the claim for values that cannot be counted."
  },
  {
   "property": "C83",
   "status": "proved",
   "theorems": [
    "C83_error_scores",
    "C83_error_scores3",
    "ex_C83"
   ],
   "note": "CobwebTree and Cobweb3Tree. The functions saying which nominal values are numbers or booleans (num_of, arith_of) and the comparison of values are arbitrary."
  },
  {
   "property": "C84",
   "status": "proved",
   "theorems": [
    "C84_nominal_errors_return",
    "C84_numeric_errors_raise",
    "C84_numeric_errors_refuted",
    "ex_C84"
   ],
   "note": "The code violates the claim for numeric attributes."
  },
  {
   "property": "C85",
   "status": "proved",
   "theorems": [
    "C85_CU_value",
    "C85_clustered_instances_refuted",
    "ex_C85"
   ],
   "note": "CobwebTree."
  },
  {
   "property": "C86",
   "status": "proved",
   "theorems": [
    "C86_criteria",
    "C86_criteria3",
    "C86_cluster_iter_returns",
    "C86_cluster_iter_returns3",
    "C86_documented_k_refuted",
    "ex_C86",
    "ex_C86_returns"
   ],
   "note": "CobwebTree and Cobweb3Tree; criteria_bounds: AIC >= 2k, AICc >= AIC, BIC >= 0."
  },
  {
   "property": "C87",
   "status": "proved",
   "theorems": [
    "C87_match_complete",
    "C87_match_sound",
    "C87_match_answers",
    "C87_repeated_variable_refuted",
    "C87_contains",
    "C87_absent",
    "ex_C87"
   ],
   "note": "A True answer is not enough when an unmapped variable occurs twice: C87_repeated_variable_refuted."
  },
  {
   "property": "C88",
   "status": "proved",
   "theorems": [
    "C88_random_is_successor",
    "C88_random_keeps_inv",
    "C88_returns_unmapped",
    "C88_returns_mapped",
    "C88_never_returns",
    "C88_returns_refuted",
    "C88_raises_refuted",
    "ex_C88"
   ],
   "note": "random_successor is not called by flat_match, whose hill climbing uses successors."
  },
  {
   "property": "C89",
   "status": "proved",
   "theorems": [
    "C89_rejects",
    "C89_accepts",
    "C89_returned",
    "ex_C89",
    "ex_C89_component"
   ],
   "note": "The check runs after structure mapping, which can raise before it: ex_C89_component."
  },
  {
   "property": "C90",
   "status": "proved",
   "theorems": [
    "C90_animals",
    "C90_sizes",
    "C90_sizes_reached",
    "C90_kinds",
    "C90_tail",
    "C90_tail_refuted",
    "C90_returns",
    "C90_never_returns",
    "C90_trestle",
    "ex_C90_kinds",
    "ex_C90_animals",
    "ex_C90_hits",
    "ex_C90_trestle"
   ],
   "note": "Exact arithmetic. That the tail is behind the torso is refuted for cats and horses: its location is -height + tail height instead of -(height + tail height)/2. The random module is two streams of answers. C90_sizes_reached also shows that the hypotheses of C90_sizes are met."
  },
  {
   "property": "C91",
   "status": "proved",
   "theorems": [
    "C91_cluster_iter",
    "C91_k_cluster_fails",
    "C91_minsplit_yields_nothing",
    "C91_depth_labels",
    "C91_cluster_returns",
    "C91_quadrupeds",
    "ex_C91_quadrupeds",
    "ex_C91_sorted"
   ],
   "note": "The first four hold in any arithmetic, for calls of ifit or categorize that return; C91_cluster_returns and C91_quadrupeds are in exact arithmetic, with category utility as the heuristic."
  },
  {
   "property": "C92",
   "status": "proved",
   "theorems": [
    "C92_guesses_value",
    "C92_utility_value",
    "C92_CU_value",
    "ex_C92",
    "ex_number_guess_0",
    "ex_guess_rate3"
   ],
   "note": "The instances behind a concept are exhibited; its table is shown to summarise them. The specification's deviation uses the table of c4 constants, whose values are the subject of C29/C30."
  },
  {
   "property": "C93",
   "status": "proved",
   "theorems": [
    "C93_instance_cost",
    "C93_trestle",
    "C93_table_cost",
    "C93_table_cost_refuted",
    "C93_get_mapping",
    "ex_C93_instance",
    "ex_C93_table",
    "ex_C93_trestle",
    "ex_C93_get_mapping"
   ],
   "note": "C93_table_cost_refuted: the root of a tree of {a: v} and {b: v} mapped to itself costs -4/9 instead of -1/4, because the count of a table is the largest number of instances with one attribute. C93_trestle needs different random draws to be different (as C76 does), so that fitting never raises."
  },
  {
   "property": "C94",
   "status": "proved",
   "theorems": [
    "C94_batch_undone",
    "C94_last_undone",
    "C94_flattener",
    "C94_tuplizer",
    "C94_sub_components",
    "C94_standardizer",
    "C94_not_restored",
    "C94_pipeline_last",
    "C94_batch_refuted",
    "ex_C94_not_restored",
    "ex_C94_batch_undone",
    "ex_C94_flattener",
    "ex_C94_sub_components",
    "ex_C94_pipeline"
   ],
   "note": "C94_batch_refuted: {?x: {a: 1}}, {?y: {a: 2}} come back from a NameStandardizer as {?o1: {a: 1}}, {?y: {a: 2}}; C94_not_restored says this happens to every instance but the last that has a component."
  },
  {
   "property": "C95",
   "status": "proved",
   "theorems": [
    "C95_reachable",
    "C95_successors",
    "C95_keys",
    "C95_never_unmatched",
    "C95_dict_initial",
    "C95_unmatch_refuted",
    "C95_matching_helps",
    "C95_optimum_reachable",
    "C95_stuck_refuted",
    "ex_C95_reachable",
    "ex_C95_successors",
    "ex_C95_never_unmatched",
    "ex_C95_dict_initial",
    "ex_C95_optimum"
   ],
   "note": "C95_unmatch_refuted: with {?x: ?o2, ?y: ?o1} as start the mapping {?x: ?x, ?y: ?o2} cannot be visited. C95_stuck_refuted: base {(a ?o1): 0}, target {(a ?x): 100}, initial mapping ?x -> ?o1; leaving ?x unmatched is cheaper, but every search returns the initial mapping."
  },
  {
   "property": "C96",
   "status": "proved",
   "theorems": [
    "C96_printed",
    "C96_read_back",
    "C96_text_determines_tree",
    "C96_cobweb3_text_refuted",
    "C96_cobweb3_values_refuted",
    "ex_C96_text",
    "ex_C96_repr",
    "ex_C96_hyps"
   ],
   "note": "C96_printed and C96_read_back hold for both classes and any label. The witness of C96_cobweb3_text_refuted is a string value with line breaks; C96_cobweb3_values_refuted: True and 'True'."
  },
  {
   "property": "C97",
   "status": "proved",
   "theorems": [
    "C97_counts",
    "C97_strings",
    "C97_counts3",
    "C97_same_text_refuted",
    "ex_C97_hyps",
    "ex_C97_hyps3"
   ],
   "note": "What ContinuousValue.output_json prints is kept as the cell. C97_same_text_refuted: the integer 1 and the string '1'."
  },
  {
   "property": "C98",
   "status": "proved",
   "theorems": [
    "C98_read_only",
    "C98_infer_adds_to_mapped",
    "C98_flat",
    "C98_overall_average",
    "C98_returns",
    "C98_numbers_refuted",
    "C98_collision_refuted",
    "ex_C98_flat",
    "ex_C98_hyps"
   ],
   "note": "C98_overall_average and C98_returns are about exact arithmetic, the others about any. The two refutations show when it does not return with components."
  },
  {
   "property": "C99",
   "status": "proved",
   "theorems": [
    "C99_scores_only_ask",
    "C99_tests_before_training",
    "C99_probability_is_share",
    "C99_evaluation_returns",
    "C99_unknown_names",
    "C99_relation_scores_refuted",
    "C99_names_matter_refuted",
    "ex_C99_tests_before_training",
    "ex_C99_evaluation_returns",
    "ex_C99_unknown_names",
    "ex_te_rows",
    "ex_te_scores",
    "C99_errors",
    "ex_C99_errors"
   ],
   "note": "C99_probability_is_share and C99_evaluation_returns are about exact arithmetic, the others about any. The last part of the statement is refuted: C99_unknown_names shows it for every tree and every name that gensym does not make."
  },
  {
   "property": "C100",
   "status": "proved",
   "theorems": [
    "C100_start_is_best",
    "C100_flat_match",
    "C100_start_is_best_overall_refuted",
    "best_oracle_ok",
    "best_oracle_best"
   ],
   "note": "Exact arithmetic. The refutation is on the root of a tree that was given one instance; it also shows that the hypotheses of C100_start_is_best are met."
  },
  {
   "property": "C101",
   "status": "proved",
   "theorems": [
    "C101_standardized",
    "C101_fit_cat",
    "C101_infer",
    "C101_history",
    "C101_order_refuted",
    "C101_set_order_refuted",
    "ex_C101",
    "ex_C101_fit"
   ],
   "note": "The order in which Python goes through a set is a parameter; for the renaming it is assumed to go through a set of renamed variables in the same order. Independence of the alphabetical order of the names and of the order of sets is refuted: both decide which component is numbered first."
  },
  {
   "property": "C102",
   "status": "proved",
   "theorems": [
    "C102_order",
    "C102_probability",
    "C102_sanity",
    "C102_order3",
    "C102_rounding_refuted",
    "ex_C102",
    "ex_C102_3"
   ],
   "note": "Proved in exact (real) arithmetic for CobwebTree and Cobweb3Tree. The same claim on IEEE doubles is refuted with five instances of three attributes: the root ends with three children in one order and four in the other."
  },
  {
   "property": "C103",
   "status": "proved",
   "theorems": [
    "C103_names",
    "C103_names3",
    "C103_infer",
    "C103_probability3",
    "C103_infer3",
    "C103_hidden_refuted",
    "ex_C103",
    "ex_C103_3",
    "ex_C103_infer",
    "ex_C103_infer3"
   ],
   "note": "Injectivity is asked only of the names and values that occur. infer_missing is covered for both trees under the hypothesis that draws are distinct: otherwise the values themselves are compared in a tie. C103_hidden_refuted shows that a renaming must keep hidden attributes hidden and visible ones visible."
  },
  {
   "property": "C104",
   "status": "proved",
   "theorems": [
    "C104_constant",
    "C104_constant_always",
    "rescaled_same",
    "C104_constant3",
    "C104_constant3_always",
    "C104_other_attributes_refuted",
    "ex_C104",
    "ex_C104_3"
   ],
   "note": "Exact arithmetic (reals). C104_constant holds for any random numbers when no call of the first run raised; C104_constant_always drops that condition when no two draws are equal. rescaled_same is the general fact about scores, for any node class whose tables count. C104_other_attributes_refuted runs the model with exact rationals."
  },
  {
   "property": "C105",
   "status": "proved",
   "theorems": [
    "C105_draws_only_break_ties",
    "C105_ties_do_not_depend_on_draws",
    "C105_no_tie_no_exception",
    "C105_ties_need_draws",
    "ex_C105",
    "C105_trestle",
    "C105_trestle_ties",
    "ex_C105_trestle"
   ],
   "note": "For any node class and any arithmetic, so also for doubles. A tie is stated with the scores the code computes (C12 says what they mean). C105_no_tie_no_exception is for CobwebTree. C105_trestle leaves out infer_missing, whose predictions draw by themselves, and keeps the answers of the mapping search fixed."
  },
  {
   "property": "C106",
   "status": "proved",
   "theorems": [
    "C106_size",
    "C106_size3",
    "tree_bounded",
    "ex_C106",
    "C106_size_trestle",
    "ex_C106_trestle"
   ],
   "note": "tree_bounded is for any node class; ex_C106 attains all three bounds with three instances."
  },
  {
   "property": "C107",
   "status": "proved",
   "theorems": [
    "C107_none_scores_as_missing",
    "C107_none_is_a_value_refuted",
    "ex_C107_other_value",
    "ex_C107_evaluation_raises",
    "C78_infer_adds_to_mapped",
    "C98_infer_adds_to_mapped",
    "ex_C99_errors"
   ],
   "note": "The claim as first stated is refuted; what the code does instead is proved. ex_C99_errors meets the hypotheses of C107_none_scores_as_missing."
  },
  {
   "property": "C108",
   "status": "proved",
   "theorems": [
    "C108_just_fitted_recognised",
    "ex_C108",
    "C108_any_fitted_recognised_refuted",
    "C108_just_fitted_gaps_refuted",
    "C108_cobweb3_nominal",
    "ex_C108_3"
   ],
   "note": "The claim as first stated is refuted twice; the part for the instance fitted last over common attributes is proved. C108_just_fitted_gaps_refuted is for one particular stream of random numbers, on which ties occur; no tie-free witness was found. C108_cobweb3_nominal: Cobweb3Tree, instances without numbers only. For instances with numbers nothing is claimed: a search of some thousands of short histories on doubles found no failure, and there is no proof."
  },
  {
   "property": "C109",
   "status": "proved",
   "theorems": [
    "C109_json_numbers",
    "C109_json_root",
    "ex_C109"
   ],
   "note": "The root theorem needs that no ifit raised. C97_counts3 says under which key the summary is written; __repr__ formats the same three numbers."
  },
  {
   "property": "C110",
   "status": "proved",
   "theorems": [
    "C110_moves_bounded",
    "C110_locally_best",
    "C110_ends",
    "C110_flat_match",
    "C110_mapping_ends",
    "ex_C110",
    "ex_C110_moves",
    "ex_C110_flat_match"
   ],
   "note": "py_search is not in the repository: that its hill_climbing moves only to cheaper successors, and stops only where there are none, is the hypothesis. In doubles a strict order holds as well, but the costs are then rounded."
  },
  {
   "property": "C111",
   "status": "proved",
   "theorems": [
    "C111_root_summaries",
    "C111_leaf_instances",
    "C111_ecg_is_probability",
    "C111_ifit",
    "C111_categorize",
    "C111_leaves_persist",
    "ex_C111",
    "C75_mapped_instance"
   ],
   "note": "Exact reals. From C31, C32, C35, C65 and C69 through treachable_calls (a TrestleTree makes the calls of a Cobweb3Tree with mapped instances). The mapped instance is the one t_ready answers; C75_mapped_instance says how it comes from the instance given."
  }
 ]
}
