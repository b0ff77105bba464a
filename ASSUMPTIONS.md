# Axioms behind each theorem

Generated by tools/assumptions.py from `Print Assumptions` (Coq 8.16.1).

## Closed under the global context (no axioms)

395 theorems: C01_causation_dag_agree_partial, C01_history_partial, C01_refuted, C02_latent_arcs_partial, C02_refuted, C03_remove_nodes, C03_remove_edges, C03_add_arcs, C03_add_edges_partial, C03_add_edges_refuted, C03_add_nodes_refuted, C03_add_nodes_dag, C04_ancestors, C05_build_sub_graph_partial, C05_unknown, C05_refuted, C06_remove_incoming, C07_remove_outgoing, C08_c_components, C08_isolated_missing, C09_explicit_partial, C09_refuted, C10_topo_order, C10_cyclic, C11_is_dag, C12_is_d_separated_partial, C12_isolated_refuted, C13_is_valid_backdoor_set_partial, C13_single_treatment, C13_refuted, C148_AB_not_fitted, C15_all, C15_minimal, C15_error, C17_fails_only_if_none_partial, C150_NP_not_fitted, C16_refuted, C162_unfitted, C166_effect_nji_refuted, C169_bounds_partial, C17_none, C17_refuted_none, C17_refuted_crash, C18_powerset, C187_RLoss_unfitted, C19_get_backdoor_path, C20_has_collider_partial, C20_has_collider, C20_forward, C20_refuted, clean_first_fit_columns, clean_fit_values, clean_no_infinity_partial, clean_no_infinity_refuted, clean_training_again, clean_transform_columns, clean_transform_local, clean_transform_dtype_refuted, clean_reserved_refuted, C21_is_connected_partial, C21_is_connected, C21_refuted, clean_transform_keeps_state, clean_copy_safe, clean_refit_refuted, clean_early_transform_refuted, clean_append_before_fit, clean_append_forgotten_refuted, clean_caller_refuted, C211_columns_assigned, C211_repeated_name_refuted, C212_fit_transform_is_fit_then_transform_partial, C212_tuple_refuted, C212_shared_transformer_refuted, C212_long_name_refuted, C213_transform_result, C213_transform_succeeds_partial, C213_names, C213_no_column_refuted, C214_transform_reads_fitted_columns, C214_transform_missing_column, C214_refit_forgets, C214_failed_refit_refuted, C215_codes, C215_codes_distinguish, C215_no_rows_refused, C215_roundtrip_partial, C215_float_roundtrip_refuted, C215_reordered_frame_refuted, C216_number, C216_threshold, C216_quantile, C216_select_total, C216_fit_partial, C216_importances_refuted, C216_names_refuted, C216_task_sticks_refuted, C217_names, C217_explicit_task, C217_refusals, C217_others, C217_inferred_task_refuted, C217_xgboost_kwargs_refuted, C218_identify_treatment_partial, C218_most_important_refuted, C219_registry_history, C219_names, C219_models, C219_settings, C219_accept, C219_dr_refuted, C219_fresh, C22_is_frontdoor_set_partial, C22_refuted_names, C22_refuted_ancestor, C22_refuted_crash, C220_choice, C220_auto, C220_auto_refuted, C220_unknown, C221_copy, C221_shape, C221_fit, C222_failed_fit, C222_refit_flags, C222_refit_partial, C222_refit_refuted, C223_contrasts, C223_default_contrasts, C223_summary, C223_cost_refuted, C223_bound_refuted, C223_iv_refuted, C223_grf_refuted, C224_rows, C224_ite_partial, C224_labels_refuted, C224_cost_refuted, C224_target_refuted, C225_score, C225_instrument_refuted, C225_target_refuted, C226_continuous, C226_summary, C226_string_refuted, C227_guide, C227_default, C227_mlp, C227_names_partial, C227_names_refuted, C228_any, C228_partial, C228_refuted, C23_minimal, C23_all, C23_error, C23_total, C23_refuted_empty, C23_refuted_crash, C23_refuted_names, C230_first, C230_partial, C230_refuted, C230_import, C231_fit_needs, C231_no_adjustment_refuted, C231_continuous_default_refuted, C231_default_device_refuted, C231_user_outcome_net_refuted, C231_int_hidden_refuted, C232_fit_continuous, C232_fit_discrete, C232_sample_n_ignored_refuted, C232_discrete_instrument_refuted, C233_continuous, C233_defaults, C233_one_treatment, C233_linear_refuted, C234_discrete, C234_code_beyond_rows_refuted, C234_control_ignored_refuted, C234_marginal_refuted, C234_cate_is_ate, C235_unfitted, C235_marginal_refuted, C235_effect_nji_refuted, C235_discrete_outcome_refuted, C235_cuda_refuted, C236_refit_independent, C236_failed_fit_refuted, C236_failed_refit_refuted, C237_all_float64, C237_no_float64, C237_mixed_refuted, C238_entries, C238_shallow, C238_missing, C238_total, C239_single, C239_set_then_get, C239_replace, C239_round_trip, C24_get_iv_partial, C24_get_iv_exact, C24_refuted, C24_refuted_child, C240_unknown_partial, C240_nested_unknown_partial, C240_atomic_refuted, C240_shared_refuted, C241_readable, C241_unreadable_refuted, C241_lost_refuted, C246_er, C246_directed, C246_result, C246_acyclic_refuted, C246_acyclic_partial, C249_dags, C25_get_iv_complete, C25_get_iv_total, C25_is_valid_iv, C253_dag, C253_signed_partial, C253_lags, C253_options_refuted, C253_threshold_refuted, C254_select, C254_align, C254_fallback, C254_empty_refuted, C255_matrix, C255_aci, C255_failure, C255_consistent, C255_nan, C255_stale_refuted, C256_matrix, C256_dag, C256_dict, C256_foreign, C256_array, C256_castle, C256_castle_refuted, C256_order_refuted, C257_options, C257_reserved, C258_once, C258_off, C260_sample, C260_short_refuted, C27_id_terminates_partial, C27_fuel_irrelevant, C27_refuted_overlap, C27_refuted_strings, C28_no_arcs, C29_identify_partial, C29_refuted, C30_estimate_checked, C30_refuted_override, C31_identify_estimate_exact, C31_refuted, C32_check_nodes, C33_parse_injective, C33_sum_sign, C33_refuted_unconditional, C34_trim_cycle_partial, C34_refuted_self_loop, C35_acyclic_unchanged, C35_kept, C35_dropped, C35_dropped_lightest, C36_direct_causes, C36_all_causes, C36_refuted_depth2, C37_dataframe, C37_refuted_ndarray, C38_default, C38_discovery, C38_model_simple, C38_refuted_minimal, C39_dfs, C39_unknown, C39_refuted_negative, C40_select_by_task, C40_align_task_to_first_partial, C40_refuted_limit_one, C40_default_limit, C41_safe_remove, C41_first_occurrence, C41_none, C42_safe_treat_control, C42_safe_treat_control_list, C42_accepted, C43_sequential, C43_sequential_default, C43_combined, C44_uplift_rows, C44_no_treatment, C45_causal_effect_partial, C45_refuted, C46_whatif, C46_series, C46_refuted_cost, C46_refuted_cost_factual, C47_adjacent_partial, C47_refuted, C47_refuted_covariates, C48_to_list_string, C48_every_string, C48_to_list_other, C48_join_list, C49_form, C49_fixpoint, C49_words, C50_drop_none, C50_check_fitted, C51_infer_task_type, C51_multilabel, C51_refuted_nan, C56_plain, C56_arguments, C56_get_blanket, C56_refuted_string, C57_accepts, C57_networkx, C57_networkx_nodes, C57_refuted_causal, C58_round_trip, C58_too_few, C58_unknown, C59_capacity_zero_refuted, C63_partition_covers, C63_zero_estimators, C64_convert4onehot, C64_cartesian, C64_cartesian_each_once, C64_cartesian_two, C64_cartesian_three, C64_cartesian_none, C64_get_groups_onehot, C64_get_groups_raw, C64_get_groups_scalar, C64_two_blocks_collide, C66_estimate_default_partial, C66_refuted_stale, C67_discovered_dag, C68_straight_exact, C68_refuted, C69_identify_roles, C69_refuted_mutation, C69_refuted_outcome, C69_refuted_tuple, C70_causal_effect, C70_causal_effect_default, C70_causal_effect_unknown, C70_agree_partial, C70_refuted_string, C70_refuted_int, C72_get_estimator, C72_refuted_default, C73_refuted_no_instruments, C77_first_fit, C77_refit_exact, C77_refuted, C78_do, C78_failure_partial, C78_refuted, C78_refuted_poisoned, C79_sampling, C79_unique, C80_predict, C80_predict_partial, C80_predict_again, C80_refuted, C81_estimate, C81_refuted_observed, C81_refuted_mediator, C81_refuted_indirect, C82_mean, C82_no_samples, C82_proba, C82_mode, C82_refuted_input, C82_refuted_alias, C83_do_ok, C83_refuted, C84_store_restored, C84_isolated, C85_check_classes, C86_count_leaf_num, C87_nd_kron, C262_case, C262_lambda_refuted, C262_probabilities_only_refuted

## ClassicalDedekindReals.sig_forall_dec

38 theorems: C107_array_TX_refuted, C108_T_unknown, C110_TX_categories_refuted, C113_nji_combined, C113_nji_separate_refuted, C114_T_separate_models, C114_X_separate_models, C129_DML_covariate_optional_refuted, C130_DML_cross_fit, C150_NP_formula, C153_NP_average_refuted, C153_NP_average_type_error_refuted, C154_NP_nji_partial, C154_NP_nji_refuted, C155_NP_no_covariates_refuted, C155_NP_covar_list_refuted, C155_NP_default_call_refuted, C156_NP_counterfactual_partial, C156_NP_counterfactual_numbers_refuted, C156_NP_counterfactual_training_refuted, C156_NP_counterfactual_strings_refuted, C157_NP_discrete_instrument_refuted, C158_NP_polynomial_basis, C159_NP_default_treat_refuted, C186_RLoss_no_covariate, C201_independent, C203_failed_refit_refuted, C204_treat, C204_treat_refuted, C204_stale_treat_refuted, C251_layout, C251_layout_error, C251_dygen_layout, C258_transparent_partial, C258_counted, C258_uncounted_refuted, C258_iterator_refuted, C59_peek_is_pop

## ClassicalDedekindReals.sig_forall_dec, FunctionalExtensionality.functional_extensionality_dep

307 theorems: C100_best_treatment, C100_policy_value, C101_opt_effect_refuted, C101_opt_effect_partial, C102_fit_succeeds, C102_single_treatment_refuted, C102_criterion_refuted, C103_training_data_partial, C103_stale_refuted, C104_first_estimate, C105_repeat_partial, C105_second_estimate, C105_repeat_refuted, C105_repeat_strings_refuted, C106_refit_partial, C106_refit_new_value_refuted, C106_separate_then_combined_refuted, C107_array_refuted, C107_mixed_list_refuted, C108_T_estimate, C109_TX_repeat, C110_S_categories, C111_T_refit_partial, C111_TX_refit_new_group_refuted, C111_TX_failed_fit_refuted, C112_X_estimate, C112_X_between, C113_nji_of_estimate, C114_T_separate_estimate, C114_X_separate_estimate, C114_S_one_column, C114_S_separate_refuted, C115_target_partial, C115_target_refuted, C115_target_case_refuted, C116_X_separate_discrete_refuted, C117_average, C118_DR_estimate, C118_outcome_block_refuted, C119_DR_propensity_partial, C119_DR_outcome_refuted, C120_DR_no_covariate, C121_DR_cross_fit, C122_DR_missing_group_refuted, C123_DR_effect_nji, C124_DR_estimate_pure_partial, C124_DR_two_values_refuted, C125_DR_refit_partial, C125_DR_refit_new_value_refuted, C126_DML_estimate, C127_DML_effect_of_final_model, C128_DML_recovers, C131_DML_explicit_estimate_history, C131_DML_default_history_refuted, C132_DML_arrays, C132_DML_array_treat_refuted, C133_DML_discrete_estimate, C133_DML_unknown_group, C134_DML_repeat_partial, C134_DML_repeat_refuted, C135_DML_missing_group_refuted, C135_DML_one_group_refuted, C136_DML_effect_nji, C136_DML_effect_nji_cont, C137_DML_separate_models, C137_DML_shared_model_refuted, C138_DML_contrasts, C139_DML_array_strings_refuted, C139_DML_array_codes_refuted, C14_get_backdoor_set_unbiased, C14_valid_set_unbiased, C140_DML_refit_cont_partial, C140_DML_refit_refuted, C141_AB_formula, C142_AB_valid_sharp, C143_AB_zero_width, C143_AB_zero_refuted, C144_AB_optimal_refuted, C144_AB_optimal_shape_refuted, C145_AB_refit_refuted, C145_AB_refit_probabilities, C146_AB_new_data_partial, C146_AB_new_data_coded_partial, C146_AB_new_data_refuted, C147_AB_discrete_covariate_refuted, C148_AB_estimate_pure, C149_AB_missing_group_refuted, C149_AB_missing_group_value_refuted, C151_NP_recovers_effect, C152_NP_two_stage_least_squares_partial, C152_NP_least_squares_refuted, C159_NP_contrasts, C16_simple_partial, C160_estimate_partial, C160_gap_refuted, C160_attenuated_refuted, C160_regular_inverse, C161_weights_partial, C161_single_node_refuted, C162_rowwise, C162_no_rows_refuted, C163_ignored_refuted, C163_sum_only_refuted, C164_honest, C164_int_refuted, C164_swapped_refuted, C165_ignored_refuted, C166_apply_refuted, C166_importance_refuted, C167_warm_start, C167_stale_refuted, C168_refit, C168_failed_refit_refuted, C169_tree_safe_partial, C170_best_split, C172_no_covariate_refuted, C173_CF_continuous_partial, C174_CF_discrete_partial, C175_CF_attenuated_refuted, C176_CF_quantity_refuted, C177_CF_effect_nji_refuted, C177_CF_apply_refuted, C178_CF_no_covariate_refuted, C178_CF_transformer_refuted, C179_CF_control_array_refuted, C179_CF_control_strings_refuted, C180_CF_failed_fit_refuted, C181_RLoss_score_partial, C182_RLoss_score_disc_partial, C183_RLoss_one_name_refuted, C183_RLoss_order_refuted, C184_RLoss_nonneg, C184_RLoss_zero_partial, C185_RLoss_groups_refuted, C186_RLoss_failed_fit_refuted, C186_RLoss_refit, C187_RLoss_adjustment_refuted, C187_RLoss_no_treat_refuted, C188_RLoss_of_DoubleML, C189_explanation, C189_example, C190_same_reason, C191_agree, C191_plot_label, C191_names_refuted, C192_single_treatment_refuted, C192_criterion_refuted, C193_covariate_refuted, C193_covariate_partial, C194_refit, C194_failed_fit, C194_unfitted, C195_training_data, C195_fit_succeeds, C196_promise_example, C198_by_position_refuted, C200_estimate, C200_defaults, C202_effect_nji, C202_effect_nji_columns, C202_unknown_control, C202_several_outcomes_refuted, C202_no_data_refuted, C203_learner_unchanged, C203_refit_fresh, C203_unfitted, C204_quiet_questions, C205_slearner_estimate, C205_repeat_refuted, C229_normal, C242_curves, C242_scores, C243_columns, C243_dropped, C243_collision_refuted, C243_unnamed_refuted, C244_qini_zero, C244_no_top_point, C244_random_values, C244_random_refuted, C245_unfitted, C245_succeeds, C245_refit, C245_flag, C245_failed_partial, C245_mixed, C245_mixed_refuted, C247_weights, C247_default, C247_lags, C248_linear, C248_discrete, C248_order, C248_errors, C248_gen, C248_nonlinear_partial, C248_nonlinear_refuted, C249_shd, C249_shd_zero, C249_shd_equal, C249_proportions, C249_perfect, C249_fpr_refuted, C250_block, C250_dygen, C250_errors, C250_no_noise, C250_recent_refuted, C251_truth_fits_partial, C251_truth_optimal_partial, C251_lags_refuted, C251_truth_refuted, C252_terminates, C252_stops, C252_continues, C252_first, C252_small_refuted, C259_report, C259_average, C259_names_refuted, C26_id_sound_partial, C26_id_without_arcs, C26_refuted, C26_refuted_isolated, C261_descending, C261_bins, C261_intervals, C261_edges_refuted, C27_refuted, C28_no_arcs_succeeds, C30_estimate_unbiased, C52_start, C52_lift, C52_gain, C52_gain_rank, C75_end, C53_lift, C53_gain, C53_qini, C53_qini_effect, C53_line, C53_no_nan, C53_succeeds, C54_curves, C54_auuc, C54_qini, C55_ends, C55_auuc, C59_pqueue_history, C59_stable_insert, C60_median_history_partial, C60_push_only, C60_equal_weights, C60_remove_median_refuted, C60_pop_median_refuted, C60_remove_absent_refuted, C61_causal_stats, C61_regression_stats, C61_backward_refuted, C61_null_weight_refuted, C61_outputs_refuted, C62_causal, C62_mse, C62_policy, C62_policy_test1_refuted, C65_set, C65_all, C74_gain, C74_auuc, C75_same_end, C75_random, C76_top_point, C88_causal_children, C88_policy_children, C88_mse_children, C88_mse_refuted, C89_best_splits, C90_searched, C91_builds, C91_predict, C91_nodes, C91_depth, C91_decision_path, C91_leaves, C92_honest_partial, C92_estimate_refuted, C92_no_effect_refuted, C93_cite_partial, C93_ate_refuted, C93_honest_num_refuted, C94_importances, C94_policy_nonneg, C95_policy, C95_causal_gain, C95_causal_refuted, C96_sort, C96_code_sort, C96_progress, C96_sane, C97_max_leaf_nodes, C97_predict, C97_nodes, C97_depth, C98_best_first, C98_takes_largest, C99_weights_refuted, C99_weights_example_refuted

## ClassicalDedekindReals.sig_forall_dec, ClassicalDedekindReals.sig_not_dec, FunctionalExtensionality.functional_extensionality_dep

22 theorems: C196_node_dict, C196_root_and_children, C196_fit_succeeds, C197_interpret, C197_training_data, C198_predict_partial, C198_other_columns_refuted, C198_swapped_refuted, C199_failed_refit_refuted, C199_refit, C199_unfitted, C229_child_zero, C229_child_odds, C229_child_refuted, C229_mlp, C248_population, C262_scores_partial, C262_unknown_refuted, C263_positive, C263_two_classes, C263_macro, C263_auc_refuted

## ClassicalDedekindReals.sig_forall_dec, ClassicalEpsilon.constructive_indefinite_description, Classical_Prop.classic, FunctionalExtensionality.functional_extensionality_dep

7 theorems: C160_example_refuted, C160_usable, C161_outside_refuted, C161_empty_leaf_refuted, C167_index_refuted, C169_overflow_refuted, C171_shift_refuted

## ClassicalDedekindReals.sig_forall_dec, ClassicalDedekindReals.sig_not_dec, Classical_Prop.classic, FunctionalExtensionality.functional_extensionality_dep

2 theorems: C229_root_bounds, C229_root_refuted
