{
 "claims": [
  {
   "property": "C01",
   "status": "partial",
   "theorems": [
    "C01_causation_dag_agree_partial",
    "C01_history_partial",
    "C01_refuted"
   ],
   "note": "Proved for every history that does not re-add an edge that is already there; for those the claim is false of the code (C01_refuted)."
  },
  {
   "property": "C02",
   "status": "partial",
   "theorems": [
    "C02_latent_arcs_partial",
    "C02_refuted"
   ],
   "note": "Proved for all histories except add_edge(observed=False), where the code loses the arc (C02_refuted)."
  },
  {
   "property": "C03",
   "status": "partial",
   "theorems": [
    "C03_remove_nodes",
    "C03_remove_edges",
    "C03_add_arcs",
    "C03_add_edges_partial",
    "C03_add_edges_refuted",
    "C03_add_nodes_refuted",
    "C03_add_nodes_dag"
   ],
   "note": "new=True and in-place agree for removals, arcs and genuinely new edges; refuted for add_nodes and for adding an edge parallel to an arc."
  },
  {
   "property": "C04",
   "status": "proved",
   "theorems": [
    "C04_ancestors"
   ],
   "note": ""
  },
  {
   "property": "C05",
   "status": "partial",
   "theorems": [
    "C05_build_sub_graph_partial",
    "C05_unknown",
    "C05_refuted"
   ],
   "note": "Proved when every node is a key of causation; otherwise false of the code (C05_refuted)."
  },
  {
   "property": "C06",
   "status": "proved",
   "theorems": [
    "C06_remove_incoming"
   ],
   "note": ""
  },
  {
   "property": "C07",
   "status": "proved",
   "theorems": [
    "C07_remove_outgoing"
   ],
   "note": ""
  },
  {
   "property": "C08",
   "status": "proved",
   "theorems": [
    "C08_c_components",
    "C08_isolated_missing"
   ],
   "note": "A partition of dag.nodes; isolated names are in no component (C08_isolated_missing)."
  },
  {
   "property": "C09",
   "status": "partial",
   "theorems": [
    "C09_explicit_partial",
    "C09_refuted"
   ],
   "note": "Proved unless a user node is called U<i>; then false of the code (C09_refuted)."
  },
  {
   "property": "C10",
   "status": "proved",
   "theorems": [
    "C10_topo_order",
    "C10_cyclic"
   ],
   "note": ""
  },
  {
   "property": "C100",
   "status": "proved",
   "theorems": [
    "C100_best_treatment",
    "C100_policy_value"
   ],
   "note": "Both builders; with max_leaf_nodes all weights are 1 (C99)."
  },
  {
   "property": "C101",
   "status": "partial",
   "theorems": [
    "C101_opt_effect_refuted",
    "C101_opt_effect_partial"
   ],
   "note": "False of the code: the whole row of effects is returned; its entry at predict_ind is the right value."
  },
  {
   "property": "C102",
   "status": "partial",
   "theorems": [
    "C102_fit_succeeds",
    "C102_single_treatment_refuted",
    "C102_criterion_refuted"
   ],
   "note": "fit: exact condition. predict_ind raises for one treatment, and both predictions raise for policy_test and policy_test1."
  },
  {
   "property": "C103",
   "status": "partial",
   "theorems": [
    "C103_training_data_partial",
    "C103_stale_refuted"
   ],
   "note": "Holds unless an earlier fit left its covariate transformer behind."
  },
  {
   "property": "C104",
   "status": "proved",
   "theorems": [
    "C104_first_estimate"
   ],
   "note": "Combined treatment; the learner (fit/predict) is a parameter; exact reals; categories='auto'."
  },
  {
   "property": "C105",
   "status": "partial",
   "theorems": [
    "C105_repeat_partial",
    "C105_second_estimate",
    "C105_repeat_refuted",
    "C105_repeat_strings_refuted"
   ],
   "note": "False of the code: the first estimate overwrites treat/control by their codes (C105_second_estimate: exactly what the second estimate returns). Proved when the codes are fixed points."
  },
  {
   "property": "C106",
   "status": "partial",
   "theorems": [
    "C106_refit_partial",
    "C106_refit_new_value_refuted",
    "C106_separate_then_combined_refuted"
   ],
   "note": "Proved when both data sets have the same values; otherwise the kept encoder raises."
  },
  {
   "property": "C107",
   "status": "partial",
   "theorems": [
    "C107_array_refuted",
    "C107_array_TX_refuted",
    "C107_mixed_list_refuted"
   ],
   "note": "Values and lists: see C104/C108 (asks). False for 1-d arrays and for lists mixing strings and numbers."
  },
  {
   "property": "C108",
   "status": "proved",
   "theorems": [
    "C108_T_estimate",
    "C108_T_unknown"
   ],
   "note": "Combined treatment; learner is a parameter."
  },
  {
   "property": "C109",
   "status": "proved",
   "theorems": [
    "C109_TX_repeat"
   ],
   "note": "All states and histories."
  },
  {
   "property": "C11",
   "status": "proved",
   "theorems": [
    "C11_is_dag"
   ],
   "note": ""
  },
  {
   "property": "C110",
   "status": "partial",
   "theorems": [
    "C110_S_categories",
    "C110_TX_categories_refuted"
   ],
   "note": "Honoured by SLearner (one column); ignored by TLearner and XLearner for one treatment column."
  },
  {
   "property": "C111",
   "status": "partial",
   "theorems": [
    "C111_T_refit_partial",
    "C111_TX_refit_new_group_refuted",
    "C111_TX_failed_fit_refuted"
   ],
   "note": "Proved when the second data set has no new group; a new group or a failed first fit makes later fits raise."
  },
  {
   "property": "C112",
   "status": "proved",
   "theorems": [
    "C112_X_estimate",
    "C112_X_between"
   ],
   "note": "Combined treatment, continuous outcome; learner is a parameter."
  },
  {
   "property": "C113",
   "status": "partial",
   "theorems": [
    "C113_nji_combined",
    "C113_nji_of_estimate",
    "C113_nji_separate_refuted"
   ],
   "note": "Proved for the combined treatment; false for separate treatments."
  },
  {
   "property": "C114",
   "status": "partial",
   "theorems": [
    "C114_T_separate_models",
    "C114_T_separate_estimate",
    "C114_X_separate_models",
    "C114_X_separate_estimate",
    "C114_S_one_column",
    "C114_S_separate_refuted"
   ],
   "note": "T- and X-learner proved for any number of treatment columns, S-learner for one column; with two or more columns the S-learner evaluates its model only at encodings that are no treatment."
  },
  {
   "property": "C115",
   "status": "partial",
   "theorems": [
    "C115_target_partial",
    "C115_target_refuted",
    "C115_target_case_refuted"
   ],
   "note": "Proved when both groups saw the same classes; false otherwise (index into the wrong class list)."
  },
  {
   "property": "C116",
   "status": "partial",
   "theorems": [
    "C116_X_separate_discrete_refuted"
   ],
   "note": "False of the code for every data set: AttributeError."
  },
  {
   "property": "C117",
   "status": "proved",
   "theorems": [
    "C117_average"
   ],
   "note": "At least one row; exact reals."
  },
  {
   "property": "C118",
   "status": "partial",
   "theorems": [
    "C118_DR_estimate",
    "C118_outcome_block_refuted"
   ],
   "note": "Everything proved except 'for treatment i': the outcome model is always evaluated at an all-zero indicator block, which no group has (a comparison is written where an assignment was meant)."
  },
  {
   "property": "C119",
   "status": "partial",
   "theorems": [
    "C119_DR_propensity_partial",
    "C119_DR_outcome_refuted"
   ],
   "note": "(a) proved with an explicit error formula and bound; (b) false, because of C118's zero block."
  },
  {
   "property": "C12",
   "status": "partial",
   "theorems": [
    "C12_is_d_separated_partial",
    "C12_isolated_refuted"
   ],
   "note": "Full d-separation semantics (trails) for nodes that have an edge; isolated names raise NodeNotFound (C12_isolated_refuted)."
  },
  {
   "property": "C120",
   "status": "proved",
   "theorems": [
    "C120_DR_no_covariate"
   ],
   "note": "Any cf_fold; treat and control name groups."
  },
  {
   "property": "C121",
   "status": "proved",
   "theorems": [
    "C121_DR_cross_fit"
   ],
   "note": "KFold without shuffling, as the code uses it; a training fold with one class gives the same propensity to every group (in the statement)."
  },
  {
   "property": "C122",
   "status": "partial",
   "theorems": [
    "C122_DR_missing_group_refuted"
   ],
   "note": "False of the code for every such data set and every classifier with one class per observed group."
  },
  {
   "property": "C123",
   "status": "proved",
   "theorems": [
    "C123_DR_effect_nji"
   ],
   "note": "Zero column position characterised by the order of the codes."
  },
  {
   "property": "C124",
   "status": "partial",
   "theorems": [
    "C124_DR_estimate_pure_partial",
    "C124_DR_two_values_refuted"
   ],
   "note": "Proved for treat arguments with one value or one per column; two values for a one-column object are accepted and add an encoder."
  },
  {
   "property": "C125",
   "status": "partial",
   "theorems": [
    "C125_DR_refit_partial",
    "C125_DR_refit_new_value_refuted"
   ],
   "note": "Proved when both data sets have the same values per column; a new value is always refused and leaves new covariates with old models."
  },
  {
   "property": "C126",
   "status": "proved",
   "theorems": [
    "C126_DML_estimate"
   ],
   "note": "For any earlier state of the object; the final model's coefficients must have the shape (y_d, x_d*(v_d+1)); exact reals; proba_output=False, no transformers."
  },
  {
   "property": "C127",
   "status": "proved",
   "theorems": [
    "C127_DML_effect_of_final_model"
   ],
   "note": ""
  },
  {
   "property": "C128",
   "status": "proved",
   "theorems": [
    "C128_DML_recovers"
   ],
   "note": "Least squares with intercept; 'determined' is a linear-algebra condition on the design in the statement."
  },
  {
   "property": "C129",
   "status": "partial",
   "theorems": [
    "C129_DML_covariate_optional_refuted"
   ],
   "note": "False of the code: no fit without covariates ever succeeds (np.concatenate with None)."
  },
  {
   "property": "C13",
   "status": "partial",
   "theorems": [
    "C13_is_valid_backdoor_set_partial",
    "C13_single_treatment",
    "C13_refuted"
   ],
   "note": "Decides the criterion for sets of non-descendants whose names keep an edge; a set with a descendant of the treatment is accepted (C13_refuted)."
  },
  {
   "property": "C130",
   "status": "proved",
   "theorems": [
    "C130_DML_cross_fit"
   ],
   "note": "Continuous treatments; KFold without shuffling as in the code."
  },
  {
   "property": "C131",
   "status": "partial",
   "theorems": [
    "C131_DML_explicit_estimate_history",
    "C131_DML_default_history_refuted"
   ],
   "note": "Proved for calls that pass treat and control; false for the default treat, which an earlier call changes."
  },
  {
   "property": "C132",
   "status": "partial",
   "theorems": [
    "C132_DML_arrays",
    "C132_DML_array_treat_refuted"
   ],
   "note": "Proved when both are arrays; an array treat with the default control gives an (n, n, x_d) cross product."
  },
  {
   "property": "C133",
   "status": "proved",
   "theorems": [
    "C133_DML_discrete_estimate",
    "C133_DML_unknown_group"
   ],
   "note": "New object; treat/control as None, value or list."
  },
  {
   "property": "C134",
   "status": "partial",
   "theorems": [
    "C134_DML_repeat_partial",
    "C134_DML_repeat_refuted"
   ],
   "note": "Proved for several columns or the values 0,1,2,...; otherwise the second call compares another group or raises (exactly characterised)."
  },
  {
   "property": "C135",
   "status": "partial",
   "theorems": [
    "C135_DML_missing_group_refuted",
    "C135_DML_one_group_refuted"
   ],
   "note": "False of the code for every such data set (classifiers with one class per observed group; no cross fitting for the first)."
  },
  {
   "property": "C136",
   "status": "proved",
   "theorems": [
    "C136_DML_effect_nji",
    "C136_DML_effect_nji_cont"
   ],
   "note": ""
  },
  {
   "property": "C137",
   "status": "partial",
   "theorems": [
    "C137_DML_separate_models",
    "C137_DML_shared_model_refuted"
   ],
   "note": "Proved for objects with different yx_model; yx_model is not cloned, so objects built with one instance overwrite each other."
  },
  {
   "property": "C138",
   "status": "proved",
   "theorems": [
    "C138_DML_contrasts"
   ],
   "note": ""
  },
  {
   "property": "C139",
   "status": "partial",
   "theorems": [
    "C139_DML_array_strings_refuted",
    "C139_DML_array_codes_refuted"
   ],
   "note": "False of the code: arrays are never encoded."
  },
  {
   "property": "C14",
   "status": "proved",
   "theorems": [
    "C14_get_backdoor_set_unbiased",
    "C14_valid_set_unbiased"
   ],
   "note": "For every strictly positive discrete structural model of the graph, latent variables included."
  },
  {
   "property": "C140",
   "status": "partial",
   "theorems": [
    "C140_DML_refit_cont_partial",
    "C140_DML_refit_refuted"
   ],
   "note": "Proved for continuous treatments and any two histories; for discrete ones a data set with a new group is always refused and leaves new covariates with old coefficients."
  },
  {
   "property": "C141",
   "status": "proved",
   "theorems": [
    "C141_AB_formula"
   ],
   "note": "New object, one outcome, outcome model predicting shape (n,); with shares, every group must occur (C149)."
  },
  {
   "property": "C142",
   "status": "proved",
   "theorems": [
    "C142_AB_valid_sharp"
   ],
   "note": ""
  },
  {
   "property": "C143",
   "status": "partial",
   "theorems": [
    "C143_AB_zero_width",
    "C143_AB_zero_refuted"
   ],
   "note": "Contains 0 whenever the propensities are probabilities and predictions lie in the bounds; the documented 'always' is false of the code otherwise."
  },
  {
   "property": "C144",
   "status": "partial",
   "theorems": [
    "C144_AB_optimal_refuted",
    "C144_AB_optimal_shape_refuted"
   ],
   "note": "False of the code: two pairs (upper first) are returned and neither bounds the effect."
  },
  {
   "property": "C145",
   "status": "partial",
   "theorems": [
    "C145_AB_refit_refuted",
    "C145_AB_refit_probabilities"
   ],
   "note": "False of the code: the probabilities of the first fit are kept for ever."
  },
  {
   "property": "C146",
   "status": "partial",
   "theorems": [
    "C146_AB_new_data_partial",
    "C146_AB_new_data_coded_partial",
    "C146_AB_new_data_refuted"
   ],
   "note": "Proved without covariates, and with covariates for treatment values 0..k-1; with covariates and string treatments no call succeeds."
  },
  {
   "property": "C147",
   "status": "partial",
   "theorems": [
    "C147_AB_discrete_covariate_refuted"
   ],
   "note": "False of the code for every data set (unless x_prob is given)."
  },
  {
   "property": "C148",
   "status": "proved",
   "theorems": [
    "C148_AB_estimate_pure",
    "C148_AB_not_fitted"
   ],
   "note": ""
  },
  {
   "property": "C149",
   "status": "partial",
   "theorems": [
    "C149_AB_missing_group_refuted",
    "C149_AB_missing_group_value_refuted"
   ],
   "note": "False of the code: the shares are shifted."
  },
  {
   "property": "C15",
   "status": "proved",
   "theorems": [
    "C15_all",
    "C15_minimal",
    "C15_error",
    "C17_fails_only_if_none_partial"
   ],
   "note": ""
  },
  {
   "property": "C150",
   "status": "proved",
   "theorems": [
    "C150_NP_formula",
    "C150_NP_not_fitted"
   ],
   "note": "New object; x_model predicts two-dimensional arrays; basis objects are stateless transformers."
  },
  {
   "property": "C151",
   "status": "proved",
   "theorems": [
    "C151_NP_recovers_effect"
   ],
   "note": ""
  },
  {
   "property": "C152",
   "status": "partial",
   "theorems": [
    "C152_NP_two_stage_least_squares_partial",
    "C152_NP_least_squares_refuted"
   ],
   "note": "Proved when the covariate basis is the constant; false of the code otherwise, because the first stage predicts the treatment expansion before it is multiplied with the covariate expansion (witness: wrong by a factor 3 without any error)."
  },
  {
   "property": "C153",
   "status": "partial",
   "theorems": [
    "C153_NP_average_refuted",
    "C153_NP_average_type_error_refuted"
   ],
   "note": "False of the code for every call (TypeError: mean(dim=0))."
  },
  {
   "property": "C154",
   "status": "partial",
   "theorems": [
    "C154_NP_nji_partial",
    "C154_NP_nji_refuted"
   ],
   "note": "Proved for several discrete treatment columns; no call succeeds for continuous treatments or one discrete column."
  },
  {
   "property": "C155",
   "status": "partial",
   "theorems": [
    "C155_NP_no_covariates_refuted",
    "C155_NP_covar_list_refuted",
    "C155_NP_default_call_refuted"
   ],
   "note": "False of the code for every data set."
  },
  {
   "property": "C156",
   "status": "partial",
   "theorems": [
    "C156_NP_counterfactual_partial",
    "C156_NP_counterfactual_numbers_refuted",
    "C156_NP_counterfactual_training_refuted",
    "C156_NP_counterfactual_strings_refuted"
   ],
   "note": "Proved for continuous treatments and given data; false otherwise."
  },
  {
   "property": "C157",
   "status": "partial",
   "theorems": [
    "C157_NP_discrete_instrument_refuted"
   ],
   "note": "False of the code for every data set."
  },
  {
   "property": "C158",
   "status": "proved",
   "theorems": [
    "C158_NP_polynomial_basis"
   ],
   "note": ""
  },
  {
   "property": "C159",
   "status": "partial",
   "theorems": [
    "C159_NP_contrasts",
    "C159_NP_default_treat_refuted"
   ],
   "note": "Contrasts proved; the default treat is the category value 1, which raises for treatments without this value."
  },
  {
   "property": "C16",
   "status": "partial",
   "theorems": [
    "C16_simple_partial",
    "C16_refuted"
   ],
   "note": "Valid (criterion and adjustment formula) when no latent arc touches a treatment and no parent is a treatment, outcome or descendant; otherwise false of the code (C16_refuted)."
  },
  {
   "property": "C160",
   "status": "partial",
   "theorems": [
    "C160_estimate_partial",
    "C160_gap_refuted",
    "C160_attenuated_refuted",
    "C160_example_refuted",
    "C160_regular_inverse",
    "C160_usable"
   ],
   "note": "The equations the code solves are proved to determine the estimate; they are not the documented ones: alpha * y stands where the weighted sum of y is meant, so with k equally weighted rows the effect is too small by the factor 1 - 1/k."
  },
  {
   "property": "C161",
   "status": "partial",
   "theorems": [
    "C161_weights_partial",
    "C161_single_node_refuted",
    "C161_outside_refuted",
    "C161_empty_leaf_refuted"
   ],
   "note": "Proved: non-negative, the sum is the share of the trees with a labelling row in the leaf, 1 without honesty. False in general: trees that are single nodes weight rows outside the sub-sample; honest leaves may be empty."
  },
  {
   "property": "C162",
   "status": "partial",
   "theorems": [
    "C162_rowwise",
    "C162_no_rows_refuted",
    "C162_unfitted"
   ],
   "note": "Proved for at least one row; no rows raise ValueError."
  },
  {
   "property": "C163",
   "status": "partial",
   "theorems": [
    "C163_ignored_refuted",
    "C163_sum_only_refuted"
   ],
   "note": "False of the code."
  },
  {
   "property": "C164",
   "status": "partial",
   "theorems": [
    "C164_honest",
    "C164_int_refuted",
    "C164_swapped_refuted"
   ],
   "note": "Honesty proved; integers raise AttributeError, floats are the share that labels."
  },
  {
   "property": "C165",
   "status": "partial",
   "theorems": [
    "C165_ignored_refuted"
   ],
   "note": "False of the code: random_state is overwritten by 2022."
  },
  {
   "property": "C166",
   "status": "partial",
   "theorems": [
    "C166_apply_refuted",
    "C166_effect_nji_refuted",
    "C166_importance_refuted"
   ],
   "note": "False of the code; feature_importance is refuted for forests of single nodes."
  },
  {
   "property": "C167",
   "status": "partial",
   "theorems": [
    "C167_warm_start",
    "C167_stale_refuted",
    "C167_index_refuted"
   ],
   "note": "Growing on the same data proved; on new data old trees are kept."
  },
  {
   "property": "C168",
   "status": "partial",
   "theorems": [
    "C168_refit",
    "C168_failed_refit_refuted"
   ],
   "note": "Successful refits proved; a failed one leaves a mixed object."
  },
  {
   "property": "C169",
   "status": "partial",
   "theorems": [
    "C169_bounds_partial",
    "C169_tree_safe_partial",
    "C169_overflow_refuted"
   ],
   "note": "Exact condition: as many samples in the node as treatment columns. False with the defaults and two treatment columns."
  },
  {
   "property": "C17",
   "status": "partial",
   "theorems": [
    "C17_fails_only_if_none_partial",
    "C17_none",
    "C17_refuted_none",
    "C17_refuted_crash"
   ],
   "note": "Proved for treatments with a parent in graphs where no name loses all its edges; false of the code otherwise."
  },
  {
   "property": "C170",
   "status": "proved",
   "theorems": [
    "C170_best_split"
   ],
   "note": ""
  },
  {
   "property": "C171",
   "status": "partial",
   "theorems": [
    "C171_shift_refuted"
   ],
   "note": "False of the code: the pseudo-outcomes come from a regression without intercept."
  },
  {
   "property": "C172",
   "status": "partial",
   "theorems": [
    "C172_no_covariate_refuted"
   ],
   "note": "False of the code for every data set."
  },
  {
   "property": "C173",
   "status": "partial",
   "theorems": [
    "C173_CF_continuous_partial"
   ],
   "note": "As C160: the right-hand side of the moment equations is not the documented one."
  },
  {
   "property": "C174",
   "status": "partial",
   "theorems": [
    "C174_CF_discrete_partial"
   ],
   "note": "As C160: the right-hand side of the moment equations is not the documented one."
  },
  {
   "property": "C175",
   "status": "partial",
   "theorems": [
    "C175_CF_attenuated_refuted"
   ],
   "note": "False of the code: too small by the factor 1 - 1/n (proved for forests of single nodes)."
  },
  {
   "property": "C176",
   "status": "partial",
   "theorems": [
    "C176_CF_quantity_refuted"
   ],
   "note": "False of the code: the arguments are ignored."
  },
  {
   "property": "C177",
   "status": "partial",
   "theorems": [
    "C177_CF_effect_nji_refuted",
    "C177_CF_apply_refuted"
   ],
   "note": "False of the code for every fitted object."
  },
  {
   "property": "C178",
   "status": "partial",
   "theorems": [
    "C178_CF_no_covariate_refuted",
    "C178_CF_transformer_refuted"
   ],
   "note": "False of the code."
  },
  {
   "property": "C179",
   "status": "partial",
   "theorems": [
    "C179_CF_control_array_refuted",
    "C179_CF_control_strings_refuted"
   ],
   "note": "False of the code: the array holds positions of groups."
  },
  {
   "property": "C18",
   "status": "proved",
   "theorems": [
    "C18_powerset"
   ],
   "note": ""
  },
  {
   "property": "C180",
   "status": "partial",
   "theorems": [
    "C180_CF_failed_fit_refuted"
   ],
   "note": "False of the code."
  },
  {
   "property": "C181",
   "status": "partial",
   "theorems": [
    "C181_RLoss_score_partial"
   ],
   "note": "Only for estimators fitted with the same names in the same order (C183); the effect must have the shape (rows, outcomes, treatments)."
  },
  {
   "property": "C182",
   "status": "partial",
   "theorems": [
    "C182_RLoss_score_disc_partial"
   ],
   "note": "Same names as in C181; the group is the one with the estimator's group number in the validation set (C185)."
  },
  {
   "property": "C183",
   "status": "partial",
   "theorems": [
    "C183_RLoss_one_name_refuted",
    "C183_RLoss_order_refuted"
   ],
   "note": "False of the code: columns are matched by position, a single name is taken apart into letters."
  },
  {
   "property": "C184",
   "status": "partial",
   "theorems": [
    "C184_RLoss_nonneg",
    "C184_RLoss_zero_partial"
   ],
   "note": "Non-negativity for every estimator; the zero case under the conditions of C181."
  },
  {
   "property": "C185",
   "status": "partial",
   "theorems": [
    "C185_RLoss_groups_refuted"
   ],
   "note": "False of the code: group numbers of the estimator index the groups of the validation set."
  },
  {
   "property": "C186",
   "status": "partial",
   "theorems": [
    "C186_RLoss_failed_fit_refuted",
    "C186_RLoss_no_covariate",
    "C186_RLoss_refit"
   ],
   "note": "Proved for continuous treatments and for a missing covariate; false for a fit that raises because of a new treatment value."
  },
  {
   "property": "C187",
   "status": "partial",
   "theorems": [
    "C187_RLoss_unfitted",
    "C187_RLoss_adjustment_refuted",
    "C187_RLoss_no_treat_refuted"
   ],
   "note": "An unfitted RLoss raises; the rest is false of the code."
  },
  {
   "property": "C188",
   "status": "proved",
   "theorems": [
    "C188_RLoss_of_DoubleML"
   ],
   "note": ""
  },
  {
   "property": "C189",
   "status": "proved",
   "theorems": [
    "C189_explanation",
    "C189_example"
   ],
   "note": "The tree is the one of BestFirstModel/SplitterModel; the float32 cast is any idempotent function."
  },
  {
   "property": "C19",
   "status": "proved",
   "theorems": [
    "C19_get_backdoor_path"
   ],
   "note": "Paths of the graph with explicit hidden variables."
  },
  {
   "property": "C190",
   "status": "proved",
   "theorems": [
    "C190_same_reason"
   ],
   "note": ""
  },
  {
   "property": "C191",
   "status": "partial",
   "theorems": [
    "C191_agree",
    "C191_plot_label",
    "C191_names_refuted"
   ],
   "note": "Agreement proved for every list of names; too short a list is accepted by fit and makes decide raise IndexError, and plot leaves treatments out."
  },
  {
   "property": "C192",
   "status": "partial",
   "theorems": [
    "C192_single_treatment_refuted",
    "C192_criterion_refuted"
   ],
   "note": "False of the code for a single treatment and for the criteria other than policy_reg; for the remaining fits C189 and C191 prove it."
  },
  {
   "property": "C193",
   "status": "partial",
   "theorems": [
    "C193_covariate_refuted",
    "C193_covariate_partial"
   ],
   "note": "True only if the effects are given by the caller; otherwise covariate= has no influence on the answers."
  },
  {
   "property": "C194",
   "status": "proved",
   "theorems": [
    "C194_refit",
    "C194_failed_fit",
    "C194_unfitted"
   ],
   "note": ""
  },
  {
   "property": "C195",
   "status": "proved",
   "theorems": [
    "C195_training_data",
    "C195_fit_succeeds"
   ],
   "note": ""
  },
  {
   "property": "C196",
   "status": "proved",
   "theorems": [
    "C196_node_dict",
    "C196_root_and_children",
    "C196_fit_succeeds",
    "C196_promise_example"
   ],
   "note": "sklearn's tree is any binary tree over the training rows (sk_promise)."
  },
  {
   "property": "C197",
   "status": "proved",
   "theorems": [
    "C197_interpret",
    "C197_training_data"
   ],
   "note": ""
  },
  {
   "property": "C198",
   "status": "partial",
   "theorems": [
    "C198_predict_partial",
    "C198_other_columns_refuted",
    "C198_by_position_refuted",
    "C198_swapped_refuted"
   ],
   "note": "Proved for frames with exactly the covariates in their order; predict takes columns by position, interpret by name."
  },
  {
   "property": "C199",
   "status": "partial",
   "theorems": [
    "C199_failed_refit_refuted",
    "C199_refit",
    "C199_unfitted"
   ],
   "note": "A fit that fails in estimate leaves the new rows with the old tree."
  },
  {
   "property": "C20",
   "status": "partial",
   "theorems": [
    "C20_has_collider_partial",
    "C20_has_collider",
    "C20_forward",
    "C20_refuted"
   ],
   "note": "C20_has_collider gives the exact answer for every path; it is the collider test unless the path is an all-backward chain of at least 4 nodes, where the code answers True (C20_refuted)."
  },
  {
   "property": "C200",
   "status": "proved",
   "theorems": [
    "C200_estimate",
    "C200_defaults"
   ],
   "note": ""
  },
  {
   "property": "C201",
   "status": "proved",
   "theorems": [
    "C201_independent"
   ],
   "note": ""
  },
  {
   "property": "C202",
   "status": "partial",
   "theorems": [
    "C202_effect_nji",
    "C202_effect_nji_columns",
    "C202_unknown_control",
    "C202_several_outcomes_refuted",
    "C202_no_data_refuted"
   ],
   "note": "Proved for one outcome and given data. With two or more outcomes the block of the control group is np.zeros((n, y, y)), so there are too many columns; without data it raises."
  },
  {
   "property": "C203",
   "status": "partial",
   "theorems": [
    "C203_learner_unchanged",
    "C203_refit_fresh",
    "C203_unfitted",
    "C203_failed_refit_refuted"
   ],
   "note": "After a failed fit the object goes on answering with the learners of the fit before."
  },
  {
   "property": "C204",
   "status": "partial",
   "theorems": [
    "C204_quiet_questions",
    "C204_treat",
    "C204_treat_refuted",
    "C204_stale_treat_refuted"
   ],
   "note": "treat is that of the learner of the pair, i.e. the later group, whichever was asked; it survives a new fit."
  },
  {
   "property": "C205",
   "status": "partial",
   "theorems": [
    "C205_slearner_estimate",
    "C205_repeat_refuted"
   ],
   "note": "Proved for the first question about a pair; a second one raises for string values (the defect of C105)."
  },
  {
   "property": "C206",
   "status": "proved",
   "theorems": [
    "clean_first_fit_columns"
   ],
   "note": "Rows by position; X has no column of the internal label name."
  },
  {
   "property": "C207",
   "status": "partial",
   "theorems": [
    "clean_fit_values",
    "clean_no_infinity_partial",
    "clean_no_infinity_refuted"
   ],
   "note": "Infinities are replaced before text is read as numbers, so a text column with 'inf' brings them back."
  },
  {
   "property": "C208",
   "status": "proved",
   "theorems": [
    "clean_training_again"
   ],
   "note": ""
  },
  {
   "property": "C209",
   "status": "partial",
   "theorems": [
    "clean_transform_columns",
    "clean_transform_local",
    "clean_transform_dtype_refuted",
    "clean_reserved_refuted"
   ],
   "note": "Columns, rows, errors and conversions are characterised; the type of the fit is not guaranteed (one bad cell turns the column into texts), and a reserved column is converted to the type of the fit (1/2 becomes 0)."
  },
  {
   "property": "C21",
   "status": "partial",
   "theorems": [
    "C21_is_connected_partial",
    "C21_is_connected",
    "C21_refuted"
   ],
   "note": "Exact characterisation proved; differs from the claim on all-backward chains only (C21_refuted)."
  },
  {
   "property": "C210",
   "status": "partial",
   "theorems": [
    "clean_transform_keeps_state",
    "clean_copy_safe",
    "clean_refit_refuted",
    "clean_early_transform_refuted",
    "clean_append_before_fit",
    "clean_append_forgotten_refuted",
    "clean_caller_refuted"
   ],
   "note": "After a fit transform keeps the state; but a second fit reuses the dropped columns of the first, a transform before the fit raises and is remembered, append_drop_columns before a fit raises TypeError, and what it drops after a fit is back after another. Without copy_data the labels stay in the caller's frame."
  },
  {
   "property": "C211",
   "status": "partial",
   "theorems": [
    "C211_columns_assigned",
    "C211_repeated_name_refuted"
   ],
   "note": "Proved when no feature names a column twice or one the frame lacks; a name given twice makes the default forget a column."
  },
  {
   "property": "C212",
   "status": "partial",
   "theorems": [
    "C212_fit_transform_is_fit_then_transform_partial",
    "C212_tuple_refuted",
    "C212_shared_transformer_refuted",
    "C212_long_name_refuted"
   ],
   "note": "Proved for features that are no tuples, transformer objects not shared between features and no lone left-over column with a name of more than 64 characters; each of these three is a counterexample."
  },
  {
   "property": "C213",
   "status": "partial",
   "theorems": [
    "C213_transform_result",
    "C213_transform_succeeds_partial",
    "C213_names",
    "C213_no_column_refuted"
   ],
   "note": "Succeeds if every transformer puts out at least one column; with df_out one without output makes transform fail."
  },
  {
   "property": "C214",
   "status": "partial",
   "theorems": [
    "C214_transform_reads_fitted_columns",
    "C214_transform_missing_column",
    "C214_refit_forgets",
    "C214_failed_refit_refuted"
   ],
   "note": "A fit that fails leaves the old columns with transformers fitted anew."
  },
  {
   "property": "C215",
   "status": "partial",
   "theorems": [
    "C215_codes",
    "C215_codes_distinguish",
    "C215_no_rows_refused",
    "C215_roundtrip_partial",
    "C215_float_roundtrip_refuted",
    "C215_reordered_frame_refuted"
   ],
   "note": "The codes are right and go back with an integer dtype. With the default float64 inverse_transform raises as soon as one value was seen; an empty frame is refused; columns are matched by position, not by name."
  },
  {
   "property": "C216",
   "status": "partial",
   "theorems": [
    "C216_number",
    "C216_threshold",
    "C216_quantile",
    "C216_select_total",
    "C216_fit_partial",
    "C216_importances_refuted",
    "C216_names_refuted",
    "C216_task_sticks_refuted"
   ],
   "note": "The selection is proved. Names: proved for names of at most 64 characters and no number column without values. Importances: proved if a column was left out or preprocessing keeps the order; otherwise they come in the order categorical, bool, number. The inferred task is stored in the parameter."
  },
  {
   "property": "C217",
   "status": "partial",
   "theorems": [
    "C217_names",
    "C217_explicit_task",
    "C217_refusals",
    "C217_others",
    "C217_inferred_task_refuted",
    "C217_xgboost_kwargs_refuted"
   ],
   "note": "Proved for explicit tasks. An inferred task always gives a classifier (lasso always fails), XGBoost gets no keyword argument, an unknown name is returned as it is."
  },
  {
   "property": "C218",
   "status": "partial",
   "theorems": [
    "C218_identify_treatment_partial",
    "C218_most_important_refuted"
   ],
   "note": "The result is characterised: the importances play no role, the columns are taken in the order categorical, bool, number (selected indices come in column order, and all are selected). So the claim is false."
  },
  {
   "property": "C219",
   "status": "partial",
   "theorems": [
    "C219_registry_history",
    "C219_names",
    "C219_models",
    "C219_settings",
    "C219_accept",
    "C219_dr_refuted",
    "C219_fresh"
   ],
   "note": "All proved but two parts, which are false: the doubly robust factory rejects a continuous treatment only if the task is given by name (Why gives a flag), and a new two stage estimator counts as fitted (its categories argument lands in the parameter _is_fitted). DeepIV is only registered."
  },
  {
   "property": "C22",
   "status": "partial",
   "theorems": [
    "C22_is_frontdoor_set_partial",
    "C22_refuted_names",
    "C22_refuted_ancestor",
    "C22_refuted_crash"
   ],
   "note": "Every answer is the criterion for sets without ancestors of the treatment, and it answers for one-letter names that keep an edge; outside, false of the code (three refutations)."
  },
  {
   "property": "C220",
   "status": "partial",
   "theorems": [
    "C220_choice",
    "C220_auto",
    "C220_auto_refuted",
    "C220_unknown"
   ],
   "note": "The choice and exactly when it can be made are proved; for a discrete outcome, a continuous treatment and no instruments the choice (T-learner) is always refused although double machine learning would serve."
  },
  {
   "property": "C221",
   "status": "proved",
   "theorems": [
    "C221_copy",
    "C221_shape",
    "C221_fit"
   ],
   "note": "Estimators, preprocessor, identifier and is_discrete are parameters. What becomes of outcome and treatments is stated for roles that do not overlap (identify sees to that; C69)."
  },
  {
   "property": "C222",
   "status": "partial",
   "theorems": [
    "C222_failed_fit",
    "C222_refit_flags",
    "C222_refit_partial",
    "C222_refit_refuted"
   ],
   "note": "A failed fit: proved. A new fit depends on the object only through discrete_outcome and discrete_treatment: proved, so the claim holds if both were given. If left to be inferred they stay what the first fit (even a failed one) inferred, so that a continuous outcome may be replaced by ranks."
  },
  {
   "property": "C223",
   "status": "partial",
   "theorems": [
    "C223_contrasts",
    "C223_default_contrasts",
    "C223_summary",
    "C223_cost_refuted",
    "C223_bound_refuted",
    "C223_iv_refuted",
    "C223_grf_refuted"
   ],
   "note": "Contrasts, labels, estimators and summaries are proved. fn_cost is not applied without test data; ApproxBound never works, NP2SLS not with a discrete outcome, and with GRForest all contrasts of a treatment have equal effects. std is left out."
  },
  {
   "property": "C224",
   "status": "partial",
   "theorems": [
    "C224_rows",
    "C224_ite_partial",
    "C224_labels_refuted",
    "C224_cost_refuted",
    "C224_target_refuted"
   ],
   "note": "Proved for unique row labels, continuous outcomes and no fn_cost (for the agreement). Repeated labels give the first row's values or KeyError, fn_cost is ignored, and target_outcome is taken for the place of a class."
  },
  {
   "property": "C225",
   "status": "partial",
   "theorems": [
    "C225_score",
    "C225_instrument_refuted",
    "C225_target_refuted"
   ],
   "note": "The value is proved. score always fails with instruments or without covariates, and target_outcome is ignored. auuc and qini are left out here."
  },
  {
   "property": "C226",
   "status": "partial",
   "theorems": [
    "C226_continuous",
    "C226_summary",
    "C226_string_refuted"
   ],
   "note": "Proved for lists; a string is walked through letter by letter and never works for names of two letters or more."
  },
  {
   "property": "C227",
   "status": "partial",
   "theorems": [
    "C227_guide",
    "C227_default",
    "C227_mlp",
    "C227_names_partial",
    "C227_names_refuted"
   ],
   "note": "Model and guide agree without restriction. Names differ if the nodes have distinct names without double underscores other than 'graph'; a node 'graph', or nodes 'A' and 'A__weight', give two statements of one name."
  },
  {
   "property": "C228",
   "status": "partial",
   "theorems": [
    "C228_any",
    "C228_partial",
    "C228_refuted"
   ],
   "note": "Holds for node names without underscores. In general the part of the name before the first underscore decides: a category node 'a_b' gets a normal guide."
  },
  {
   "property": "C229",
   "status": "partial",
   "theorems": [
    "C229_root_bounds",
    "C229_root_refuted",
    "C229_child_zero",
    "C229_child_odds",
    "C229_child_refuted",
    "C229_normal",
    "C229_mlp"
   ],
   "note": "The numerical part is proved. For category nodes it is false: the Dirichlet weight is used as logits, so every class has a probability between 1/(e+n-1) and e/(e+n-1), a child is uniform when all parents have code 0, and an MLP on class codes equals a linear layer."
  },
  {
   "property": "C23",
   "status": "partial",
   "theorems": [
    "C23_minimal",
    "C23_all",
    "C23_error",
    "C23_total",
    "C23_refuted_empty",
    "C23_refuted_crash",
    "C23_refuted_names"
   ],
   "note": "Soundness, minimality, completeness and the meaning of IdentificationError for names with an edge; 'simple'/'minimal' raise when the empty set is the answer, and the search can crash (refutations)."
  },
  {
   "property": "C230",
   "status": "partial",
   "theorems": [
    "C230_first",
    "C230_partial",
    "C230_refuted",
    "C230_import"
   ],
   "note": "The result for every history is characterised: the first request with the same joined class names decides. Since the import already requests the four standard classes, options given later for them are ignored."
  },
  {
   "property": "C231",
   "status": "partial",
   "theorems": [
    "C231_fit_needs",
    "C231_no_adjustment_refuted",
    "C231_continuous_default_refuted",
    "C231_default_device_refuted",
    "C231_user_outcome_net_refuted",
    "C231_int_hidden_refuted",
    "C232_fit_continuous",
    "C232_fit_discrete"
   ],
   "note": "Each default listed makes fit fail, for every frame and network; C232_fit_continuous and C232_fit_discrete show that fit succeeds with adjustment, lists for the hidden sizes, sample_n and device='cpu'."
  },
  {
   "property": "C232",
   "status": "partial",
   "theorems": [
    "C232_fit_continuous",
    "C232_fit_discrete",
    "C232_sample_n_ignored_refuted",
    "C232_discrete_instrument_refuted"
   ],
   "note": "The training sets are given exactly for a continuous instrument and outcome and default networks. The draws beyond the first are dropped, so sample_n has no effect; a discrete instrument with a continuous treatment always fails (approx_grad)."
  },
  {
   "property": "C233",
   "status": "partial",
   "theorems": [
    "C233_continuous",
    "C233_defaults",
    "C233_one_treatment",
    "C233_linear_refuted"
   ],
   "note": "The value is characterised for every network: only row i < number of treatments gets a treatment, so with one treatment the answer is the difference at row 0 divided by the number of rows. The claim holds for one row."
  },
  {
   "property": "C234",
   "status": "partial",
   "theorems": [
    "C234_discrete",
    "C234_code_beyond_rows_refuted",
    "C234_control_ignored_refuted",
    "C234_marginal_refuted",
    "C234_cate_is_ate"
   ],
   "note": "Holds for control = class 0 and a class number below the number of rows; control is ignored, a class number not below the number of rows is an IndexError, and marginal_effect=True gives a level."
  },
  {
   "property": "C235",
   "status": "partial",
   "theorems": [
    "C235_unfitted",
    "C235_marginal_refuted",
    "C235_effect_nji_refuted",
    "C235_discrete_outcome_refuted",
    "C235_cuda_refuted"
   ],
   "note": "The refusal of a new object is proved; each of the other parts is false for every estimator."
  },
  {
   "property": "C236",
   "status": "partial",
   "theorems": [
    "C236_refit_independent",
    "C236_failed_fit_refuted",
    "C236_failed_refit_refuted"
   ],
   "note": "Independence of the history is proved; after a failed fit estimate answers from the untrained networks."
  },
  {
   "property": "C237",
   "status": "partial",
   "theorems": [
    "C237_all_float64",
    "C237_no_float64",
    "C237_mixed_refuted"
   ],
   "note": "Proved for frames with only or no float64 columns; every mixture (an integer treatment, say) is a ValueError."
  },
  {
   "property": "C238",
   "status": "proved",
   "theorems": [
    "C238_entries",
    "C238_shallow",
    "C238_missing",
    "C238_total"
   ],
   "note": "For every heap of objects with distinct arguments whose names contain no double underscore and do not end with one; C238_total: an object whose arguments are all attributes, nested without a cycle, is always answered."
  },
  {
   "property": "C239",
   "status": "proved",
   "theorems": [
    "C239_single",
    "C239_set_then_get",
    "C239_replace",
    "C239_round_trip"
   ],
   "note": "Names as in C238; the statement that get_params shows the new value needs nesting without a cycle."
  },
  {
   "property": "C24",
   "status": "partial",
   "theorems": [
    "C24_get_iv_partial",
    "C24_get_iv_exact",
    "C24_refuted",
    "C24_refuted_child"
   ],
   "note": "Exact result proved for every graph; every returned node is a valid instrument unless the outcome is a cause of the treatment, where the code can return the outcome itself (refutations)."
  },
  {
   "property": "C240",
   "status": "partial",
   "theorems": [
    "C240_unknown_partial",
    "C240_nested_unknown_partial",
    "C240_atomic_refuted",
    "C240_shared_refuted"
   ],
   "note": "Proved: an unknown name is a ValueError, no other object changes, and a call with this name only (at any depth) changes nothing. False: valid names before the unknown one have been assigned; a shared sub-object shows the change in both estimators."
  },
  {
   "property": "C241",
   "status": "partial",
   "theorems": [
    "C241_readable",
    "C241_unreadable_refuted",
    "C241_lost_refuted"
   ],
   "note": "Holds for DoubleML, DoublyRobust, GRForest, CTCausalForest, CausalTree, GrfTree, ApproxBound, RLoss, PermutedLearner (arguments without a value of their own) and fails for every S-, T-, X-learner, CausalForest, DeepIV and permuted S/T/X/DR/CT learner; NP2SLS loses categories, the forests lose random_state."
  },
  {
   "property": "C242",
   "status": "proved",
   "theorems": [
    "C242_curves",
    "C242_scores"
   ],
   "note": "For score columns with distinct names that are not called like the random column (C243 has the collision); the single-column functions are those of C52-C55, C74-C76."
  },
  {
   "property": "C243",
   "status": "partial",
   "theorems": [
    "C243_columns",
    "C243_dropped",
    "C243_collision_refuted",
    "C243_unnamed_refuted"
   ],
   "note": "Proved for frames without a score column called like the baseline. False otherwise: such a column is overwritten in the curves and dropped from the scores; with random=None a column called RANDOM is dropped from the qini score."
  },
  {
   "property": "C244",
   "status": "partial",
   "theorems": [
    "C244_qini_zero",
    "C244_no_top_point",
    "C244_random_values",
    "C244_random_refuted"
   ],
   "note": "The qini score of the baseline is 0 for every draw. False: curve and auuc score of the baseline come from different draws (exact relation in C244_random_values), and its top points are a KeyError."
  },
  {
   "property": "C245",
   "status": "partial",
   "theorems": [
    "C245_unfitted",
    "C245_succeeds",
    "C245_refit",
    "C245_flag",
    "C245_failed_partial",
    "C245_mixed",
    "C245_mixed_refuted"
   ],
   "note": "Without true_effect a failed fit changes nothing. With true_effect a frame without one of the groups replaces the lift and gain curves, and the object goes on answering with a mixture."
  },
  {
   "property": "C246",
   "status": "partial",
   "theorems": [
    "C246_er",
    "C246_directed",
    "C246_result",
    "C246_acyclic_refuted",
    "C246_acyclic_partial"
   ],
   "note": "igraph's is_dag is assumed to decide acyclicity, the directed draws to be acyclic. False for simulate_random_graph: np.tril(k=1) keeps the first upper diagonal, so the result has cycles."
  },
  {
   "property": "C247",
   "status": "proved",
   "theorems": [
    "C247_weights",
    "C247_default",
    "C247_lags"
   ],
   "note": "For every draw of ranges and of numbers in [0, 1)."
  },
  {
   "property": "C248",
   "status": "partial",
   "theorems": [
    "C248_linear",
    "C248_discrete",
    "C248_order",
    "C248_errors",
    "C248_population",
    "C248_gen",
    "C248_nonlinear_partial",
    "C248_nonlinear_refuted"
   ],
   "note": "simulate_linear_sem in full (exact arithmetic; igraph's topological order assumed valid). The nonlinear generator only without noise_scale: an array is a ValueError, a scalar a TypeError."
  },
  {
   "property": "C249",
   "status": "partial",
   "theorems": [
    "C249_shd",
    "C249_shd_zero",
    "C249_shd_equal",
    "C249_proportions",
    "C249_perfect",
    "C249_dags",
    "C249_fpr_refuted"
   ],
   "note": "For binary true graphs with each edge in one direction and estimates in {0,1,-1} with each edge entered once. fpr is not a proportion: it can be 3."
  },
  {
   "property": "C25",
   "status": "proved",
   "theorems": [
    "C25_get_iv_complete",
    "C25_get_iv_total",
    "C25_is_valid_iv"
   ],
   "note": "is_valid_iv for outcomes that do not cause the treatment."
  },
  {
   "property": "C250",
   "status": "partial",
   "theorems": [
    "C250_block",
    "C250_dygen",
    "C250_errors",
    "C250_no_noise",
    "C250_recent_refuted"
   ],
   "note": "From the drawn matrices on, exact arithmetic. False: the first weight matrix multiplies the oldest of the order blocks."
  },
  {
   "property": "C251",
   "status": "partial",
   "theorems": [
    "C251_layout",
    "C251_layout_error",
    "C251_dygen_layout",
    "C251_truth_fits_partial",
    "C251_truth_optimal_partial",
    "C251_lags_refuted",
    "C251_truth_refuted"
   ],
   "note": "The fit is proved for order 1. For order >= 2 it is false: every lag matrix multiplies the same block, so the predictions depend on their sum only."
  },
  {
   "property": "C252",
   "status": "partial",
   "theorems": [
    "C252_terminates",
    "C252_stops",
    "C252_continues",
    "C252_first",
    "C252_small_refuted"
   ],
   "note": "For rho_max > 1; otherwise the first epoch is a TypeError (alpha += rho * None)."
  },
  {
   "property": "C253",
   "status": "partial",
   "theorems": [
    "C253_dag",
    "C253_signed_partial",
    "C253_lags",
    "C253_options_refuted",
    "C253_threshold_refuted"
   ],
   "note": "For non-negative weights in full, for weights of any sign if the kept directions have no cycle (networkx' shortest paths with negative weights are not modelled). False: return_dict and the column names are ignored, the lag coefficients have a fixed cut of 0.1 (0.3)."
  },
  {
   "property": "C254",
   "status": "partial",
   "theorems": [
    "C254_select",
    "C254_align",
    "C254_fallback",
    "C254_empty_refuted"
   ],
   "note": "The columns are ranked by |weight| for every sorting. If there are causes but none of the requested kind the result is empty and the default is not tried (refuted); without a requested kind a limit of 1 still gives two columns (C254_align with limit 1, C40)."
  },
  {
   "property": "C255",
   "status": "partial",
   "theorems": [
    "C255_matrix",
    "C255_aci",
    "C255_failure",
    "C255_consistent",
    "C255_nan",
    "C255_stale_refuted"
   ],
   "note": "Holds as stated; but the kept matrix is also used for other data and outcomes, whose unknown names are then an error (C255_stale_refuted)."
  },
  {
   "property": "C256",
   "status": "partial",
   "theorems": [
    "C256_matrix",
    "C256_dag",
    "C256_dict",
    "C256_foreign",
    "C256_array",
    "C256_castle",
    "C256_castle_refuted",
    "C256_order_refuted"
   ],
   "note": "For every order in which pandas joins unequal labels: so the columns of a DataFrame may come in another order than the data's (refuted by an example). GCastleProxy with return_dict and a threshold is always a TypeError."
  },
  {
   "property": "C257",
   "status": "proved",
   "theorems": [
    "C257_options",
    "C257_reserved"
   ],
   "note": "self and data: the first two parameters of the constructor."
  },
  {
   "property": "C258",
   "status": "partial",
   "theorems": [
    "C258_once",
    "C258_off",
    "C258_transparent_partial",
    "C258_counted",
    "C258_uncounted_refuted",
    "C258_iterator_refuted"
   ],
   "note": "Transparent if formatting the arguments has no effect; formatting an iterator takes up to five of its elements from the caller (refuted). With details a call whose arguments do not fit the signature is not counted (refuted)."
  },
  {
   "property": "C259",
   "status": "partial",
   "theorems": [
    "C259_report",
    "C259_average",
    "C259_names_refuted"
   ],
   "note": "For names made by the decorator; names given by the user are cut by the report and can hide each other (refuted)."
  },
  {
   "property": "C26",
   "status": "partial",
   "theorems": [
    "C26_id_sound_partial",
    "C26_id_without_arcs",
    "C26_refuted",
    "C26_refuted_isolated"
   ],
   "note": "Soundness for every run in which steps 6/7 see the original distribution, and in particular for all graphs without arcs; in the other runs false of the code (napkin graph, C26_refuted)."
  },
  {
   "property": "C260",
   "status": "partial",
   "theorems": [
    "C260_sample",
    "C260_short_refuted"
   ],
   "note": "In exact arithmetic. Curves with at most n_sample points (100 by default) are an AssertionError (refuted)."
  },
  {
   "property": "C261",
   "status": "proved",
   "theorems": [
    "C261_descending",
    "C261_bins",
    "C261_intervals",
    "C261_edges_refuted"
   ],
   "note": "The quantiles that qcut takes as edges are given."
  },
  {
   "property": "C262",
   "status": "partial",
   "theorems": [
    "C262_scores_partial",
    "C262_case",
    "C262_unknown_refuted",
    "C262_lambda_refuted",
    "C262_probabilities_only_refuted"
   ],
   "note": "For metrics with different keys and known names. Unknown names are silently left out, of two functions with the same __name__ one score is lost, and without predictions nothing is computed (refuted)."
  },
  {
   "property": "C263",
   "status": "partial",
   "theorems": [
    "C263_positive",
    "C263_two_classes",
    "C263_macro",
    "C263_auc_refuted"
   ],
   "note": "Recall, precision and f1. The auc of two columns of probabilities is always of the second column, whatever positive class is given (refuted)."
  },
  {
   "property": "C27",
   "status": "partial",
   "theorems": [
    "C27_id_terminates_partial",
    "C27_fuel_irrelevant",
    "C27_refuted",
    "C27_refuted_overlap",
    "C27_refuted_strings"
   ],
   "note": "Termination with Prob, IdentificationError or ValueError proved; the ValueError does occur on identifiable queries (C27_refuted)."
  },
  {
   "property": "C28",
   "status": "proved",
   "theorems": [
    "C28_no_arcs",
    "C28_no_arcs_succeeds"
   ],
   "note": ""
  },
  {
   "property": "C29",
   "status": "partial",
   "theorems": [
    "C29_identify_partial",
    "C29_refuted"
   ],
   "note": "Holds unless two one-element sets reach the frontdoor method; then the code empties them (C29_refuted)."
  },
  {
   "property": "C30",
   "status": "proved",
   "theorems": [
    "C30_estimate_checked",
    "C30_estimate_unbiased",
    "C30_refuted_override"
   ],
   "note": "The check is for the identified pair, as claimed; C30_refuted_override records that an overriding treatment argument is fitted without being checked."
  },
  {
   "property": "C31",
   "status": "partial",
   "theorems": [
    "C31_identify_estimate_exact",
    "C31_refuted"
   ],
   "note": "False of the code in every run that finds sets (C31_refuted is universally quantified); what happens instead is characterised exactly."
  },
  {
   "property": "C32",
   "status": "proved",
   "theorems": [
    "C32_check_nodes"
   ],
   "note": ""
  },
  {
   "property": "C33",
   "status": "proved",
   "theorems": [
    "C33_parse_injective",
    "C33_sum_sign",
    "C33_refuted_unconditional"
   ],
   "note": "For names without the punctuation of the printed form; a condition without variable is not printed (C33_refuted_unconditional)."
  },
  {
   "property": "C34",
   "status": "proved",
   "theorems": [
    "C34_trim_cycle_partial",
    "C34_refuted_self_loop"
   ],
   "note": "Both cases of the statement: no self loop (C34_trim_cycle_partial), self loop (C34_refuted_self_loop)."
  },
  {
   "property": "C35",
   "status": "proved",
   "theorems": [
    "C35_acyclic_unchanged",
    "C35_kept",
    "C35_dropped",
    "C35_dropped_lightest"
   ],
   "note": ""
  },
  {
   "property": "C36",
   "status": "proved",
   "theorems": [
    "C36_direct_causes",
    "C36_all_causes",
    "C36_refuted_depth2"
   ],
   "note": "C36_refuted_depth2 shows that no such statement holds for depth 2."
  },
  {
   "property": "C37",
   "status": "partial",
   "theorems": [
    "C37_dataframe",
    "C37_refuted_ndarray"
   ],
   "note": "Proved for DataFrame inputs; for ndarray inputs the code never reverses a pair (C37_refuted_ndarray, universally quantified)."
  },
  {
   "property": "C38",
   "status": "partial",
   "theorems": [
    "C38_default",
    "C38_discovery",
    "C38_model_simple",
    "C38_refuted_minimal"
   ],
   "note": "Proved for the default identifier, for discovery with dfs/straight, and through the causal model with style 'simple'; every other style puts a tuple of names among the covariates (C38_refuted_minimal, universally quantified)."
  },
  {
   "property": "C39",
   "status": "proved",
   "theorems": [
    "C39_dfs",
    "C39_unknown",
    "C39_refuted_negative"
   ],
   "note": "C39_refuted_negative records that negative entries are not edges for this method."
  },
  {
   "property": "C40",
   "status": "partial",
   "theorems": [
    "C40_select_by_task",
    "C40_align_task_to_first_partial",
    "C40_refuted_limit_one",
    "C40_default_limit"
   ],
   "note": "select_by_task proved for every limit >= 1, align_task_to_first for every limit >= 2; with limit 1 it takes a second column whenever there is one (C40_refuted_limit_one)."
  },
  {
   "property": "C41",
   "status": "proved",
   "theorems": [
    "C41_safe_remove",
    "C41_first_occurrence",
    "C41_none"
   ],
   "note": ""
  },
  {
   "property": "C42",
   "status": "proved",
   "theorems": [
    "C42_safe_treat_control",
    "C42_safe_treat_control_list",
    "C42_accepted"
   ],
   "note": "For at least one treatment."
  },
  {
   "property": "C43",
   "status": "proved",
   "theorems": [
    "C43_sequential",
    "C43_sequential_default",
    "C43_combined"
   ],
   "note": "For encoders with distinct, non-empty classes."
  },
  {
   "property": "C44",
   "status": "proved",
   "theorems": [
    "C44_uplift_rows",
    "C44_no_treatment"
   ],
   "note": "For at least one treatment; without one a TypeError."
  },
  {
   "property": "C45",
   "status": "partial",
   "theorems": [
    "C45_causal_effect_partial",
    "C45_refuted"
   ],
   "note": "False of the code: the flag of a new object is the tuple (False,), so the assertion never fires (C45_refuted); causal_effect still ends in a TypeError."
  },
  {
   "property": "C46",
   "status": "partial",
   "theorems": [
    "C46_whatif",
    "C46_series",
    "C46_refuted_cost",
    "C46_refuted_cost_factual"
   ],
   "note": "Proved in full without a cost function, for arrays and Series; with fn_cost and two different contrasts the call always raises AssertionError, and factual rows get the cost of a zero effect (refutations)."
  },
  {
   "property": "C47",
   "status": "partial",
   "theorems": [
    "C47_adjacent_partial",
    "C47_refuted",
    "C47_refuted_covariates"
   ],
   "note": "False of the code for every role assignment: the returned edges are exactly the wanted ones reversed (C47_refuted); adjacency is right."
  },
  {
   "property": "C48",
   "status": "proved",
   "theorems": [
    "C48_to_list_string",
    "C48_every_string",
    "C48_to_list_other",
    "C48_join_list"
   ],
   "note": "ASCII strings."
  },
  {
   "property": "C49",
   "status": "proved",
   "theorems": [
    "C49_form",
    "C49_fixpoint",
    "C49_words"
   ],
   "note": "ASCII strings."
  },
  {
   "property": "C50",
   "status": "proved",
   "theorems": [
    "C50_drop_none",
    "C50_check_fitted"
   ],
   "note": ""
  },
  {
   "property": "C51",
   "status": "proved",
   "theorems": [
    "C51_infer_task_type",
    "C51_multilabel",
    "C51_refuted_nan"
   ],
   "note": "C51_refuted_nan records that NaN entries of a float array survive dropna."
  },
  {
   "property": "C52",
   "status": "proved",
   "theorems": [
    "C52_start",
    "C52_lift",
    "C52_gain",
    "C52_gain_rank",
    "C75_end"
   ],
   "note": "Exact reals for floats; every sorting order allowed."
  },
  {
   "property": "C53",
   "status": "proved",
   "theorems": [
    "C53_lift",
    "C53_gain",
    "C53_qini",
    "C53_qini_effect",
    "C53_line",
    "C53_no_nan",
    "C53_succeeds"
   ],
   "note": "Exact reals for floats; treat and control values differ."
  },
  {
   "property": "C54",
   "status": "proved",
   "theorems": [
    "C54_curves",
    "C54_auuc",
    "C54_qini"
   ],
   "note": "Score columns without ties; the random columns are the same in both calls."
  },
  {
   "property": "C55",
   "status": "proved",
   "theorems": [
    "C55_ends",
    "C55_auuc"
   ],
   "note": ""
  },
  {
   "property": "C56",
   "status": "partial",
   "theorems": [
    "C56_plain",
    "C56_arguments",
    "C56_get_blanket",
    "C56_refuted_string"
   ],
   "note": "Proved for every kind with lists and tuples; with a string get_blanket(..., return_self=False) removes characters instead of nodes (C56_refuted_string)."
  },
  {
   "property": "C57",
   "status": "partial",
   "theorems": [
    "C57_accepts",
    "C57_networkx",
    "C57_networkx_nodes",
    "C57_refuted_causal"
   ],
   "note": "Proved for dictionaries, edge lists, frames and networkx graphs; a CausalGraph with edges is always rejected (C57_refuted_causal)."
  },
  {
   "property": "C58",
   "status": "proved",
   "theorems": [
    "C58_round_trip",
    "C58_too_few",
    "C58_unknown"
   ],
   "note": "C58_unknown records what happens to other values."
  },
  {
   "property": "C59",
   "status": "proved",
   "theorems": [
    "C59_pqueue_history",
    "C59_peek_is_pop",
    "C59_stable_insert",
    "C59_capacity_zero_refuted"
   ],
   "note": "For queues created with a capacity of at least 1; capacity 0 writes out of bounds (C59_capacity_zero_refuted). Exact reals for doubles."
  },
  {
   "property": "C60",
   "status": "partial",
   "theorems": [
    "C60_median_history_partial",
    "C60_push_only",
    "C60_equal_weights",
    "C60_remove_median_refuted",
    "C60_pop_median_refuted",
    "C60_remove_absent_refuted"
   ],
   "note": "Proved for histories of pushes and resets (and removals that keep the invariant); false in general after removing the median record, popping or removing an absent record (refutations)."
  },
  {
   "property": "C61",
   "status": "proved",
   "theorems": [
    "C61_causal_stats",
    "C61_regression_stats",
    "C61_backward_refuted",
    "C61_null_weight_refuted",
    "C61_outputs_refuted"
   ],
   "note": "Exact reals for doubles. Causal criteria: one outcome and given weights; the three refutations record backward moves (stale statistics), missing weights (null pointer) and two outcomes (wrong entries of y)."
  },
  {
   "property": "C62",
   "status": "partial",
   "theorems": [
    "C62_causal",
    "C62_mse",
    "C62_policy",
    "C62_policy_test1_refuted"
   ],
   "note": "Proved for HonestCMSE, CMSE, MSE and PRegCriteria; false for PRegCriteria1 (criterion=policy_test1)."
  },
  {
   "property": "C63",
   "status": "proved",
   "theorems": [
    "C63_partition_covers",
    "C63_zero_estimators"
   ],
   "note": "joblib's effective_n_jobs is a parameter; with zero estimators the code divides by zero (C63_zero_estimators)."
  },
  {
   "property": "C64",
   "status": "proved",
   "theorems": [
    "C64_convert4onehot",
    "C64_cartesian",
    "C64_cartesian_each_once",
    "C64_cartesian_two",
    "C64_cartesian_three",
    "C64_cartesian_none",
    "C64_get_groups_onehot",
    "C64_get_groups_raw",
    "C64_get_groups_scalar",
    "C64_two_blocks_collide"
   ],
   "note": "C64_two_blocks_collide records that several concatenated one-hot blocks are not decoded faithfully."
  },
  {
   "property": "C65",
   "status": "proved",
   "theorems": [
    "C65_set",
    "C65_all"
   ],
   "note": "For every strictly positive discrete structural model of the graph: the frontdoor adjustment theorem."
  },
  {
   "property": "C66",
   "status": "partial",
   "theorems": [
    "C66_estimate_default_partial",
    "C66_refuted_stale"
   ],
   "note": "Holds for estimate right after identify('backdoor','all'/'minimal'); a set remembered from another pair is used otherwise (C66_refuted_stale)."
  },
  {
   "property": "C67",
   "status": "proved",
   "theorems": [
    "C67_discovered_dag"
   ],
   "note": ""
  },
  {
   "property": "C68",
   "status": "partial",
   "theorems": [
    "C68_straight_exact",
    "C68_refuted"
   ],
   "note": "False of the code: 'straight' returns effects where causes are meant (C68_refuted); its exact result is proved for every matrix."
  },
  {
   "property": "C69",
   "status": "partial",
   "theorems": [
    "C69_identify_roles",
    "C69_refuted_mutation",
    "C69_refuted_outcome",
    "C69_refuted_tuple"
   ],
   "note": "The returned roles are proved; the caller's lists are modified, the outcome is not removed, tuples raise AssertionError (refutations)."
  },
  {
   "property": "C70",
   "status": "partial",
   "theorems": [
    "C70_causal_effect",
    "C70_causal_effect_default",
    "C70_causal_effect_unknown",
    "C70_agree_partial",
    "C70_refuted_string",
    "C70_refuted_int"
   ],
   "note": "Proved for causal_effect; the other calls decode instead of encoding (refutations), C70_agree_partial says exactly when this is harmless."
  },
  {
   "property": "C72",
   "status": "partial",
   "theorems": [
    "C72_get_estimator",
    "C72_refuted_default"
   ],
   "note": "The characterisation is proved; with three or more treatments the default of uplift_model has no estimator (C72_refuted_default)."
  },
  {
   "property": "C73",
   "status": "partial",
   "theorems": [
    "C39_dfs",
    "C73_refuted_no_instruments"
   ],
   "note": "False of the code whenever every treatment causes the outcome: no instrument is ever returned (C73_refuted_no_instruments)."
  },
  {
   "property": "C74",
   "status": "proved",
   "theorems": [
    "C74_gain",
    "C74_auuc"
   ],
   "note": "Ties in the ranking allowed."
  },
  {
   "property": "C75",
   "status": "proved",
   "theorems": [
    "C75_end",
    "C75_same_end",
    "C75_random"
   ],
   "note": ""
  },
  {
   "property": "C76",
   "status": "proved",
   "theorems": [
    "C76_top_point"
   ],
   "note": "Non-empty selections; selecting nobody (value 0) is not considered by the code."
  },
  {
   "property": "C77",
   "status": "partial",
   "theorems": [
    "C77_first_fit",
    "C77_refit_exact",
    "C77_refuted"
   ],
   "note": "False of the code: interventions survive and the optimiser starts from the old parameters; C77_refit_exact says exactly when refitting is right."
  },
  {
   "property": "C78",
   "status": "partial",
   "theorems": [
    "C78_do",
    "C78_failure_partial",
    "C78_refuted",
    "C78_refuted_poisoned"
   ],
   "note": "Accumulation proved; a failing in-place do() on a network with interventions records the bad name and breaks the network (refutations)."
  },
  {
   "property": "C79",
   "status": "proved",
   "theorems": [
    "C79_sampling",
    "C79_unique"
   ],
   "note": "For data without a column named <node>_inputs."
  },
  {
   "property": "C80",
   "status": "partial",
   "theorems": [
    "C80_predict",
    "C80_predict_partial",
    "C80_predict_again",
    "C80_refuted"
   ],
   "note": "predict answers are stable, but predict writes the interventions into the parameters and changes later estimates (C80_refuted)."
  },
  {
   "property": "C81",
   "status": "partial",
   "theorems": [
    "C81_estimate",
    "C81_refuted_observed",
    "C81_refuted_mediator",
    "C81_refuted_indirect"
   ],
   "note": "C81_estimate says what is computed; indirect effects are lost whenever the treatment is in the data, and all effects when the outcome is (refutations, universally quantified)."
  },
  {
   "property": "C82",
   "status": "partial",
   "theorems": [
    "C82_mean",
    "C82_no_samples",
    "C82_proba",
    "C82_mode",
    "C82_refuted_input",
    "C82_refuted_alias"
   ],
   "note": "Proved for distinct tensors; the first tensor is overwritten and a repeated tensor gives a wrong mean (refutations)."
  },
  {
   "property": "C83",
   "status": "partial",
   "theorems": [
    "C83_do_ok",
    "C83_refuted"
   ],
   "note": "Exact condition proved; without a blanket outside the intervened nodes the call raises ZeroDivisionError."
  },
  {
   "property": "C84",
   "status": "proved",
   "theorems": [
    "C84_store_restored",
    "C84_isolated"
   ],
   "note": ""
  },
  {
   "property": "C85",
   "status": "proved",
   "theorems": [
    "C85_check_classes"
   ],
   "note": ""
  },
  {
   "property": "C86",
   "status": "proved",
   "theorems": [
    "C86_count_leaf_num"
   ],
   "note": ""
  },
  {
   "property": "C87",
   "status": "proved",
   "theorems": [
    "C87_nd_kron"
   ],
   "note": "Exact integers for the entries."
  },
  {
   "property": "C88",
   "status": "partial",
   "theorems": [
    "C88_causal_children",
    "C88_policy_children",
    "C88_mse_children",
    "C88_mse_refuted"
   ],
   "note": "Proved for the causal and policy criteria; for MSE the child impurity is n_outputs times the node impurity (exact), hence wrong for two or more outputs."
  },
  {
   "property": "C89",
   "status": "proved",
   "theorems": [
    "C89_best_splits"
   ],
   "note": "Exact reals for doubles; the sort is any correct sort (C96_sane: the code's is)."
  },
  {
   "property": "C90",
   "status": "proved",
   "theorems": [
    "C90_searched"
   ],
   "note": "Exact reals for doubles; every random sequence."
  },
  {
   "property": "C91",
   "status": "proved",
   "theorems": [
    "C91_builds",
    "C91_predict",
    "C91_nodes",
    "C91_depth",
    "C91_decision_path",
    "C91_leaves"
   ],
   "note": "Depth-first builder (max_leaf_nodes=None), min_samples_leaf at least 1. The stored impurity clause is for criteria whose children_impurity is the node impurity (all but MSE, see C88)."
  },
  {
   "property": "C92",
   "status": "partial",
   "theorems": [
    "C92_honest_partial",
    "C92_estimate_refuted",
    "C92_no_effect_refuted"
   ],
   "note": "False of the code: the control rows get weight 0 and are dropped, so the estimate is (sum of treated outcomes)/(count + 1e-5). Proved for honest leaves that both groups reach."
  },
  {
   "property": "C93",
   "status": "partial",
   "theorems": [
    "C93_cite_partial",
    "C93_ate_refuted",
    "C93_honest_num_refuted"
   ],
   "note": "Row effects proved; estimate('ATE'/'CATE') returns None and an integer honest_subsample_num raises AttributeError."
  },
  {
   "property": "C94",
   "status": "proved",
   "theorems": [
    "C94_importances",
    "C94_policy_nonneg"
   ],
   "note": "Non-negativity for PRegCriteria (a causal tree's improvements may be negative)."
  },
  {
   "property": "C95",
   "status": "partial",
   "theorems": [
    "C95_policy",
    "C95_causal_gain",
    "C95_causal_refuted"
   ],
   "note": "Proved for MSE, PRegCriteria and PRegCriteria1; a causal tree has no factor N_t/N and a spurious eps term that makes it split although nothing improves."
  },
  {
   "property": "C96",
   "status": "proved",
   "theorems": [
    "C96_sort",
    "C96_code_sort",
    "C96_progress",
    "C96_sane"
   ],
   "note": "Exact reals, no NaN."
  },
  {
   "property": "C97",
   "status": "proved",
   "theorems": [
    "C97_max_leaf_nodes",
    "C97_predict",
    "C97_nodes",
    "C97_depth"
   ],
   "note": "Exact reals; the heap is any function that picks a record of largest improvement (C98_takes_largest: there is one)."
  },
  {
   "property": "C98",
   "status": "proved",
   "theorems": [
    "C98_best_first",
    "C98_takes_largest"
   ],
   "note": "For HonestCMSE, CMSE, MSE and PRegCriteria, all features searched."
  },
  {
   "property": "C99",
   "status": "partial",
   "theorems": [
    "C99_weights_refuted",
    "C99_weights_example_refuted"
   ],
   "note": "False of the code: with max_leaf_nodes the weights never reach the splitter (universally quantified)."
  }
 ]
}