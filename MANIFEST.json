{
 "claims": [
  {
   "property": "C01",
   "status": "proved",
   "theorems": [
    "C01_running_statistics_equal_batch_statistics"
   ],
   "note": ""
  },
  {
   "property": "C02",
   "status": "proved",
   "theorems": [
    "C02_variance_never_negative",
    "C02_mean_within_pushed_values",
    "C02_binary64_variance_never_negative",
    "C02_binary64_mean_within_pushed_values"
   ],
   "note": ""
  },
  {
   "property": "C03",
   "status": "proved",
   "theorems": [
    "C03_best_value_is_registered"
   ],
   "note": ""
  },
  {
   "property": "C04",
   "status": "proved",
   "theorems": [
    "C04_exploration_decrements",
    "C04_exploration_ignores_scores",
    "C04_two_value_schedule",
    "C04_two_value_balance"
   ],
   "note": ""
  },
  {
   "property": "C05",
   "status": "proved",
   "theorems": [
    "C05_exploitation_choice",
    "C05_every_eligible_choice_is_possible"
   ],
   "note": ""
  },
  {
   "property": "C06",
   "status": "proved",
   "theorems": [
    "C06_score_bookkeeping",
    "C06_choice_is_logged",
    "C06_implicit_score_goes_to_last_choice"
   ],
   "note": ""
  },
  {
   "property": "C07",
   "status": "proved",
   "theorems": [
    "C07_solve_model_scoring"
   ],
   "note": ""
  },
  {
   "property": "C08",
   "status": "proved",
   "theorems": [
    "C08_iteration_cap"
   ],
   "note": ""
  },
  {
   "property": "C09",
   "status": "proved",
   "theorems": [
    "C09_mp_optimal"
   ],
   "note": ""
  },
  {
   "property": "C10",
   "status": "proved",
   "theorems": [
    "C10_call_protocol"
   ],
   "note": ""
  },
  {
   "property": "C11",
   "status": "proved",
   "theorems": [
    "C11_column_accounting"
   ],
   "note": ""
  },
  {
   "property": "C12",
   "status": "proved",
   "theorems": [
    "C12_time_limit",
    "C12_no_limit_no_clock_influence"
   ],
   "note": ""
  },
  {
   "property": "C13",
   "status": "proved",
   "theorems": [
    "C13_end_of_fit",
    "C13_failed_integer_solve",
    "C13_only_a_returning_fit_marks_fitted"
   ],
   "note": ""
  },
  {
   "property": "C14",
   "status": "proved",
   "theorems": [
    "C14_single_class",
    "C14_only_documented_failures"
   ],
   "note": ""
  },
  {
   "property": "C15",
   "status": "proved",
   "theorems": [
    "C15_performed_iter_always_zero",
    "C15_performed_iter_counts_iterations_refuted"
   ],
   "note": "The documented statement is false of the code: refuted theorem plus the fact that the attribute is always 0."
  },
  {
   "property": "C16",
   "status": "proved",
   "theorems": [
    "C16_num_improving_iter"
   ],
   "note": ""
  },
  {
   "property": "C17",
   "status": "proved",
   "theorems": [
    "C17_time_accounting"
   ],
   "note": ""
  },
  {
   "property": "C18",
   "status": "proved",
   "theorems": [
    "C18_progress",
    "C18_terminates_with_iteration_limit",
    "C18_terminates_when_finitely_many_columns"
   ],
   "note": ""
  },
  {
   "property": "C19",
   "status": "proved",
   "theorems": [
    "C19_predict_is_dnf",
    "C19_predict_pointwise"
   ],
   "note": ""
  },
  {
   "property": "C20",
   "status": "proved",
   "theorems": [
    "C20_monotone_in_the_sample",
    "C20_monotone_in_the_rule"
   ],
   "note": ""
  },
  {
   "property": "C21",
   "status": "proved",
   "theorems": [
    "C21_master_is_problem_1",
    "C21_problem_1_meaning"
   ],
   "note": ""
  },
  {
   "property": "C22",
   "status": "proved",
   "theorems": [
    "C22_add_column",
    "C22_not_generated"
   ],
   "note": ""
  },
  {
   "property": "C23",
   "status": "proved",
   "theorems": [
    "C23_lexicographic_positions",
    "C23_lexicographic_bijection"
   ],
   "note": ""
  },
  {
   "property": "C24",
   "status": "proved",
   "theorems": [
    "C24_heuristic_enumeration",
    "C24_negative_duals"
   ],
   "note": ""
  },
  {
   "property": "C25",
   "status": "proved",
   "theorems": [
    "C25_heuristic_reduced_cost"
   ],
   "note": ""
  },
  {
   "property": "C26",
   "status": "proved",
   "theorems": [
    "C26_pricing_model",
    "C26_feasible_points",
    "C26_exact_pricing",
    "C26_feasible_pricing",
    "C26_no_solution",
    "C26_exact_solver_exists"
   ],
   "note": ""
  },
  {
   "property": "C27",
   "status": "proved",
   "theorems": [
    "C27_repricing_equals_rebuilding",
    "C27_history_independent"
   ],
   "note": ""
  },
  {
   "property": "C28",
   "status": "proved",
   "theorems": [
    "C28_optimality_certificate",
    "C28_decision_rules",
    "C28_any_duals",
    "C28_any_duals_rules",
    "C28_learned_rule",
    "C28_exact_solvers"
   ],
   "note": ""
  },
  {
   "property": "C29",
   "status": "proved",
   "theorems": [
    "C29_explanation",
    "C29_no_solution"
   ],
   "note": ""
  },
  {
   "property": "C30",
   "status": "proved",
   "theorems": [
    "C30_master_feasible_and_bounded",
    "C30_pricing_feasible_and_bounded"
   ],
   "note": ""
  },
  {
   "property": "C31",
   "status": "proved",
   "theorems": [
    "C31_pricing_returns_new_clauses",
    "C31_no_duplicate_assertion"
   ],
   "note": ""
  },
  {
   "property": "C32",
   "status": "proved",
   "theorems": [
    "C32_refit_keeps_the_data",
    "C32_refuted",
    "C32_tree_refit_keeps_the_data"
   ],
   "note": "False of the code: refuted by a concrete run with exact solvers, plus the general fact that a refit of either estimator keeps the first data (witness for the tree classifier: C85_second_tree_refuted)."
  },
  {
   "property": "C33",
   "status": "proved",
   "theorems": [
    "C33_create_leaf",
    "C33_set_leaf",
    "C33_signature"
   ],
   "note": ""
  },
  {
   "property": "C34",
   "status": "proved",
   "theorems": [
    "C34_one_path",
    "C34_exactly_one"
   ],
   "note": ""
  },
  {
   "property": "C35",
   "status": "proved",
   "theorems": [
    "C35_satisfied_rows"
   ],
   "note": ""
  },
  {
   "property": "C36",
   "status": "proved",
   "theorems": [
    "C36_formulation",
    "C36_total"
   ],
   "note": ""
  },
  {
   "property": "C37",
   "status": "proved",
   "theorems": [
    "C37_trees",
    "C37_all_trees"
   ],
   "note": ""
  },
  {
   "property": "C38",
   "status": "proved",
   "theorems": [
    "C38_accuracy"
   ],
   "note": ""
  },
  {
   "property": "C39",
   "status": "proved",
   "theorems": [
    "C39_integer",
    "C39_fractional",
    "C39_removed"
   ],
   "note": ""
  },
  {
   "property": "C40",
   "status": "proved",
   "theorems": [
    "C40_reachable"
   ],
   "note": ""
  },
  {
   "property": "C41",
   "status": "proved",
   "theorems": [
    "C41_violated",
    "C41_later_columns",
    "C41_trees"
   ],
   "note": ""
  },
  {
   "property": "C42",
   "status": "proved",
   "theorems": [
    "C42_row_cuts"
   ],
   "note": ""
  },
  {
   "property": "C43",
   "status": "proved",
   "theorems": [
    "C43_heuristic"
   ],
   "note": ""
  },
  {
   "property": "C44",
   "status": "proved",
   "theorems": [
    "C44_reduced_cost"
   ],
   "note": ""
  },
  {
   "property": "C45",
   "status": "proved",
   "theorems": [
    "C45_target",
    "C45_order"
   ],
   "note": ""
  },
  {
   "property": "C46",
   "status": "proved",
   "theorems": [
    "C46_update_total",
    "C46_decode",
    "C46_complete",
    "C46_returned",
    "C46_exact",
    "C46_callback",
    "C46_sat_exact"
   ],
   "note": ""
  },
  {
   "property": "C47",
   "status": "proved",
   "theorems": [
    "C47_any_duals",
    "C47_upper_bound"
   ],
   "note": ""
  },
  {
   "property": "C48",
   "status": "proved",
   "theorems": [
    "C48_total_for_class_targets",
    "C48_training",
    "C48_refuted"
   ],
   "note": "False of the code in general: refuted by a training run in which every solver answers correctly. Positive part: predict returns a class whenever all selected targets are classes, and for every sample that ends in the same leaf as a training row."
  },
  {
   "property": "C49",
   "status": "proved",
   "theorems": [
    "C49_constructor"
   ],
   "note": ""
  },
  {
   "property": "C50",
   "status": "proved",
   "theorems": [
    "C50_is_same_as",
    "C50_equivalence"
   ],
   "note": ""
  },
  {
   "property": "C51",
   "status": "proved",
   "theorems": [
    "C51_solve_rmp"
   ],
   "note": ""
  },
  {
   "property": "C52",
   "status": "proved",
   "theorems": [
    "C52_runs",
    "C52_represented",
    "C52_class_total",
    "C52_costs",
    "C52_row_constraints"
   ],
   "note": ""
  },
  {
   "property": "C53",
   "status": "proved",
   "theorems": [
    "C53_removed",
    "C53_no_dual",
    "C53_clock_needed"
   ],
   "note": ""
  },
  {
   "property": "C54",
   "status": "proved",
   "theorems": [
    "C54_tree",
    "C54_history",
    "C54_merge"
   ],
   "note": ""
  },
  {
   "property": "C55",
   "status": "proved",
   "theorems": [
    "C55_paths",
    "C55_feasible",
    "C55_initial"
   ],
   "note": ""
  },
  {
   "property": "C56",
   "status": "proved",
   "theorems": [
    "C56_reduce",
    "C56_empty"
   ],
   "note": ""
  },
  {
   "property": "C57",
   "status": "proved",
   "theorems": [
    "C57_numbering",
    "C57_positions",
    "C57_descent"
   ],
   "note": ""
  },
  {
   "property": "C58",
   "status": "proved",
   "theorems": [
    "C58_refuted"
   ],
   "note": "False of the code for arguments the constructor accepts: refuted by a concrete instance; C37 is the positive half."
  },
  {
   "property": "C59",
   "status": "proved",
   "theorems": [
    "C59_constructor_shapes"
   ],
   "note": ""
  },
  {
   "property": "C60",
   "status": "proved",
   "theorems": [
    "C60_fit_never_raises",
    "C60_dual_sign_needed"
   ],
   "note": ""
  },
  {
   "property": "C61",
   "status": "proved",
   "theorems": [
    "C61_iterations_bounded",
    "C61_runs_to_optimality"
   ],
   "note": ""
  },
  {
   "property": "C62",
   "status": "proved",
   "theorems": [
    "C62_learned_rule_usable"
   ],
   "note": ""
  },
  {
   "property": "C63",
   "status": "proved",
   "theorems": [
    "C63_cut_numbers"
   ],
   "note": ""
  },
  {
   "property": "C64",
   "status": "proved",
   "theorems": [
    "C64_any_duals_mip",
    "C64_certificate_mip",
    "C64_any_duals_old",
    "C64_certificate_old",
    "C64_any_duals_sat",
    "C64_certificate_sat"
   ],
   "note": ""
  },
  {
   "property": "C65",
   "status": "proved",
   "theorems": [
    "C65_training",
    "C65_solvers"
   ],
   "note": ""
  },
  {
   "property": "C66",
   "status": "proved",
   "theorems": [
    "C66_any_duals",
    "C66_certificate",
    "C66_runs_to_optimality"
   ],
   "note": ""
  },
  {
   "property": "C67",
   "status": "proved",
   "theorems": [
    "C67_no_worse_than_initial",
    "C67_gap_any_duals",
    "C67_gap"
   ],
   "note": ""
  },
  {
   "property": "C68",
   "status": "proved",
   "theorems": [
    "C68_prepares",
    "C68_trainable"
   ],
   "note": ""
  },
  {
   "property": "C69",
   "status": "proved",
   "theorems": [
    "C69_no_worse_than_cart",
    "C69_extra_needed"
   ],
   "note": ""
  },
  {
   "property": "C70",
   "status": "proved",
   "theorems": [
    "C70_script_returns",
    "C70_no_worse_than_cart",
    "C70_trees"
   ],
   "note": ""
  },
  {
   "property": "C71",
   "status": "proved",
   "theorems": [
    "C71_reported",
    "C71_cart_row",
    "C71_hit_rate",
    "C71_time_limit",
    "C71_reported_time",
    "C71_time_limit_refuted"
   ],
   "note": "The time limit holds only if preprocessing ends before it: C71_time_limit proves that case, C71_time_limit_refuted is a run in which preprocessing takes 61 of 60 seconds and training is not limited."
  },
  {
   "property": "C72",
   "status": "proved",
   "theorems": [
    "C72_training_samples",
    "C72_right_rows",
    "C72_tie_refuted",
    "C72_unseen_refuted"
   ],
   "note": "Holds for training samples that are not exactly at a threshold which float32 rounds upwards; C72_tie_refuted and C72_unseen_refuted show both limits are needed."
  },
  {
   "property": "C73",
   "status": "proved",
   "theorems": [
    "C73_experiment_records",
    "C73_master_rows"
   ],
   "note": ""
  },
  {
   "property": "C74",
   "status": "proved",
   "theorems": [
    "C74_restricted",
    "C74_keeps_tree",
    "C74_selects"
   ],
   "note": ""
  },
  {
   "property": "C75",
   "status": "proved",
   "theorems": [
    "C75_merged"
   ],
   "note": ""
  },
  {
   "property": "C76",
   "status": "proved",
   "theorems": [
    "C76_complete",
    "C76_samples",
    "C76_rounding_needed"
   ],
   "note": ""
  },
  {
   "property": "C77",
   "status": "proved",
   "theorems": [
    "C77_complete",
    "C77_clock_free",
    "C77_no_time",
    "C77_script",
    "C77_time_limit_refuted"
   ],
   "note": "C77_script says for every schedule how far rows are merged; C77_time_limit_refuted is a run in which the preprocessing limit is ignored."
  },
  {
   "property": "C78",
   "status": "proved",
   "theorems": [
    "C78_attribution",
    "C78_durations"
   ],
   "note": ""
  },
  {
   "property": "C79",
   "status": "proved",
   "theorems": [
    "C79_cuts",
    "C79_reported_cuts",
    "C79_reported_times",
    "C79_cut_limit",
    "C79_reported_cut_limit"
   ],
   "note": ""
  },
  {
   "property": "C80",
   "status": "proved",
   "theorems": [
    "C80_options",
    "C80_ends_early"
   ],
   "note": ""
  },
  {
   "property": "C81",
   "status": "proved",
   "theorems": [
    "C81_labels",
    "C81_renaming",
    "C81_accuracy",
    "C81_data",
    "C81_failures",
    "C81_input",
    "C81_label_position_refuted"
   ],
   "note": ""
  },
  {
   "property": "C82",
   "status": "proved",
   "theorems": [
    "C82_name",
    "C82_file",
    "C82_returns",
    "C82_no_worse_than_cart",
    "C82_iterations"
   ],
   "note": ""
  },
  {
   "property": "C83",
   "status": "proved",
   "theorems": [
    "C83_get_params",
    "C83_set_params_result",
    "C83_read_by_fit",
    "C83_ignored",
    "C83_grid_search",
    "C83_iterations",
    "C83_constructed",
    "C83_clone",
    "C83_clonable",
    "C83_set_params_refuted",
    "C83_tree_attributes",
    "C83_tree_refuted"
   ],
   "note": "What set_params changes in a training is only max_iterations and the shape of subproblem_params (C83_read_by_fit, C83_ignored); C83_set_params_refuted is a training whose rule exceeds the C that get_params reports, C83_tree_refuted shows that get_params raises for every tree classifier."
  },
  {
   "property": "C84",
   "status": "proved",
   "theorems": [
    "C84_lists",
    "C84_constructor",
    "C84_no_cuts",
    "C84_second_training",
    "C84_no_class_refuted",
    "C84_cuts_refuted",
    "C84_shared_rows_refuted"
   ],
   "note": "The positive theorem C84_second_training assumes no generated cut and rows that are not reused; the three _refuted theorems show what happens otherwise. C84_cuts_refuted and C84_shared_rows_refuted are about reachable states of the first master problem, not about a completed first fit."
  },
  {
   "property": "C85",
   "status": "proved",
   "theorems": [
    "C85_not_fitted",
    "C85_predict_harmless",
    "C85_rejected_data",
    "C85_labels",
    "C85_renaming",
    "C85_single_label",
    "C85_same_predict",
    "C85_rows",
    "C85_extra_columns",
    "C85_two_labels",
    "C85_first_training",
    "C85_first_tree",
    "C85_failed_fit_refuted",
    "C85_second_training_refuted",
    "C85_failed_solver_refuted",
    "C85_second_tree_refuted"
   ],
   "note": "check_X_y/check_array are modelled as shape checks. What a call of the master problem or a subproblem that raises leaves behind is an arbitrary function in all general theorems."
  },
  {
   "property": "C86",
   "status": "proved",
   "theorems": [
    "C86_same_training",
    "C86_part_of_master",
    "C86_first",
    "C86_every_tenth",
    "C86_reported",
    "C86_refit_refuted"
   ],
   "note": "The bound holds per training (C86_part_of_master) and for a first training (C86_first); C86_refit_refuted is an estimator trained eleven times whose cut_gen_time exceeds its master time. The clock of the master problem is tied to that of fit by the hypothesis one_clock."
  },
  {
   "property": "C87",
   "status": "proved",
   "theorems": [
    "C87_statistics",
    "C87_first_settings"
   ],
   "note": "The random streams of the parameters are the same in every call (hypothesis on fs_streams): every subproblem seeds its own generators with the same constants. Trainings that raise are not part of the histories here."
  },
  {
   "property": "C88",
   "status": "proved",
   "theorems": [
    "C88_cuts",
    "C88_rows",
    "C88_rounds_needed"
   ],
   "note": "The solvers are arguments: CP-SAT must report some optimal solution of the cut model, as in C76, and the LP solution must be feasible for the constraints of rows. C88_rounds_needed shows that nothing of the kind holds when the rounds were used up."
  },
  {
   "property": "C89",
   "status": "proved",
   "theorems": [
    "C89_twins",
    "C89_increasing",
    "C89_reordered",
    "C89_sides"
   ],
   "note": "Solvers, random numbers and set orders are arguments that depend on the model they are given and the number of earlier calls, so equal models get equal answers. Trainings that raise end the comparison; values are exact numbers, so a transformation that merges two floats is not increasing."
  },
  {
   "property": "C90",
   "status": "proved",
   "theorems": [
    "C90_continues",
    "C90_paths",
    "C90_no_worse",
    "C90_promise_needed",
    "C90_clauses",
    "C90_rules"
   ],
   "note": "The solvers and the clock answer by the model they are given and the number of earlier calls, so equal histories get equal answers. Trainings that raise are not compared. The comparison of correct weights asks for right costs of the selected paths because a reported column may promise less than it classifies. C90_promise_needed shows that this cannot be dropped."
  },
  {
   "property": "C91",
   "status": "proved",
   "theorems": [
    "C91_more_freedom_lower_bound",
    "C91_bound_independent",
    "C91_bounds_other_rules",
    "C91_heuristic_size_needed"
   ],
   "note": "Exact LP and pricing solvers are assumed for the training that supplies the bound and, in the comparison of two bounds, for both; the integer solver only has to return feasible answers. The heuristic size is a parameter of the model; the shipped classifier uses 1. C91_heuristic_size_needed shows that the condition on the heuristic cannot be dropped."
  },
  {
   "property": "C92",
   "status": "proved",
   "theorems": [
    "C92_bounds_rivals",
    "C92_unbeaten"
   ],
   "note": "Both estimators must be trainable in the sense of C65 and their solvers honest. Correct weight is measured with the row weights of the second estimator. The depth and the list of splits are the same, because candidate splits are positions in that list."
  },
  {
   "property": "C93",
   "status": "proved",
   "theorems": [
    "C93_fewer_rows",
    "C93_row_order",
    "C93_more_features"
   ],
   "note": "As in C91 the heuristic of the first training builds no clause longer than the second's budget; penalties are not negative. Exact LP and pricing solvers for both trainings; the integer solver only has to return feasible answers. The claim is about the bound: the learned rules may differ when several are optimal."
  },
  {
   "property": "C94",
   "status": "proved",
   "theorems": [
    "C94_weights_bounded",
    "C94_weights_unbeaten",
    "C94_merged_rows",
    "C94_bounds_parts",
    "C94_parts_unbeaten",
    "C94_row_order"
   ],
   "note": "The finished training uses exact subproblems (for the bound: subproblems with a stated gap) and its initial paths have the right costs. The split objects of the two may differ, since they record row numbers; rows correspond if they have the same class and are on the same side of every split."
  }
 ]
}