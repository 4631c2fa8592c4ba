{
 "claims": [
  {
   "property": "C01",
   "status": "proved",
   "theorems": [
    "C01_timegrid",
    "C01_exact_multiple",
    "C01_increasing"
   ],
   "note": ""
  },
  {
   "property": "C02",
   "status": "proved",
   "theorems": [
    "C02_single_grid_point",
    "C02_empty_grid_fails",
    "C02_reversed_interval_fails",
    "C02_short_interval"
   ],
   "note": ""
  },
  {
   "property": "C03",
   "status": "proved",
   "theorems": [
    "C03_forward_starts_at_y1"
   ],
   "note": ""
  },
  {
   "property": "C04",
   "status": "proved",
   "theorems": [
    "C04_time_reversed_boundaries"
   ],
   "note": ""
  },
  {
   "property": "C05",
   "status": "proved",
   "theorems": [
    "C05_shape"
   ],
   "note": ""
  },
  {
   "property": "C06",
   "status": "proved",
   "theorems": [
    "C06_forward_recurrence",
    "C06_score_matching"
   ],
   "note": ""
  },
  {
   "property": "C07",
   "status": "proved",
   "theorems": [
    "C07_backward_recurrence",
    "C07_score_matching"
   ],
   "note": ""
  },
  {
   "property": "C08",
   "status": "proved",
   "theorems": [
    "C08_bridge_flow",
    "C08_bridge_independent_of_f_and_U"
   ],
   "note": ""
  },
  {
   "property": "C09",
   "status": "proved",
   "theorems": [
    "C09_bridge_pin_no_effect_on_Z",
    "C09_bridge_pin_no_effect_without_reweight"
   ],
   "note": ""
  },
  {
   "property": "C10",
   "status": "proved",
   "theorems": [
    "C10_periodic_is_rbf",
    "C10_unknown_kernel_fails"
   ],
   "note": ""
  },
  {
   "property": "C11",
   "status": "proved",
   "theorems": [
    "C11_reject_and_dens_est_ignored",
    "C11_unused_without_reweight"
   ],
   "note": ""
  },
  {
   "property": "C12",
   "status": "proved",
   "theorems": [
    "C12_draws",
    "C12_log",
    "C12_log_is_transparent"
   ],
   "note": ""
  },
  {
   "property": "C13",
   "status": "proved",
   "theorems": [
    "C13_reweighted_run",
    "C13_bridge_run",
    "C13_backward_run",
    "C13_query",
    "C13_own_box",
    "C13_common_box",
    "C13_forward_run"
   ],
   "note": ""
  },
  {
   "property": "C14",
   "status": "proved",
   "theorems": [
    "C14_stochastic_start",
    "C14_start_refuted",
    "C14_one_dimensional_fails"
   ],
   "note": ""
  },
  {
   "property": "C15",
   "status": "proved",
   "theorems": [
    "C15_stochastic_needs_one_argument_drift",
    "C15_stochastic_needs_one_argument_constraint",
    "C15_deterministic_needs_two_arguments"
   ],
   "note": ""
  },
  {
   "property": "C16",
   "status": "proved",
   "theorems": [
    "C16_stochastic_end_pinned",
    "C16_zero_lengthscale"
   ],
   "note": ""
  },
  {
   "property": "C17",
   "status": "proved",
   "theorems": [
    "C17_stochastic_bridge_flow_is_zero"
   ],
   "note": ""
  },
  {
   "property": "C18",
   "status": "proved",
   "theorems": [
    "C18_construction_succeeds_R",
    "C18_construction_succeeds",
    "C18_stochastic_construction_succeeds"
   ],
   "note": ""
  },
  {
   "property": "C19",
   "status": "proved",
   "theorems": [
    "C19_elementwise",
    "C19_column",
    "C19_stochastic_shape",
    "C19_diffusion_shape",
    "C19_matrix_diffusion_fails"
   ],
   "note": ""
  },
  {
   "property": "C20",
   "status": "proved",
   "theorems": [
    "C20_gaussian_control"
   ],
   "note": ""
  },
  {
   "property": "C21",
   "status": "proved",
   "theorems": [
    "C21_gaussian_window",
    "C21_short_grids"
   ],
   "note": ""
  },
  {
   "property": "C22",
   "status": "proved",
   "theorems": [
    "C22_interior_control",
    "C22_interior_answers",
    "C22_score_matching"
   ],
   "note": ""
  },
  {
   "property": "C23",
   "status": "proved",
   "theorems": [
    "C23_too_few_columns",
    "C23_too_few_columns_edge"
   ],
   "note": ""
  },
  {
   "property": "C24",
   "status": "proved",
   "theorems": [
    "C24_pointwise"
   ],
   "note": ""
  },
  {
   "property": "C25",
   "status": "proved",
   "theorems": [
    "C25_zero_spread",
    "C25_undefined"
   ],
   "note": ""
  },
  {
   "property": "C26",
   "status": "proved",
   "theorems": [
    "C26_antisymmetric",
    "C26_vanishes"
   ],
   "note": ""
  },
  {
   "property": "C27",
   "status": "proved",
   "theorems": [
    "C27_bridge_fails",
    "C27_bridge_misplaced"
   ],
   "note": ""
  },
  {
   "property": "C28",
   "status": "proved",
   "theorems": [
    "C28_negative_index",
    "C28_out_of_range",
    "C28_coverage_negative"
   ],
   "note": ""
  },
  {
   "property": "C29",
   "status": "proved",
   "theorems": [
    "C29_object_unchanged",
    "C29_answers_stable"
   ],
   "note": ""
  },
  {
   "property": "C30",
   "status": "proved",
   "theorems": [
    "C30_covered"
   ],
   "note": ""
  },
  {
   "property": "C31",
   "status": "proved",
   "theorems": [
    "C31_torch_covered",
    "C31_implied",
    "C31_converse_fails"
   ],
   "note": ""
  },
  {
   "property": "C32",
   "status": "proved",
   "theorems": [
    "C32_initial",
    "C32_terminal"
   ],
   "note": ""
  },
  {
   "property": "C33",
   "status": "proved",
   "theorems": [
    "C33_weights",
    "C33_weights_exist",
    "C33_weights_shift_invariant",
    "C33_shift_of_U_changes_nothing"
   ],
   "note": ""
  },
  {
   "property": "C34",
   "status": "proved",
   "theorems": [
    "C34_transport_matrix",
    "C34_reweighting",
    "C34_reweighting_stochastic"
   ],
   "note": ""
  },
  {
   "property": "C35",
   "status": "proved",
   "theorems": [
    "C35_mean_preserved",
    "C35_average_of_run"
   ],
   "note": ""
  },
  {
   "property": "C36",
   "status": "proved",
   "theorems": [
    "C36_constant_constraint_changes_nothing",
    "C36_constant_constraint_bridge",
    "C36_equal_weights_move_nothing"
   ],
   "note": ""
  },
  {
   "property": "C37",
   "status": "proved",
   "theorems": [
    "C37_constraint_repels"
   ],
   "note": ""
  },
  {
   "property": "C38",
   "status": "proved",
   "theorems": [
    "C38_cdist",
    "C38_schedule_independent",
    "C38_euclidean",
    "C38_l1_is_not_l1"
   ],
   "note": ""
  },
  {
   "property": "C39",
   "status": "proved",
   "theorems": [
    "C39_numpy_kernels",
    "C39_function_kernel",
    "C39_torch_kernel",
    "C39_values",
    "C39_equal_lengthscales"
   ],
   "note": ""
  },
  {
   "property": "C40",
   "status": "proved",
   "theorems": [
    "C40_numpy_gradients",
    "C40_all_dims_gradient"
   ],
   "note": ""
  },
  {
   "property": "C41",
   "status": "proved",
   "theorems": [
    "C41_constructor",
    "C41_vector_without_multil",
    "C41_no_kernel_call",
    "C41_last_kernel_call",
    "C41_same_arguments",
    "C41_stale_factor"
   ],
   "note": ""
  },
  {
   "property": "C42",
   "status": "proved",
   "theorems": [
    "C42_gram",
    "C42_never_singular",
    "C42_never_singular_all_dims",
    "C42_functions_never_singular",
    "C42_boundary"
   ],
   "note": ""
  },
  {
   "property": "C43",
   "status": "proved",
   "theorems": [
    "C43_samples",
    "C43_functions",
    "C43_all_dims",
    "C43_unique"
   ],
   "note": ""
  },
  {
   "property": "C44",
   "status": "proved",
   "theorems": [
    "C44_separate",
    "C44_all_dims",
    "C44_old"
   ],
   "note": ""
  },
  {
   "property": "C45",
   "status": "proved",
   "theorems": [
    "C45_old",
    "C45_columns",
    "C45_function_columns"
   ],
   "note": ""
  },
  {
   "property": "C46",
   "status": "proved",
   "theorems": [
    "C46_samples",
    "C46_functions"
   ],
   "note": ""
  },
  {
   "property": "C47",
   "status": "proved",
   "theorems": [
    "C47_reordered_samples",
    "C47_reordered_inducing_points",
    "C47_translation",
    "C47_scaling"
   ],
   "note": ""
  },
  {
   "property": "C48",
   "status": "proved",
   "theorems": [
    "C48_torch_single_lengthscale",
    "C48_torch_list_lengthscales",
    "C48_torch_unknown_kernel",
    "C48_periodic_all_dims",
    "C48_two_coordinates",
    "C48_one_dimension",
    "C48_two_coordinate_values",
    "C48_disagrees"
   ],
   "note": ""
  },
  {
   "property": "C49",
   "status": "proved",
   "theorems": [
    "C49_torch_shape",
    "C49_torch_forward_start",
    "C49_torch_stochastic_start",
    "C49_torch_backward_boundaries"
   ],
   "note": ""
  },
  {
   "property": "C50",
   "status": "proved",
   "theorems": [
    "C50_bridge_needs",
    "C50_bridge_mode_raises",
    "C50_bridge_square"
   ],
   "note": ""
  },
  {
   "property": "C51",
   "status": "proved",
   "theorems": [
    "C51_one_dimension_raises"
   ],
   "note": ""
  },
  {
   "property": "C52",
   "status": "proved",
   "theorems": [
    "C52_numpy_start_raises"
   ],
   "note": ""
  },
  {
   "property": "C53",
   "status": "proved",
   "theorems": [
    "C53_torch_numpy_ratio"
   ],
   "note": ""
  },
  {
   "property": "C54",
   "status": "proved",
   "theorems": [
    "C54_boxes_have_width",
    "C54_zero_spread_raises",
    "C54_every_coordinate_spread",
    "C54_one_particle_raises",
    "C54_noise_free_coordinate_raises"
   ],
   "note": ""
  },
  {
   "property": "C55",
   "status": "proved",
   "theorems": [
    "C55_package_never_imports",
    "C55_not_from_the_directory_either",
    "C55_what_it_would_need",
    "C55_torch_is_required"
   ],
   "note": ""
  },
  {
   "property": "C56",
   "status": "proved",
   "theorems": [
    "C56_stochastic_recurrence"
   ],
   "note": ""
  },
  {
   "property": "C57",
   "status": "proved",
   "theorems": [
    "C57_torch_forward_recurrence"
   ],
   "note": ""
  },
  {
   "property": "C58",
   "status": "proved",
   "theorems": [
    "C58_torch_backward_recurrence"
   ],
   "note": ""
  },
  {
   "property": "C59",
   "status": "proved",
   "theorems": [
    "C59_torch_stochastic_recurrence"
   ],
   "note": ""
  },
  {
   "property": "C60",
   "status": "proved",
   "theorems": [
    "C60_torch_timegrid",
    "C60_torch_reversed_interval",
    "C60_same_grid"
   ],
   "note": ""
  },
  {
   "property": "C61",
   "status": "proved",
   "theorems": [
    "C61_torch_gaussian_window",
    "C61_torch_interior_control",
    "C61_torch_out_of_range"
   ],
   "note": ""
  },
  {
   "property": "C62",
   "status": "proved",
   "theorems": [
    "C62_torch_reweighting",
    "C62_torch_reweighting_stochastic",
    "C62_squared_distance_transport",
    "C62_equal_weights_move_nothing",
    "C62_shift_of_U_changes_nothing",
    "C62_constant_constraint_changes_nothing",
    "C62_average_of_run",
    "C62_constraint_repels"
   ],
   "note": ""
  },
  {
   "property": "C63",
   "status": "proved",
   "theorems": [
    "C63_samples_bounded",
    "C63_function_bounded",
    "C63_forward_step_bounded",
    "C63_backward_step_bounded",
    "C63_control_bounded"
   ],
   "note": ""
  },
  {
   "property": "C64",
   "status": "proved",
   "theorems": [
    "C64_number_of_points",
    "C64_points",
    "C64_zero_start",
    "C64_torch_same_number_of_points",
    "C64_torch_number_of_points",
    "C64_torch_points",
    "C64_torch_near_numpy"
   ],
   "note": ""
  },
  {
   "property": "C65",
   "status": "proved",
   "theorems": [
    "C65_one_stream",
    "C65_determined",
    "C65_only_solution",
    "C65_torch_one_stream",
    "C65_torch_determined"
   ],
   "note": ""
  },
  {
   "property": "C66",
   "status": "proved",
   "theorems": [
    "C66_run",
    "C66_covered",
    "C66_control",
    "C66_torch_run",
    "C66_torch_covered",
    "C66_torch_control"
   ],
   "note": ""
  },
  {
   "property": "C67",
   "status": "proved",
   "theorems": [
    "C67_causal",
    "C67_causal_stochastic",
    "C67_longer_horizon",
    "C67_torch_causal"
   ],
   "note": ""
  },
  {
   "property": "C68",
   "status": "proved",
   "theorems": [
    "C68_torch_construct",
    "C68_torch_short",
    "C68_torch_construct_R",
    "C68_torch_one_particle",
    "C68_torch_query"
   ],
   "note": ""
  },
  {
   "property": "C69",
   "status": "proved",
   "theorems": [
    "C69_controlled_simulation",
    "C69_script",
    "C69_no_interaction",
    "C69_script_prefix",
    "C69_last_state_undefined",
    "C69_runs"
   ],
   "note": ""
  },
  {
   "property": "C70",
   "status": "proved",
   "theorems": [
    "C70_run",
    "C70_answers",
    "C70_environment",
    "C70_torch_run",
    "C70_torch_answers"
   ],
   "note": ""
  },
  {
   "property": "C71",
   "status": "proved",
   "theorems": [
    "C71_one_dimension",
    "C71_period",
    "C71_list",
    "C71_opposite_sign",
    "C71_ignores_coordinates",
    "C71_list_no_minimum",
    "C71_list_singular",
    "C71_single_lengthscale",
    "C71_undefined"
   ],
   "note": ""
  },
  {
   "property": "C72",
   "status": "proved",
   "theorems": [
    "C72_drift",
    "C72_script",
    "C72_time_index",
    "C72_controlled",
    "C72_score",
    "C72_stationary",
    "C72_flow_rotates",
    "C72_bounded"
   ],
   "note": ""
  },
  {
   "property": "C73",
   "status": "proved",
   "theorems": [
    "C73_covered",
    "C73_forward_flow",
    "C73_reverse_flow",
    "C73_k_at_least_grid",
    "C73_k_too_large",
    "C73_only_rbf",
    "C73_control",
    "C73_reweighting_depends_on_origin",
    "C73_phases",
    "C73_reduction_harmless",
    "C73_runs",
    "C73_control_exists",
    "C73_script",
    "C73_simulation"
   ],
   "note": ""
  },
  {
   "property": "C74",
   "status": "proved",
   "theorems": [
    "C74_order_parameter",
    "C74_order_range",
    "C74_synchronised",
    "C74_order_invariant",
    "C74_constraint",
    "C74_weights",
    "C74_drift",
    "C74_drift_wrong_size",
    "C74_mean_field",
    "C74_coupling_cancels",
    "C74_drift_invariant",
    "C74_synchronised_rest",
    "C74_frequencies",
    "C74_mean_phase_conserved"
   ],
   "note": ""
  },
  {
   "property": "C75",
   "status": "proved",
   "theorems": [
    "C75_conservative",
    "C75_conservative_equilibrium",
    "C75_conservative_path",
    "C75_fate_drift",
    "C75_fate_symmetric",
    "C75_fate_cross_derivatives",
    "C75_fate_diagonal",
    "C75_fate_divergence",
    "C75_fate_linearisation",
    "C75_fate_affine",
    "C75_fate_mean",
    "C75_fate_Uc",
    "C75_fate_Uc_target",
    "C75_bridge_drift",
    "C75_fate_target",
    "C75_fate_start",
    "C75_fate_square",
    "C75_fate_no_potential"
   ],
   "note": ""
  },
  {
   "property": "C76",
   "status": "proved",
   "theorems": [
    "C76_linearised_score",
    "C76_regularised_score",
    "C76_linear_covariance",
    "C76_fate_covariance",
    "C76_phenotype_covariance",
    "C76_phenotype_drift",
    "C76_phenotype_equilibria",
    "C76_misspecified_noise",
    "C76_control",
    "C76_simulation",
    "C76_simulation_runs"
   ],
   "note": ""
  },
  {
   "property": "C77",
   "status": "proved",
   "theorems": [
    "C77_object",
    "C77_runs",
    "C77_same_forward",
    "C77_zero_noise",
    "C77_all_rejected",
    "C77_reweight",
    "C77_control",
    "C77_control_answers",
    "C77_simulation",
    "C77_simulation_runs",
    "C77_covered"
   ],
   "note": ""
  },
  {
   "property": "C78",
   "status": "proved",
   "theorems": [
    "C78_training",
    "C78_first_iteration",
    "C78_last_time",
    "C78_weights",
    "C78_path_weights",
    "C78_first_time",
    "C78_features"
   ],
   "note": "np.linalg.pinv as an argument with a contract (two Penrose equations on symmetric matrices); existence of such a function is proved"
  },
  {
   "property": "C79",
   "status": "proved",
   "theorems": [
    "C79_importance",
    "C79_end_cost",
    "C79_simulation",
    "C79_numbers"
   ],
   "note": "includes the exact condition under which the script's weights are importance weights"
  },
  {
   "property": "C80",
   "status": "proved",
   "theorems": [
    "C80_every_step",
    "C80_torch_every_step",
    "C80_weights",
    "C80_underflow",
    "C80_accuracy",
    "C80_run"
   ],
   "note": ""
  },
  {
   "property": "C81",
   "status": "proved",
   "theorems": [
    "C81_covered",
    "C81_torch_covered",
    "C81_start",
    "C81_end"
   ],
   "note": ""
  },
  {
   "property": "C82",
   "status": "proved",
   "theorems": [
    "C82_accuracy",
    "C82_torch_accuracy",
    "C82_symmetric",
    "C82_values",
    "C82_vanishing_lengthscale",
    "C82_torch_values"
   ],
   "note": ""
  },
  {
   "property": "C83",
   "status": "proved",
   "theorems": [
    "C83_control",
    "C83_forward_finite",
    "C83_forward_no_nan",
    "C83_contagion",
    "C83_certificate",
    "C83_terminal_drift",
    "C83_stochastic_nan",
    "C83_stochastic_control",
    "C83_torch_control",
    "C83_torch_forward",
    "C83_torch_forward_no_nan",
    "C83_torch_contagion",
    "C83_torch_certificate",
    "C83_torch_terminal_drift"
   ],
   "note": ""
  },
  {
   "property": "C84",
   "status": "proved",
   "theorems": [
    "C84_accuracy",
    "C84_torch_accuracy"
   ],
   "note": "both classes; exact real score of the stored double ensembles versus the double the query returns; the accuracy of the flows themselves is not claimed"
  },
  {
   "property": "C85",
   "status": "proved",
   "theorems": [
    "C85_forward",
    "C85_bridge_flow",
    "C85_backward",
    "C85_stochastic",
    "C85_finite_history",
    "C85_torch_forward",
    "C85_torch_backward",
    "C85_torch_stochastic",
    "C85_torch_finite_history"
   ],
   "note": "C85_forward, C85_backward, C85_bridge_flow, C85_stochastic (DPFC), C85_torch_forward, C85_torch_backward, C85_torch_stochastic: every stored step, with the rounding bound and the finiteness certificate; C85_finite_history, C85_torch_finite_history: infinities never heal. One step only: the error of the scores themselves (linear solver) and its accumulation over the run are not bounded."
  },
  {
   "property": "C86",
   "status": "proved",
   "theorems": [
    "C86_stochastic_accuracy",
    "C86_torch_stochastic_accuracy"
   ],
   "note": "C86_stochastic_accuracy (DPFC: all grid points except the last, which is pinned to y2, C14), C86_torch_stochastic_accuracy (torched_DPFC: all grid points). Stochastic mode without reweighting only; the deterministic flows involve the solver of the score estimator, for which no error bound is assumed. Binary64 for both classes."
  },
  {
   "property": "C87",
   "status": "proved",
   "theorems": [
    "C87_feedback",
    "C87_torch_feedback",
    "C87_simulation"
   ],
   "note": ""
  },
  {
   "property": "C88",
   "status": "proved",
   "theorems": [
    "C88_gradient",
    "C88_wells",
    "C88_trapped_right",
    "C88_trapped_left",
    "C88_bridge"
   ],
   "note": ""
  },
  {
   "property": "C89",
   "status": "proved",
   "theorems": [
    "C89_stochastic",
    "C89_torch_stochastic"
   ],
   "note": ""
  },
  {
   "property": "C90",
   "status": "proved",
   "theorems": [
    "C90_forget",
    "C90_order",
    "C90_torch_forget",
    "C90_torch_order"
   ],
   "note": ""
  }
 ]
}
