{
 "claims": [
  {
   "property": "C01",
   "status": "proved",
   "theorems": [
    "C01_round_trip",
    "C01_fit_trains",
    "C01_constructors_build",
    "C01_reference_shared_with_data_refuted",
    "C01_reference_apart_from_data"
   ],
   "note": "Every trained transformer (also pipelines and multi-variable joins) inverts in both directions; fit makes it trained; constructors give fittable transformers. Refuted when the reference of a ShiftTransformer is a view of data transformed in place."
  },
  {
   "property": "C02",
   "status": "proved",
   "theorems": [
    "C02_inverse_at_locations",
    "C02_multi_at_locations",
    "C02_multi_unequal_sizes",
    "C02_byrow_without_scaling_refuted"
   ],
   "note": "Integer-array and slice locations; boolean masks not modelled. Refuted for ShiftScaleTransformer(scaling=None, byrow=True), which raises TypeError."
  },
  {
   "property": "C03",
   "status": "proved",
   "theorems": [
    "C03_documented_statistics",
    "C03_centered_rows",
    "C03_fit_succeeds"
   ],
   "note": "All seven scalings, both byrow values, both centering values; fit succeeds on all non-degenerate data."
  },
  {
   "property": "C04",
   "status": "proved",
   "theorems": [
    "C04_ddts_is_the_derivative"
   ],
   "note": "All transformers, pipelines and joins."
  },
  {
   "property": "C05",
   "status": "proved",
   "theorems": [
    "C05_order_of_members",
    "C05_training_order",
    "C05_round_trip",
    "C05_tuple_refuted"
   ],
   "note": "Transform, derivatives, inverse with or without locs, training order, round trip. The documented tuple argument is refused (refuted)."
  },
  {
   "property": "C06",
   "status": "proved",
   "theorems": [
    "C06_fit_each_variable",
    "C06_split_concatenates",
    "C06_get_var_rows",
    "C06_acts_variable_by_variable",
    "C06_wrong_row_counts",
    "C06_get_var_minus_one_refuted"
   ],
   "note": "Row blocks, get_var by index and name, all methods variable by variable, wrong row counts. get_var(-1) refuted."
  },
  {
   "property": "C07",
   "status": "proved",
   "theorems": [
    "C07_shift_by_the_mean",
    "C07_shift_by_a_vector",
    "C07_scale_between_intervals",
    "C07_scale_from_the_data"
   ],
   "note": "shift and scale functions."
  },
  {
   "property": "C08",
   "status": "proved",
   "theorems": [
    "C08_methods_respect_inplace",
    "C08_any_sequence_of_calls",
    "C08_in_place_round_trip"
   ],
   "note": "Memory model with views; all four methods, all flags, all sequences of calls."
  },
  {
   "property": "C09",
   "status": "proved",
   "theorems": [
    "C09_compress_decompress",
    "C09_projection_idempotent",
    "C09_projection_linear",
    "C09_orthogonality_check",
    "C09_no_warning_if_orthonormal"
   ],
   "note": "Linear and POD bases with no, vector or matrix weights; idempotence, linearity; the orthogonality check modelled as np.allclose."
  },
  {
   "property": "C10",
   "status": "proved",
   "theorems": [
    "C10_residual_orthogonal",
    "C10_best_approximation",
    "C10_error_zero_iff",
    "C10_error_is_the_minimum"
   ],
   "note": "Weighted orthogonality and best approximation column by column; error zero iff in the range; unweighted error is the minimum."
  },
  {
   "property": "C11",
   "status": "proved",
   "theorems": [
    "C11_linear_and_pod",
    "C11_bad_location",
    "C11_multi_variable",
    "C11_multi_different_sizes"
   ],
   "note": "Integer arrays and slices; boolean masks not modelled."
  },
  {
   "property": "C12",
   "status": "proved",
   "theorems": [
    "C12_compress",
    "C12_decompress",
    "C12_round_trip",
    "C12_projection",
    "C12_wrong_sizes",
    "C12_split",
    "C12_get_variable",
    "C12_get_variable_by_name",
    "C12_constructor",
    "C12_not_trained",
    "C12_not_trained_reduced",
    "C12_fit_each_variable",
    "C12_wide_basis_refuted"
   ],
   "note": "compress, decompress, project, split, get_var, fit, wrong sizes. Decompressing with a basis wider than tall is refuted."
  },
  {
   "property": "C13",
   "status": "proved",
   "theorems": [
    "C13_num_vectors",
    "C13_cumulative_energy",
    "C13_residual_energy",
    "C13_projection_error",
    "C13_svdval_threshold",
    "C13_residual_energy_documented",
    "C13_projection_error_documented",
    "C13_svdval_decay_function",
    "C13_cumulative_energy_function",
    "C13_residual_energy_function",
    "C13_projection_error_function",
    "C13_class_and_function_cumulative",
    "C13_class_and_function_residual",
    "C13_class_and_function_projection",
    "C13_class_and_function_svdval",
    "C13_exact_threshold_refuted",
    "C13_pod_basis_function",
    "C13_no_vectors_refuted"
   ],
   "note": "All five criteria and the functions. The documented non-strict threshold is refuted for the class when hit exactly; r = 0 possible (refuted)."
  },
  {
   "property": "C14",
   "status": "proved",
   "theorems": [
    "C14_singular_values_fixed",
    "C14_refused_request",
    "C14_prefix_of_stored_vectors",
    "C14_before_fit",
    "C14_depends_on_last_request",
    "C14_depends_on_last_fit",
    "C14_assignment_is_forgotten_refuted",
    "C14_failed_fit_keeps_old_entries_refuted",
    "C14_negative_dimension_refuted"
   ],
   "note": "Any history of returning operations. Refuted after a raising fit, for negative dimensions, and for assignment followed by fit."
  },
  {
   "property": "C15",
   "status": "proved",
   "theorems": [
    "C15_residual_energy",
    "C15_projection_error",
    "C15_weighted_error_refuted"
   ],
   "note": "Exact dense SVD (or any exact callable), any weights in the weighted norm; projection_error() without weights. With weights projection_error() is refuted."
  },
  {
   "property": "C16",
   "status": "proved",
   "theorems": [
    "C16_orthonormal_vectors",
    "C16_reconstruction",
    "C16_positive_definite_refuted",
    "C16_single_snapshot",
    "C16_single_snapshot_fit"
   ],
   "note": "Exact eigendecomposition. Reconstruction when all eigenvalues are positive is refuted."
  },
  {
   "property": "C17",
   "status": "proved",
   "theorems": [
    "C17_ckron_lists_monomials",
    "C17_each_monomial_once",
    "C17_ckron_indices_agree",
    "C17_ckron_columnwise"
   ],
   "note": "all three classes, vectors and matrices of states"
  },
  {
   "property": "C18",
   "status": "proved",
   "theorems": [
    "C18_compress_preserves_operator",
    "C18_compress_rejects_other_shapes"
   ],
   "note": ""
  },
  {
   "property": "C19",
   "status": "proved",
   "theorems": [
    "C19_expand_is_symmetric_right_inverse",
    "C19_expand_never_wrong",
    "C19_expand_compress_symmetrizes",
    "C19_expand_rejects_other_shapes"
   ],
   "note": "the Newton search for r is proved to succeed up to r=10^11 (cubic) / 10^8 (quartic); C19_expand_never_wrong covers every r"
  },
  {
   "property": "C20",
   "status": "proved",
   "theorems": [
    "C20_jacobian_is_derivative",
    "C20_jacobian_total",
    "C20_polynomial_operator_refuted"
   ],
   "note": "all nonparametric operator classes; refuted for PolynomialOperator, whose inherited jacobian is zero"
  },
  {
   "property": "C21",
   "status": "proved",
   "theorems": [
    "C21_datablock_reproduces_apply"
   ],
   "note": ""
  },
  {
   "property": "C22",
   "status": "proved",
   "theorems": [
    "C22_galerkin_commutes",
    "C22_galerkin_inverse",
    "C22_galerkin_total",
    "C22_galerkin_rejects_misaligned"
   ],
   "note": "la.solve enters as a hypothesis; the case where W'V is within np.allclose of the identity but different from it is excluded (the code then skips the solve)"
  },
  {
   "property": "C23",
   "status": "proved",
   "theorems": [
    "C23_datablock_lists_monomials",
    "C23_operator_dimension_counts_monomials",
    "C23_agrees_with_dedicated_classes",
    "C23_apply_is_polynomial"
   ],
   "note": ""
  },
  {
   "property": "C24",
   "status": "proved",
   "theorems": [
    "C24_evaluate_is_affine_combination",
    "C24_evaluate_apply",
    "C24_datablock_lists_evaluations",
    "C24_set_entries_from_block",
    "C24_galerkin_commutes_with_evaluate"
   ],
   "note": "la.solve enters as a hypothesis; galerkin with the same exclusion as C22"
  },
  {
   "property": "C25",
   "status": "proved",
   "theorems": [
    "C25_evaluate_at_training_parameter",
    "C25_evaluate_user_interpolator",
    "C25_datablock_block_diagonal",
    "C25_regression_decouples",
    "C25_second_set_entries_refuted"
   ],
   "note": "the interpolators are parameters; CubicSpline is assumed to interpolate on increasing parameters; refuted for a second set_entries / copy with unsorted parameters"
  },
  {
   "property": "C26",
   "status": "proved",
   "theorems": [
    "C26_set_entries_accepts_exactly",
    "C26_non_arrays_rejected",
    "C26_full_kronecker_entries_stored",
    "C26_compressed_entries_stored",
    "C26_linear_entries_stored",
    "C26_input_entries_stored",
    "C26_stateinput_entries_stored",
    "C26_every_history",
    "C26_equality",
    "C26_addition",
    "C26_addition_applies",
    "C26_addition_rejects_other_class",
    "C26_addition_checks_sizes_refuted",
    "C26_sparse_entries_finite_refuted"
   ],
   "note": "sparse entries: only the validation is modelled"
  },
  {
   "property": "C27",
   "status": "proved",
   "theorems": [
    "C27_fit_distributes",
    "C27_refit_distributes"
   ],
   "note": "After any history, fit and refit."
  },
  {
   "property": "C28",
   "status": "proved",
   "theorems": [
    "C28_fit_is_best",
    "C28_refit_is_best"
   ],
   "note": "All solvers with a documented penalty (plain, L2, L2 decoupled, Tikhonov, Tikhonov decoupled); truncated SVD and total least squares solve other problems (C38, C39)."
  },
  {
   "property": "C29",
   "status": "proved",
   "theorems": [
    "C29_rhs_is_the_sum",
    "C29_rhs_order",
    "C29_rhs_of_snapshots",
    "C29_jacobian_is_the_sum",
    "C29_jacobian_order",
    "C29_jacobian_defined",
    "C29_jacobian_is_the_derivative",
    "C29_continuous_rhs",
    "C29_continuous_jacobian"
   ],
   "note": "After any history; Jacobian as directional derivative."
  },
  {
   "property": "C30",
   "status": "proved",
   "theorems": [
    "C30_recurrence",
    "C30_prefix",
    "C30_restart",
    "C30_inputs_not_used",
    "C30_wrong_state",
    "C30_wrong_inputs",
    "C30_callable_inputs",
    "C30_not_trained"
   ],
   "note": ""
  },
  {
   "property": "C31",
   "status": "proved",
   "theorems": [
    "C31_pairs",
    "C31_pairs_with_inputs",
    "C31_pairs_with_scalar_inputs",
    "C31_fit_pairs",
    "C31_fit_inputs"
   ],
   "note": ""
  },
  {
   "property": "C32",
   "status": "proved",
   "theorems": [
    "C32_dimensions_agree",
    "C32_assignment",
    "C32_duplicates_rejected",
    "C32_rejected_assignment",
    "C32_rejected_assignment_refuted",
    "C32_refit_after_error_refuted",
    "C32_fit_demands_inputs",
    "C32_fit_ignores_inputs",
    "C32_rhs_demands_inputs",
    "C32_rhs_ignores_inputs",
    "C32_trained_iff_entries",
    "C32_solver_lost_refuted"
   ],
   "note": "Histories include raising calls, except rejected assignments of operators or regularizers and refit of an untrained model; these exclusions are refuted."
  },
  {
   "property": "C33",
   "status": "proved",
   "theorems": [
    "C33_evaluate",
    "C33_evaluate_defined",
    "C33_rhs",
    "C33_jacobian",
    "C33_predict",
    "C33_fit_is_best",
    "C33_refit_is_best",
    "C33_fit_trains",
    "C33_discrete_pairs",
    "C33_discrete_given",
    "C33_known_interpolated_refuted"
   ],
   "note": "After any history, raising calls included. Interpolator classes are assumed faithful at distinct training parameters. Refuted: fitting with a known interpolated operator."
  },
  {
   "property": "C34",
   "status": "proved",
   "theorems": [
    "C34_separate_fits",
    "C34_known_operators_refuted"
   ],
   "note": "All operators learned, after any history. Refuted with known operators."
  },
  {
   "property": "C35",
   "status": "proved",
   "theorems": [
    "C35_plain_solver",
    "C35_l2_solver",
    "C35_l2_decoupled",
    "C35_l2_defined",
    "C35_l2_decoupled_defined",
    "C35_tikhonov",
    "C35_tikhonov_decoupled",
    "C35_decoupled_agree_l2",
    "C35_decoupled_agree_tikhonov",
    "C35_l2_is_scaled_identity",
    "C35_fit_records_the_data",
    "C35_not_ready"
   ],
   "note": "All five regularised solvers, both Tikhonov methods, after any history; scipy lstsq, svd and solve enter through their documented behaviour."
  },
  {
   "property": "C36",
   "status": "proved",
   "theorems": [
    "C36_residual",
    "C36_residual_1d",
    "C36_residual_wrong_shape",
    "C36_regresidual_l2",
    "C36_regresidual_l2_decoupled",
    "C36_regresidual_tikhonov",
    "C36_regresidual_tikhonov_decoupled",
    "C36_solution_has_least_regresidual",
    "C36_regresidual_1d",
    "C36_decoupled_regresidual_1d_refuted"
   ],
   "note": "Per-row objective values, nonnegativity, minimality, shapes. One-dimensional argument of the decoupled Tikhonov solver refuted."
  },
  {
   "property": "C37",
   "status": "proved",
   "theorems": [
    "C37_penalty",
    "C37_errors",
    "C37_lstsq_size",
    "C37_lstsq_size_errors"
   ],
   "note": "Regularizer entries, block penalties, sizes and errors."
  },
  {
   "property": "C38",
   "status": "proved",
   "theorems": [
    "C38_truncated_solution",
    "C38_defined",
    "C38_assignment",
    "C38_fit"
   ],
   "note": "Eckart-Young is proved, not assumed. num_svdmodes assignment and clipping."
  },
  {
   "property": "C39",
   "status": "proved",
   "theorems": [
    "C39_nearest_consistent_system",
    "C39_too_few_rows"
   ],
   "note": "Also: no smaller perturbation makes the system consistent, and error() is its size."
  },
  {
   "property": "C40",
   "status": "proved",
   "theorems": [
    "C40_l2",
    "C40_l2_decoupled",
    "C40_tikhonov",
    "C40_tikhonov_decoupled",
    "C40_tikhonov_decoupled_negative",
    "C40_l2_decoupled_shape_refuted",
    "C40_tikhonov_shape_refuted",
    "C40_tikhonov_decoupled_shape_refuted"
   ],
   "note": "Positive parts proved for all solvers; false after fit() for wrong shapes (three _refuted theorems)."
  },
  {
   "property": "C41",
   "status": "proved",
   "theorems": [
    "C41_exact_on_polynomials",
    "C41_not_exact_at_next_degree",
    "C41_inputs_and_short_data"
   ],
   "note": "real arithmetic; \"not exact at the next degree\" included"
  },
  {
   "property": "C42",
   "status": "proved",
   "theorems": [
    "C42_estimate_matches_mask",
    "C42_derivatives_at_masked_times",
    "C42_too_short_raises",
    "C42_misaligned_inputs_raise",
    "C42_uniform_times_accepted",
    "C42_states_aligned_with_time_refuted"
   ],
   "note": "refuted: the number of snapshots is not compared with the time domain"
  },
  {
   "property": "C43",
   "status": "proved",
   "theorems": [
    "C43_ddt_uniform_exact",
    "C43_ddt_uniform_rejects",
    "C43_ddt_nonuniform_exact",
    "C43_ddt_dispatch",
    "C43_integer_step_refuted"
   ],
   "note": "real arithmetic (integer arrays are truncated by the code: not modelled); refuted for a positional integer step. The inputs returned by NonuniformFiniteDifferencer.estimate are not part of this property and no theorem constrains them"
  },
  {
   "property": "C44",
   "status": "proved",
   "theorems": [
    "C44_never_worse",
    "C44_evaluates_all",
    "C44_grid_winner",
    "C44_all_infeasible",
    "C44_succeeds",
    "C44_bracket",
    "C44_discrete_stability",
    "C44_continuous_stability",
    "C44_zero_refuted"
   ],
   "note": "scipy optimizers are arbitrary finite strategies that report a point they evaluated; the bracket also needs that the bounded one stays in its bounds. False for candidates containing 0, where ValueError is raised (C44_zero_refuted)."
  },
  {
   "property": "C45",
   "status": "proved",
   "theorems": [
    "C45_refuses",
    "C45_default_refuses",
    "C45_forbidden",
    "C45_history",
    "C45_other_files",
    "C45_elsewhere",
    "C45_contents",
    "C45_overwrites",
    "C45_load_missing",
    "C45_load_format",
    "C45_posterior_default_refuted",
    "C45_killed_refuted",
    "C45_raising_refuted"
   ],
   "note": "The file system maps paths to files; a save is the sequence of h5py calls of the class, any of which may raise, and the process may be killed between any two. Whether the remains of a killed save can be opened is left open. Refuted: the default of OperatorPosterior, and overwrite=True with a save that does not return."
  },
  {
   "property": "C46",
   "status": "proved",
   "theorems": [
    "C46_transformer",
    "C46_pipeline",
    "C46_transformer_multi",
    "C46_length_one_scaler_refuted",
    "C46_name_None_refuted",
    "C46_pipeline_name_refuted",
    "C46_half_scaled_refuted",
    "C46_nested_refuted",
    "C46_linear_basis",
    "C46_pod_basis",
    "C46_pod_basis_dense",
    "C46_pod_basis_new",
    "C46_basis_multi",
    "C46_pod_max_vectors",
    "C46_basis_empty_name_refuted",
    "C46_pod_rank_refuted",
    "C46_pod_no_right_vectors_refuted",
    "C46_operator",
    "C46_operator_other_class",
    "C46_affine",
    "C46_affine_int_refuted",
    "C46_interpolated_new",
    "C46_interpolated_params",
    "C46_interpolated",
    "C46_interpolated_unknown_class",
    "C46_interpolated_unsorted_refuted",
    "C46_solver",
    "C46_solver_if_saved",
    "C46_tsvd_none_refuted",
    "C46_tikhonov_shapes_refuted",
    "C46_raising_fit_refuted",
    "C46_model",
    "C46_model_saves",
    "C46_model_training_refuted",
    "C46_model_solver_refuted",
    "C46_interp_model",
    "C46_interp_model_trained",
    "C46_posterior",
    "C46_posterior_precisions_refuted"
   ],
   "note": "Files are trees of datasets and attributes; h5py returns what was written. Functions (affine coefficients) are given again on load, interpolator classes are found by name. Exceptions are refuted one by one. Sparse arrays and parametric models other than the interpolatory ones (whose save() is not implemented) are not covered."
  },
  {
   "property": "C47",
   "status": "proved",
   "theorems": [
    "C47_limit",
    "C47_exact",
    "C47_only_after_limit",
    "C47_cancels_alarm",
    "C47_no_alarm_left",
    "C47_never_killed",
    "C47_no_limit",
    "C47_nesting_refuted",
    "C47_caller_alarm_refuted",
    "C47_own_timeout_refuted",
    "C47_catching_refuted"
   ],
   "note": "One clock, one alarm, one handler; programs are nestings of work, exceptions, try and blocks. Nested limits, handlers of the caller, own TimeoutErrors and bodies that catch everything are refuted. Printing, logging and rebuffering are not modelled."
  },
  {
   "property": "C48",
   "status": "proved",
   "theorems": [
    "C48_discrete_recurrence",
    "C48_discrete_rejects",
    "C48_continuous_columns",
    "C48_continuous_rejects",
    "C48_discrete_is_galerkin",
    "C48_continuous_is_galerkin",
    "C48_learn_continuous",
    "C48_learn_discrete"
   ],
   "note": "Re-projection: the discrete version equals predict() of the Galerkin model, the continuous version gives its right-hand sides; a model of the same structure fitted to the data has residual zero (plain solver) and equals the Galerkin model when the data matrix has independent columns; with regularization the objective is at most the Galerkin penalty. The caller-supplied f is assumed to evaluate the full-order model, the basis to be orthonormal."
  },
  {
   "property": "C49",
   "status": "proved",
   "theorems": [
    "C49_natural_powers",
    "C49_lift_entries",
    "C49_lift_defined",
    "C49_unlift_lift",
    "C49_all_orders_zero",
    "C49_no_orders",
    "C49_lift_ddts",
    "C49_lift_ddts_natural",
    "C49_quadratic_inverse",
    "C49_quadratic_entries",
    "C49_quadratic_ddts",
    "C49_orders",
    "C49_even_order_refuted",
    "C49_odd_order_refuted",
    "C49_order_zero_refuted",
    "C49_half_refuted"
   ],
   "note": "Powers of real numbers without rounding, with inf and nan. verify() is not modelled."
  },
  {
   "property": "C50",
   "status": "proved",
   "theorems": [
    "C50_lp_error",
    "C50_lp_error_vector",
    "C50_lp_shapes",
    "C50_lp_order",
    "C50_lp_zero",
    "C50_lp_symmetric",
    "C50_lp_scaling",
    "C50_lp_triangle",
    "C50_lp_triangle_refuted",
    "C50_frobenius",
    "C50_frobenius_rejects",
    "C50_frobenius_zero",
    "C50_frobenius_symmetric",
    "C50_frobenius_scaling",
    "C50_frobenius_triangle",
    "C50_frobenius_columns",
    "C50_Lp_error",
    "C50_Lp_error_vector",
    "C50_Lp_rejects",
    "C50_Lp_zero",
    "C50_Lp_symmetric",
    "C50_Lp_scaling",
    "C50_Lp_triangle",
    "C50_Lp_one_time_refuted",
    "C50_Lp_unordered_times_refuted",
    "C50_projection",
    "C50_projection_vector",
    "C50_projection_at_most_one",
    "C50_projection_zero"
   ],
   "note": "Real arithmetic; nan and inf are None. Minkowski is proved for every real p >= 1."
  },
  {
   "property": "C51",
   "status": "proved",
   "theorems": [
    "C51_encode_order",
    "C51_encode_discrete",
    "C51_encode_continuous",
    "C51_decode_order",
    "C51_encode_fitting",
    "C51_encode_by_columns",
    "C51_decode_by_columns",
    "C51_projection",
    "C51_exact_in_range",
    "C51_decode_then_encode",
    "C51_project_idempotent",
    "C51_locations",
    "C51_derivatives",
    "C51_polynomial_lifter",
    "C51_quadratic_lifter",
    "C51_polynomial_lifter_unlifts",
    "C51_quadratic_lifter_unlifts"
   ],
   "note": "Parts are an arbitrary lifter, a trained transformer and an orthonormal basis, each optional. What is asked of the lifter is proved of the two lifters of the library."
  },
  {
   "property": "C52",
   "status": "proved",
   "theorems": [
    "C52_fit",
    "C52_fit_discrete",
    "C52_fit_continuous",
    "C52_polynomial_lifter",
    "C52_quadratic_lifter",
    "C52_polynomial_lifter_ddts",
    "C52_quadratic_lifter_ddts",
    "C52_fit_refuses",
    "C52_constructor",
    "C52_estimator_ignored",
    "C52_inputs_beyond_the_end",
    "C52_fit_parametric",
    "C52_predict",
    "C52_predict_refuses",
    "C52_predict_parametric",
    "C52_short_inputs_refuted",
    "C52_steady_refuted"
   ],
   "note": "predict() of time-discrete models; ROM.predict with a time-continuous model is the same composition around scipy integration, which is not modelled. Derivative estimators are arbitrary functions. Short input lists and steady models are refuted."
  },
  {
   "property": "C53",
   "status": "proved",
   "theorems": [
    "C53_discrete_best",
    "C53_discrete_none",
    "C53_discrete_some",
    "C53_discrete_refuses",
    "C53_installed_is_best_fit",
    "C53_continuous_best",
    "C53_continuous_none",
    "C53_continuous_some",
    "C53_accepted_is_stable",
    "C53_stable_is_accepted",
    "C53_continuous_refuses",
    "C53_test_times",
    "C53_short_horizon_refuted",
    "C53_nan_refuted",
    "C53_zero_data_refuted"
   ],
   "note": "predict() is an arbitrary function that returns one row per reduced coordinate; scipy optimizers are arbitrary strategies that report a point they evaluated. Regularization of non-parametric models. Refuted: nan in the test horizon, short horizons, zero data."
  },
  {
   "property": "C54",
   "status": "proved",
   "theorems": [
    "C54_solver_before_fit",
    "C54_solver_without_returned_fit",
    "C54_solver_after_fit",
    "C54_decoupled_refuted",
    "C54_transformer_before_fit",
    "C54_joined_before_fit",
    "C54_multi_before_fit",
    "C54_new_transformers",
    "C54_transformer_after_fit",
    "C54_pod_before_fit",
    "C54_pod_after_fit",
    "C54_operator_without_entries",
    "C54_operator_with_entries",
    "C54_parametric_without_entries",
    "C54_affine_with_entries",
    "C54_model_without_entries",
    "C54_model_complete",
    "C54_model_after_fit"
   ],
   "note": "Histories of solvers and PODBasis contain raising calls; a failing fit of a transformer is not followed further. scipy is assumed not to raise AttributeError itself. L2DecoupledSolver after a raising fit is refuted (C54_decoupled_refuted). Printing-only methods marked as requiring singular values are not modelled."
  },
  {
   "property": "C55",
   "status": "proved",
   "theorems": [
    "C55_equality",
    "C55_reflexive",
    "C55_symmetric",
    "C55_transitive",
    "C55_reordering",
    "C55_copy_of_new_model",
    "C55_copy_of_trained_model",
    "C55_copy_forgets_refuted",
    "C55_copy_dimension_refuted"
   ],
   "note": "Copies too; what copies forget is refuted."
  },
  {
   "property": "C56",
   "status": "proved",
   "theorems": [
    "C56_posterior_of_trained",
    "C56_posterior_of_fit",
    "C56_fit_posterior",
    "C56_fit_ok",
    "C56_fit_raises",
    "C56_stale_posterior_refuted",
    "C56_draws",
    "C56_draws_forget",
    "C56_predict",
    "C56_no_posterior",
    "C56_solvers",
    "C56_loaded_refuted",
    "C56_discrete_selects",
    "C56_continuous_selects",
    "C56_selected_operators_refuted",
    "C56_l2_posterior",
    "C56_l2_decoupled_posterior",
    "C56_tikhonov_posterior",
    "C56_tikhonov_decoupled_posterior",
    "C56_vanishing_residual"
   ],
   "note": "BayesianROM without parameters; the random generator, the predict method of the model and the optimizers are arbitrary. scipy.stats is assumed to invert precision matrices. Not modelled: plotting, verbose output, predict of parametric models."
  },
  {
   "property": "C57",
   "status": "proved",
   "theorems": [
    "C57_bad_arguments",
    "C57_mismatch_is_rejected",
    "C57_tikhonov_refuted",
    "C57_total_refuted"
   ],
   "note": "Rejected arguments change nothing; two _refuted histories show stale precomputed data in TikhonovSolver and TotalLeastSquaresSolver."
  },
  {
   "property": "C58",
   "status": "proved",
   "theorems": [
    "C58_regcond",
    "C58_regcond_decoupled",
    "C58_regcond_wide_refuted"
   ],
   "note": "For at least as many rows as columns; refuted for wide matrices."
  },
  {
   "property": "C59",
   "status": "proved",
   "theorems": [
    "C59_galerkin_commutes",
    "C59_galerkin_defined"
   ],
   "note": "W'V equal to the identity, or not np.allclose to it."
  },
  {
   "property": "C60",
   "status": "proved",
   "theorems": [
    "C60_l2_accepts",
    "C60_l2_value",
    "C60_l2_decoupled_accepts",
    "C60_l2_decoupled_value",
    "C60_l2_decoupled_fit",
    "C60_tikhonov_accepts",
    "C60_tikhonov_value",
    "C60_tikhonov_fit",
    "C60_tikhonov_decoupled_accepts",
    "C60_tikhonov_decoupled_value",
    "C60_tikhonov_decoupled_fit"
   ],
   "note": "Lists, sparse matrices and nested lists are arrays here."
  },
  {
   "property": "C61",
   "status": "proved",
   "theorems": [
    "C61_problem",
    "C61_solutions",
    "C61_jacobian",
    "C61_unique",
    "C61_stable",
    "C61_accurate",
    "C61_input_data",
    "C61_refuses_untrained",
    "C61_refuses",
    "C61_rom",
    "C61_search",
    "C61_parametric"
   ],
   "note": "The integrator (solve_ivp) and the interpolation of inputs (CubicSpline, assumed to meet the data) are parameters; accuracy of the integrator is a hypothesis about the one problem it is given. Times in increasing order. Not modelled: solver options, the warning on failed integrations, functions that return sometimes numbers and sometimes arrays."
  },
  {
   "property": "C62",
   "status": "proved",
   "theorems": [
    "C62_estimate",
    "C62_derivative",
    "C62_defined",
    "C62_mask",
    "C62_mask_row",
    "C62_rejects",
    "C62_rejects_arguments",
    "C62_class_refuses",
    "C62_class_refuted"
   ],
   "note": "Interpolation rules (Akima, cubic splines, pchip) are parameters: functions that may refuse the data. What is asked of them is said in each theorem. Interpolators given as a class are refuted."
  },
  {
   "property": "C63",
   "status": "proved",
   "theorems": [
    "C63_tests",
    "C63_reports",
    "C63_shapes",
    "C63_uniform",
    "C63_nonuniform",
    "C63_interpolation",
    "C63_restores",
    "C63_shifted_refuted",
    "C63_raise",
    "C63_raise_refuted"
   ],
   "note": "Number of points and step sizes are arbitrary; real arithmetic, so that rounding for tiny steps is not seen. Printing and plots are not modelled. Refuted: backward and central schemes, exceptions during the comparison."
  },
  {
   "property": "C64",
   "status": "proved",
   "theorems": [
    "C64_made",
    "C64_made_default",
    "C64_galerkin_at_training",
    "C64_galerkin_commutes",
    "C64_galerkin_defined",
    "C64_galerkin_raises",
    "C64_galerkin_unsorted_refuted",
    "C64_model_galerkin",
    "C64_affine_copied",
    "C64_affine_projected",
    "C64_from_operators",
    "C64_from_operators_default",
    "C64_from_operators_rejects",
    "C64_from_models",
    "C64_from_models_default",
    "C64_from_models_rejects",
    "C64_from_models_untrained"
   ],
   "note": "Interpolator classes are parameters: at the training parameters they are assumed to meet the data; for the statement at other parameters they are assumed to combine the data with weights that do not depend on the data (true of splines and piecewise linear interpolation). Refuted: galerkin() after construction with the default class and parameters that are not increasing."
  },
  {
   "property": "C65",
   "status": "proved",
   "theorems": [
    "C65_transformer_equal",
    "C65_transformer_alike",
    "C65_transformer_reflexive",
    "C65_transformer_symmetric",
    "C65_transformer_transitive",
    "C65_transformer_fitted",
    "C65_transformer_reloaded",
    "C65_transformer_symmetry_refuted",
    "C65_multi_alike",
    "C65_multi_reloaded",
    "C65_basis_equal",
    "C65_basis_reflexive",
    "C65_basis_decompress_alike",
    "C65_basis_compress_alike",
    "C65_basis_compress_close",
    "C65_basis_compress_refuted",
    "C65_basis_symmetry_refuted",
    "C65_basis_transitivity_refuted",
    "C65_basis_mixed_refuted",
    "C65_basis_kinds",
    "C65_pod_unfitted",
    "C65_pod_unfitted_refuted",
    "C65_basis_multi_equal",
    "C65_basis_multi_reflexive",
    "C65_basis_multi_decompress_alike",
    "C65_basis_multi_compress_alike",
    "C65_interpolated_equal",
    "C65_interpolated_reflexive",
    "C65_interpolated_at_training",
    "C65_interpolated_copy",
    "C65_interpolated_stale_refuted"
   ],
   "note": "Stated for all objects in reachable states. Whether two objects (members, interpolator classes) are the same object is a parameter. Refuted parts listed in the property."
  },
  {
   "property": "C66",
   "status": "proved",
   "theorems": [
    "C66_library_accepted",
    "C66_affine",
    "C66_untrained",
    "C66_byrow_refuted",
    "C66_pipeline_refuted",
    "C66_user_accepted",
    "C66_user_verdict",
    "C66_alias_rejected",
    "C66_overwriting_accepted",
    "C66_overwriting_refuted",
    "C66_basis_verdict",
    "C66_user_basis",
    "C66_user_basis_accepted",
    "C66_basis_untrained",
    "C66_basis_accepted",
    "C66_basis_multi_verdict",
    "C66_basis_multi_accepted"
   ],
   "note": "Random draws are parameters. Methods of a user class are arbitrary functions on the memory model of C08. Refuted parts listed in the property."
  },
  {
   "property": "C67",
   "status": "proved",
   "theorems": [
    "C67_library_verdict",
    "C67_linear_accepted",
    "C67_scalar_quadratic_refuted",
    "C67_quotients_converge",
    "C67_untrained",
    "C67_polynomial_operator_refuted",
    "C67_accepted_is_checked",
    "C67_accepted_class",
    "C67_files",
    "C67_user_file_refuted",
    "C67_parametric_accepted",
    "C67_affine_accepted",
    "C67_affine_first_refuted",
    "C67_affine_then_evaluate",
    "C67_interpolated_accepted",
    "C67_parametric_untrained"
   ],
   "note": "Random draws are parameters; methods of a user class are arbitrary functions. lu_factor/lu_solve and solve are taken to solve invertible systems; SolveEx.v has routines that do. Real arithmetic. Refuted parts listed in the property."
  },
  {
   "property": "C68",
   "status": "proved",
   "theorems": [
    "C68_copy_identical",
    "C68_copy_total",
    "C68_copy_refuted",
    "C68_library_accepted",
    "C68_library_verdict",
    "C68_stale_regularizer",
    "C68_plain_accepted",
    "C68_l2_accepted",
    "C68_untrained",
    "C68_accepted_is_checked",
    "C68_files",
    "C68_user_file_refuted"
   ],
   "note": "scipy.linalg routines are parameters with the usual assumptions. Real arithmetic. Methods of a user class are arbitrary; solve() returns arrays. Refuted parts listed in the property."
  },
  {
   "property": "C69",
   "status": "proved",
   "theorems": [
    "C69_polynomial_verdict",
    "C69_quadratic_verdict",
    "C69_affine_times",
    "C69_affine_step",
    "C69_negative_refuted",
    "C69_order_zero_refuted",
    "C69_no_times",
    "C69_no_times_quadratic",
    "C69_one_dimension",
    "C69_accepted_is_checked"
   ],
   "note": "Real arithmetic with infinities and nan, as in C49. Methods of a user class are arbitrary functions that return arrays of one or two dimensions. Refuted parts listed in the property."
  },
  {
   "property": "C70",
   "status": "proved",
   "theorems": [
    "C70_fit_is_best",
    "C70_fit_keeps_regularizer",
    "C70_same_features",
    "C70_polynomial_instead",
    "C70_polynomial_class",
    "C70_library_class",
    "C70_dedicated_class",
    "C70_duplicate",
    "C70_constructor_accepts",
    "C70_polynomial_types"
   ],
   "note": "Classes are records of the methods the model calls; the features are what the author of the class promises. scipy.linalg routines as in C27. Real arithmetic."
  },
  {
   "property": "C71",
   "status": "proved",
   "theorems": [
    "C71_first",
    "C71_after_fit",
    "C71_rhs_is_named_sum",
    "C71_letters_accepted",
    "C71_letters",
    "C71_evaluate",
    "C71_structure",
    "C71_str",
    "C71_structure_degrees",
    "C71_learned_refuted"
   ],
   "note": "Operators of the library (PolynomialOperator and classes of a user are not found by the attributes). Strings are byte strings; the text of the solver is any function of the solver. Refuted part listed in the property."
  },
  {
   "property": "C72",
   "status": "proved",
   "theorems": [
    "C72_constructor",
    "C72_constructor_state",
    "C72_constructor_behaves",
    "C72_rhs",
    "C72_rhs_raises",
    "C72_jacobian",
    "C72_continuous_rhs",
    "C72_continuous_jacobian",
    "C72_galerkin",
    "C72_predict",
    "C72_predict_prefix",
    "C72_predict_restart",
    "C72_predict_rejects",
    "C72_eq_symmetric",
    "C72_eq_paired",
    "C72_eq_equivalence",
    "C72_copy",
    "C72_library",
    "C72_library_operators",
    "C72_library_jacobian",
    "C72_library_galerkin",
    "C72_set_dimension",
    "C72_copy_refuted",
    "C72_set_dimension_refuted"
   ],
   "note": "Operator objects are records of the methods the model calls; what these compute is a hypothesis of each theorem, met by the operators of the library (C72_library_*). Solvers and learning are left out here (C27, C70). Real arithmetic. Refuted parts listed in the property."
  },
  {
   "property": "C73",
   "status": "proved",
   "theorems": [
    "C73_constructor",
    "C73_encode",
    "C73_encode_lhs",
    "C73_encode_fit",
    "C73_decode",
    "C73_decode_encode",
    "C73_encode_decode",
    "C73_project",
    "C73_predict",
    "C73_predict_starts",
    "C73_fit",
    "C73_fit_raises",
    "C73_fit_refuses",
    "C73_fit_no_refit",
    "C73_parametric_fit",
    "C73_parametric_fit_raises",
    "C73_library",
    "C73_project_refuted",
    "C73_raising_fit_refuted"
   ],
   "note": "Classes are records of the methods a ROM calls, returning the object after a call also if it raises; methods other than fit() and fit_transform() are taken to leave their object alone. fit_regselect_* of such ROMs is left out (C43 for the library). Real arithmetic. Refuted parts listed in the property."
  },
  {
   "property": "C74",
   "status": "proved",
   "theorems": [
    "C74_fit_is_best",
    "C74_fit_keeps_regularizer",
    "C74_value_at_training_parameters",
    "C74_known_interpolated",
    "C74_affine_class",
    "C74_affine_identity_class",
    "C74_interpolated_class",
    "C74_exact_interpolation_class",
    "C74_fit_forgets",
    "C74_fit_forgets_refuted",
    "C74_fit_wrong_dimension",
    "C74_rhs_wrong_dimension",
    "C74_duplicate"
   ],
   "note": "Classes are records of the methods a model calls. The theorems are about calls that return; what a call that raises leaves behind is C33 (library classes). The check of the dimension of a parameter at evaluation, which the classes of the library do, is taken to be done by every parametric class. Real arithmetic."
  },
  {
   "property": "C75",
   "status": "proved",
   "theorems": [
    "C75_recovers",
    "C75_recovers_parametric",
    "C75_fit_exact",
    "C75_reproduces",
    "C75_l2_path",
    "C75_l2_bounded",
    "C75_tikhonov_path"
   ],
   "note": "That the data determine the operators is stated through the values of the model at the snapshots (no other matrices have the same values there). Real arithmetic: in floating point equality becomes closeness, which is not modelled."
  },
  {
   "property": "C76",
   "status": "proved",
   "theorems": [
    "C76_constructor",
    "C76_parameter_dimensions",
    "C76_constructor_state",
    "C76_one_dimension",
    "C76_evaluate",
    "C76_evaluate_raises",
    "C76_rhs",
    "C76_continuous_rhs",
    "C76_continuous_jacobian",
    "C76_continuous_needs_input",
    "C76_jacobian",
    "C76_predict",
    "C76_predict_prefix",
    "C76_predict_restart",
    "C76_predict_rejects",
    "C76_galerkin",
    "C76_eq_symmetric",
    "C76_eq_paired",
    "C76_copy",
    "C76_library_setter",
    "C76_library_affine",
    "C76_library_affine_rejects",
    "C76_library_interpolated",
    "C76_library_affine_projects",
    "C76_library_affine_projectable",
    "C76_library_affine_derivative",
    "C76_library_interpolated_derivative"
   ],
   "note": "Operator objects are records of the methods the model calls; what these compute is a hypothesis of each theorem, met by the operators of the library (C76_library_*). Operators that take inputs at a parameter are required to take inputs as parametric operators. galerkin() is stated for calls that return. Learning is C74. Real arithmetic."
  },
  {
   "property": "C77",
   "status": "proved",
   "theorems": [
    "C77_constructor",
    "C77_item",
    "C77_one_member",
    "C77_item_and_variable",
    "C77_basis_and_variable",
    "C77_negative_get_var",
    "C77_negative_basis_get_var",
    "C77_negative_refuted",
    "C77_default_names",
    "C77_basis_default_names",
    "C77_own_name_refuted"
   ],
   "note": "Keys are integers and strings (no slices). The agreement of multi[key] and get_var(key) is proved for names and nonnegative numbers; for negative numbers what get_var returns is proved (C77_negative_get_var) and the agreement refuted (C77_negative_refuted). Reaching a member by its own name is refuted if a default name collides with a chosen one (C77_own_name_refuted)."
  }
 ]
}
