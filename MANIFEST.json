{"claims": [
 {"property": "C01", "status": "proved", "theorems": ["C01_sqexp_kernel_exact", "C01_kernel_base_exact", "C01_spec_determines_matrix"], "note": ""},
 {"property": "C02", "status": "proved", "theorems": ["C02_matern_kernel_exact"], "note": ""},
 {"property": "C03", "status": "partial", "theorems": ["C03_ratqu_kernel_exact_partial", "C03_ratqu_first_mask_only_refuted", "C03_ratqu_first_mask_silent_refuted"], "note": "false of the code when only the first mask is given (refutations)"},
 {"property": "C04", "status": "proved", "theorems": ["C04_kernel_symmetric_diag", "C04_kernel_base_symmetric_diag"], "note": ""},
 {"property": "C05", "status": "partial", "theorems": ["C05_mask_is_submatrix_partial"], "note": "RatQu with only the first mask excluded: there the code raises or is wrong (C03 refutations)"},
 {"property": "C06", "status": "partial", "theorems": ["C06_matern_below_floor_refuted", "C06_kern_grad_theta_exact_partial", "C06_partial_mask_raises_refuted", "C06_kern_base_grad_theta_exact_partial", "C06_matern_base_grad_theta_refuted", "C06_matern_base_derivative_exists"], "note": "false of the code for the gradient-free Matern kernel and for partial masks with SqExp/Matern (refutations); for distinct points closer than the 1e-16 floor the gradient-enhanced Matern entries are wrong (refutation); everywhere else exact"},
 {"property": "C07", "status": "proved", "theorems": ["C07_kern_grad_alpha_exact", "C07_kern_base_grad_alpha_exact", "C07_other_kernels_reject"], "note": ""},
 {"property": "C08", "status": "partial", "theorems": ["C08_matern_below_floor_refuted", "C08_kern_base_hess_exact", "C08_kern_grad_hess_exact_partial", "C08_partial_mask_raises_refuted"], "note": "gradient-enhanced tensors with a partial mask raise (refutation); for distinct points closer than the 1e-16 floor the Matern entries are wrong (refutation); everywhere else exact"},
 {"property": "C09", "status": "proved", "theorems": ["C09_kern_grad_psd", "C09_kern_base_psd"], "note": ""},
 {"property": "C10", "status": "proved", "theorems": ["C10_precon_condition_number"], "note": ""},
 {"property": "C11", "status": "proved", "theorems": ["C11_row_sum_nugget_precon", "C11_row_sum_nugget_plain"], "note": ""},
 {"property": "C12", "status": "proved", "theorems": ["C12_gradient_free_nugget"], "note": ""},
 {"property": "C13", "status": "proved", "theorems": ["C13_nugget_total_positive_decreasing", "C13_undocumented_setting_raises"], "note": ""},
 {"property": "C14", "status": "proved", "theorems": ["C14_cholesky_of_the_covariance"], "note": ""},
 {"property": "C15", "status": "proved", "theorems": ["C15_preconditioner", "C15_preconditioner_vector_form", "C15_preconditioner_is_root_of_diagonal", "C15_theta_gamma_roundtrip"], "note": ""},
 {"property": "C16", "status": "partial", "theorems": ["C16_scaling_is_invertible", "C16_distance_conversion", "C16_reference_point", "C16_requested_distance_is_reached", "C16_given_shift_refuted", "C16_rescaling_after_constraint_data_refuted"], "note": "proved for every history; a given shift is never accepted and no rescaling is possible once nonlinear-constraint data are stored (refutations); points closer than 1e-14 undershoot the requested distance"},
 {"property": "C17", "status": "proved", "theorems": ["C17_box_constraints", "C17_linear_constraints"], "note": ""},
 {"property": "C18", "status": "partial", "theorems": ["C18_scaled_hessian_mixed_refuted", "C18_scaling_of_function_data_is_invertible", "C18_default_function_scaling", "C18_scaled_gradient_is_the_gradient_of_the_scaled_function", "C18_scaled_hessian_partial", "C18_scaled_hessian_refuted"], "note": "values, deviations, gradients proved; Hessian off-diagonal entries are wrong for anisotropic scales (refutation)"},
 {"property": "C19", "status": "partial", "theorems": ["C19_new_scaling_describes_the_same_kernel", "C19_minimum_distance_in_the_new_scaling", "C19_rescaling_loop_partial", "C19_rescaling_loop_discards_the_anisotropy_refuted", "C19_rescale_eta_vary_refuted"], "note": "the single rescaling step is proved exact; the loop keeps the kernel only when it stops at its first iteration and for rescale_origin, otherwise the code loses the anisotropy (refutations)"},
 {"property": "C20", "status": "partial", "theorems": ["C20_rows_are_the_same_observation", "C20_noise_vector_needs_matching_hyperparameters", "C20_gradient_free_unknown_noise_refuted"], "note": "proved whenever the noise vector exists; a gradient-free object with unknown noise has none (refutation)"},
 {"property": "C21", "status": "proved", "theorems": ["C21_index_sets_partition", "C21_vector_round_trip", "C21_class_round_trip", "C21_library_layout"], "note": ""},
 {"property": "C22", "status": "partial", "theorems": ["C22_bounds_and_start_points", "C22_default_options", "C22_selected_start_points_in_box", "C22_first_iteration_refuted"], "note": "box, start points and their number proved for every finite history; at the first iteration (no history) the call succeeds with NaN bounds (refutation)"},
 {"property": "C23", "status": "proved", "theorems": ["C23_generalised_least_squares", "C23_evaluation_succeeds"], "note": ""},
 {"property": "C24", "status": "proved", "theorems": ["C24_closed_form_variance"], "note": ""},
 {"property": "C25", "status": "partial", "theorems": ["C25_below_the_floor", "C25_below_the_floor_refuted", "C25_likelihood_gradient_partial", "C25_adjoint_equals_direct", "C25_evaluation_with_gradient_succeeds", "C25_partial_mask_raises_refuted", "C25_value_and_gradient_given_to_the_optimiser_partial", "C25_varying_nugget_partial", "C25_varying_nugget_refuted"], "note": "value and every gradient slice proved exact, in natural and in the optimiser's coordinates after any history, and adjoint = direct, for a constant nugget, wherever the theta-derivative of the kernel is exact (theta_grad_supported) and the closed-form varK is above its 1e-32 floor; with a partial mask and SqExp/Matern the call raises (refutation); with a nugget that varies with the hyperparameters the gradient lacks a multiple of the nugget's derivative (proved for every noise-free state, refuted on a concrete one); where varK is held at the floor the returned gradient differs from the derivative by N/2 times the unclamped varK gradient over the floor (C25_below_the_floor) and is not the derivative on a concrete data set (C25_below_the_floor_refuted)"},
 {"property": "C26", "status": "partial", "theorems": ["C26_covariance_derivatives_partial", "C26_kernel_matrix_derivatives_partial", "C26_partial_mask_raises_refuted", "C26_varying_nugget_varK_refuted", "C26_varying_nugget_theta_refuted"], "note": "all slices proved exact for a constant nugget wherever the theta-derivative of the kernel is (theta_grad_supported: see C06); with a partial mask and SqExp/Matern the call raises (refutation); with a nugget that varies with the hyperparameters ('rescale_eta_vary') the slices ignore its derivative and the varK slice uses the wrong nugget (refutations)"},
 {"property": "C27", "status": "proved", "theorems": ["C27_never_stale"], "note": ""},
 {"property": "C28", "status": "proved", "theorems": ["C28_selection", "C28_never_worse_than_a_start", "C28_fit_never_worse_than_a_start"], "note": ""},
 {"property": "C29", "status": "proved", "theorems": ["C29_mean_interpolates_up_to_noise_and_nugget", "C29_variance_at_a_data_point"], "note": ""},
 {"property": "C30", "status": "proved", "theorems": ["C30_setup_succeeds", "C30_variance_between_0_and_varK", "C30_eval_model_var", "C30_eval_model_var_refuted"], "note": "bounds proved for eval_model and, without data scaling, eval_model_var; eval_model_var raises with data scaling or calc_hess (refutation)"},
 {"property": "C31", "status": "partial", "theorems": ["C31_mean_gradient_and_hessian_partial", "C31_set_data_scales_alike", "C31_hessian_after_rescaling_refuted"], "note": "Mean, gradient and Hessian are exact for every state left by set_data. After the optimisation (methods 'rescale_*') or the user has changed the scaling of the coordinates, mean and gradient are still exact and every Hessian entry is the second derivative times the quotient of the two scaling factors (proved), so off-diagonal entries are wrong when the factors differ (refuted on a concrete state). Hessians with a gradient mask: see C34."},
 {"property": "C32", "status": "partial", "theorems": ["C32_standard_deviation_gradient_and_hessian_partial"], "note": "As C31 for the standard deviation: exact for every state left by set_data; Hessian entries are off by the quotient of the scaling factors after an anisotropic rescaling."},
 {"property": "C33", "status": "partial", "theorems": ["C33_evaluation_checks_the_hyperparameters", "C33_no_stale_result_partial", "C33_other_hyperparameters_are_rejected", "C33_new_data_refuted", "C33_array_written_in_place_refuted", "C33_failed_setup_refuted"], "note": "an evaluation always uses the current data, hyperparameters and options after a successful setup; new data, arrays changed in place and failed setups leave a stale surrogate (refutations)"},
 {"property": "C34", "status": "partial", "theorems": ["C34_posterior_of_the_used_observations_partial", "C34_rational_quadratic_mask_refuted", "C34_hessian_with_mask_refuted"], "note": "values, variances and first derivatives proved for every mask except kernel 'RatQu', for which evaluation raises (refutation); Hessians with a mask raise (refutation)"},
 {"property": "C35", "status": "partial", "theorems": ["C35_stored_hyperparameters_are_returned", "C35_export_load_round_trip", "C35_absent_kernel_hyperparameter_refuted", "C35_export_to_file_refuted", "C35_store_without_condition_number_raises", "C35_every_quantity_in_its_own_place", "C35_trimmed_history", "C35_ratio_of_constant_data_refuted"], "note": "stored hyperparameters are returned and export/load is a round trip; an absent kernel hyperparameter comes back as NaN and export with save2file raises (refutations)"},
 {"property": "C36", "status": "partial", "theorems": ["C36_accepts_consistent_data", "C36_rejects_inconsistent_data", "C36_noise_flags", "C36_unchecked_points_refuted", "C36_empty_mask_with_known_noise_refuted"], "note": "flags and checks proved; x_eval shape unchecked without rescaling and empty masks with known std_grad rejected (refutations)"},
 {"property": "C37", "status": "partial", "theorems": ["C37_same_model_without_noise_partial", "C37_noise_not_normalised_refuted"], "note": "proved without noise or with varK = 1; otherwise the surrogate does not divide the noise by varK (refutation)"},
 {"property": "C38", "status": "partial", "theorems": ["C38_largest_condition_number_and_failures_refuted", "C38_report", "C38_constant_entries"], "note": "fractions, iteration counts and the number of ill-conditioned start points proved; the largest initial condition number is always NaN and failed factorisations are never counted (refutation)"},
 {"property": "C39", "status": "partial", "theorems": ["C39_best_start_point", "C39_selection_succeeds", "C39_one_failed_point_refuted"], "note": "proved whenever the call returns, and that it returns when some acceptable point has a likelihood; it raises when one factorisation failed and all the other points are over the limit (refutation)"},
 {"property": "C40", "status": "partial", "theorems": ["C40_condition_number_and_gradient", "C40_frobenius_condition_number_and_gradient", "C40_constraint_given_to_the_optimiser", "C40_above_the_limit", "C40_gradient_above_the_limit_refuted"], "note": "value and gradient proved in both norms (eigenvalues above the code's 1e-16 floor, constant nugget, no preconditioner, theta_grad_supported); above the limit the gradients lack the log10 chain factor (refutation)"},
 {"property": "C41", "status": "proved", "theorems": ["C41_stored_hyperparameters", "C41_succeeds", "C41_few_points", "C41_rescaled"], "note": ""},
 {"property": "C42", "status": "partial", "theorems": ["C42_fixed_kernel_parameter_refuted", "C42_frobenius_norm_refuted", "C42_evaluation_never_raises", "C42_optimisation_never_raises", "C42_evaluation_with_condition_number_succeeds", "C42_set_hpara_never_raises", "C42_set_hpara_with_rescaling_never_raises"], "note": "refuted for the rational quadratic kernel with b_optz_hp_kernel False (every evaluation raises) and for cond_norm 'fro' with noisy data; proved otherwise for any nugget, logarithmic scales, both start-point methods"},
 {"property": "C43", "status": "proved", "theorems": ["C43_set", "C43_custom", "C43_custom_refused", "C43_stored", "C43_current", "C43_optimised", "C43_found_hyperparameters_come_back"], "note": ""},
 {"property": "C44", "status": "partial", "theorems": ["C44_scaled_hessians_partial", "C44_hessian_round_trip", "C44_scaled_constraint_data", "C44_scaled_gradients_are_gradients", "C44_method", "C44_default_method_refuted", "C44_gradients_alone_refuted"], "note": ""},
 {"property": "C45", "status": "proved", "theorems": ["C45_bounds", "C45_missing_past_value_raises"], "note": ""},
 {"property": "C46", "status": "partial", "theorems": ["C46_tables_show_the_history", "C46_save_to_file_refuted", "C46_before_data"], "note": ""},
 {"property": "C47", "status": "proved", "theorems": ["C47_optimised_model", "C47_fit_then_predict", "C47_fit_never_raises"], "note": "hyperparameters read back from the history between set_data and the fit are excluded (they change the noise flags, C43); the fit-then-predict statement uses calc_cond False or 'precon' (otherwise C30 decides whether the surrogate is set up)"},
 {"property": "C48", "status": "partial", "theorems": ["C48_constructed_object", "C48_new_objects_are_supported", "C48_switching_the_method", "C48_switching_the_method_refuted", "C48_method_without_gradients", "C48_method_without_gradients_refuted", "C48_dimension_refuted", "C48_bound_of_the_constraint_refuted", "C48_method_after_data_refuted"], "note": "true of construction; false of the code when leaving 'rescale_eta_vary', for 'rescale_eta_vary' without gradients, for dimensions below 1, for cond_max assigned later and for a method chosen after set_data (refutations)"},
 {"property": "C49", "status": "proved", "theorems": ["C49_mask_free_matrix", "C49_mask_free_theta_gradient", "C49_mask_free_x_gradient", "C49_matern_unused_helper", "C49_mask_free_alpha_gradient", "C49_mask_free_no_alpha"], "note": ""},
 {"property": "C50", "status": "proved", "theorems": ["C50_likelihood", "C50_order_of_the_data", "C50_same_factors_after_set_data"], "note": "set_data, likelihood and evaluation; the condition number of numpy (la_cond) is arbitrary, so it and the gradients of the likelihood are not compared"},
 {"property": "C51", "status": "partial", "theorems": ["C51_additional_point_refuted", "C51_more_observations_partial", "C51_more_gradients", "C51_given_nugget"], "note": "proved whenever the nugget does not grow (always with a user-set nugget, and for further gradients at the same points); with the default nugget, which grows with the number of points, a further point can increase the uncertainty (refutation)"},
 {"property": "C52", "status": "partial", "theorems": ["C52_likelihood_partial", "C52_penalty_refuted", "C52_other_units_partial", "C52_rescaled_after_set_data", "C52_noise_refuted", "C52_lengths_refuted"], "note": "proved for \"precon\" (any units of each coordinate), for data without gradients, and for rescaled data in any common unit; noisy data need the same scaled values. The likelihood moves by a constant (noisy data too), with the penalty on varK off and varK above its floor. Refuted: the noise variance is added to the correlation matrix without being divided by varK, and the nugget of the other methods is added to derivative rows as it is. With the optional penalty on varK switched on the likelihood depends on the unit of the values: the differences of the log-likelihoods in two units are not constant (C52_penalty_refuted)"},
 {"property": "C53", "status": "proved", "theorems": ["C53_uncertainty_ignores_the_observations", "C53_mean_is_linear_in_the_observations", "C53_constant_data"], "note": "mean, standard deviation, gradients and Hessians; the scaling factors are assumed equal (always so without rescaling)"},
 {"property": "C54", "status": "proved", "theorems": ["C54_far_from_the_data", "C54_hessians_far_from_the_data"], "note": "mean, standard deviation, their gradients (any number of points) and their Hessians (one point, gradient observations at every point or none, as eval_model requires), all three kernels; model over the reals"},
 {"property": "C55", "status": "proved", "theorems": ["C55_one_point_at_a_time", "C55_squeeze_only_drops_an_axis", "C55_vectors_are_one_row", "C55_refused", "C55_variance_one_point_at_a_time"], "note": "eval_model and (for data that are not rescaled, see C32) eval_model_var"},
 {"property": "C56", "status": "proved", "theorems": ["C56_order_of_the_coordinates", "C56_same_factors_after_set_data", "C56_likelihood"], "note": "values, gradients, Hessians, likelihood, factors after set_data"},
 {"property": "C57", "status": "partial", "theorems": ["C57_hessians_symmetric_partial", "C57_hessians_symmetric_after_set_data", "C57_hessian_entries_and_factors", "C57_hessian_symmetric_after_rescaling_refuted"], "note": "every state in which the coordinates have one scaling factor, in particular every state left by set_data; after the optimisation has rescaled the coordinates the entries differ by the squares of the factors (refuted)"},
 {"property": "C58", "status": "proved", "theorems": ["C58_finite_differences_converge", "C58_wrong_gradient_shows", "C58_exact_for_polynomials", "C58_forward_error", "C58_central_error", "C58_one_dimensional_gradient_rejected", "C58_forward_check_conclusive", "C58_central_check_passes_a_kink", "C58_surrogate_passes_the_check"], "note": "exact real arithmetic: rounding errors of the differences are outside the model"},
 {"property": "C59", "status": "partial", "theorems": ["C59_refused_requests", "C59_bad_mask", "C59_inconsistent_data_partial", "C59_accepted_data_restore", "C59_rejected_gradients_refuted", "C59_late_rejection_refuted", "C59_silent_covariance_refuted"], "note": "refused requests and refused masks change nothing, refused data change at most the sizes and two flags, accepted data put everything right; that the sizes and flags stay, and what follows (a set-up that raises, a nugget on every entry, new points beside old distances), is refuted"},
 {"property": "C60", "status": "partial", "theorems": ["C60_plotted_correlations", "C60_plotted_cross_correlation", "C60_cross_correlation_arguments_refuted"], "note": "the curves and the surface are proved for every kernel, point set and length scale; that calc_sq_exp_2d_corr uses its arguments is refuted (it reads the module's own grid)"},
 {"property": "C61", "status": "proved", "theorems": ["C61_rosenbrock_gradient", "C61_rosenbrock_minimum", "C61_sine_gradient", "C61_rosenbrock_dimension_one"], "note": "every dimension from two on (in dimension one the gradient raises), every point and parameter; the one-dimensional function too"},
 {"property": "C62", "status": "partial", "theorems": ["C62_expected_improvement", "C62_confidence_quantile", "C62_no_uncertainty_partial", "C62_no_uncertainty_refuted"], "note": "proved for every positive standard deviation, as limits of integrals; with no uncertainty the value is right except at exactly the best value, where it is NaN (refuted)"},
 {"property": "C63", "status": "partial", "theorems": ["C63_best_at_all_iterations", "C63_best_never_raises", "C63_empty_history_raises", "C63_best_idempotent", "C63_loaded_results_partial", "C63_feasibility_shape_refuted", "C63_too_many_runs_raises"], "note": "best_at_all_iter proved; every loaded entry proved; that the three arrays have one shape is refuted (the feasibility array keeps n_x0_init runs when the number of iterations is given)"},
 {"property": "C64", "status": "partial", "theorems": ["C64_minimal_nugget", "C64_every_nugget_suffices", "C64_constant_is_the_library_nugget", "C64_dominance_flag_refuted"], "note": "all nuggets proved sufficient and the minimal one sharp; the flag for diagonal dominance is refuted (it requires zero correlations)"},
 {"property": "C65", "status": "partial", "theorems": ["C65_scaled_data_partial", "C65_constant_data_refuted", "C65_scaled_acquisition", "C65_mark_on_the_largest_partial", "C65_mark_at_the_maximiser_refuted"], "note": "proved for data that vary; constant data give NaN (refuted); the mark is on the largest value drawn, but the axes are exchanged, so it is not at the maximiser (refuted)"},
 {"property": "C66", "status": "proved", "theorems": ["C66_factorisation_does_not_fail", "C66_precon_never_fails", "C66_plain_never_fails", "C66_any_order_of_summation", "C66_double_precision", "C66_precon_double_precision"], "note": "any arithmetic with relative rounding errors (no overflow, no underflow; sums in any order, with or without fused operations, divisions possibly by reciprocals); double precision as an instance with Flocq's rounding; examples show that it fails without nugget and for a condition number of 1e16"},
 {"property": "C67", "status": "proved", "theorems": ["C67_solution_of_the_system", "C67_solution_with_preconditioning", "C67_precon_weights", "C67_plain_weights", "C67_linear_functionals", "C67_double_precision", "C67_precon_double_precision"], "note": "error of the weights in the length scaled by the diagonal of Kcov; linear functionals; double precision"},
 {"property": "C68", "status": "proved", "theorems": ["C68_precon_likelihood", "C68_plain_likelihood", "C68_precon_double_precision"], "note": "factor and solves in floating point as in C66 and C67; the logarithm, the sums over the diagonal and the dot product with the residuals are exact; the residuals are given"},
 {"property": "C69", "status": "proved", "theorems": ["C69_precon_predictions", "C69_plain_predictions", "C69_precon_double_precision", "C69_plain_double_precision"], "note": "the factor, the solves, the sums, the final subtraction, square roots and product in floating point (no overflow, no underflow; sums of matrix products and solves in any order); the residuals and the mean function are given; an example shows that the check fails without nugget"},
 {"property": "C70", "status": "proved", "theorems": ["C70_kernel_matrix_entries", "C70_precon_matrix", "C70_plain_matrix", "C70_precon_factor", "C70_plain_factor", "C70_precon_predictions", "C70_plain_predictions", "C70_precon_double_never_fails", "C70_precon_double_factor", "C70_precon_double_predictions", "C70_plain_double_predictions"], "note": "'SqExp' and 'Ma5f2' (the error of 'RatQu' grows with alpha); scaled points, residuals and hyperparameters are exact inputs; no overflow or underflow, row sums, matrix products and solves in any order, the library's exponential within gam(2) of the exact one; without 'precon' in double precision: constant nugget without gradients up to 1e10, nugget from the row sums up to 1e8"},
 {"property": "C71", "status": "proved", "theorems": ["C71_precon_likelihood", "C71_plain_likelihood", "C71_precon_double_likelihood", "C71_plain_double_likelihood", "C71_closed_form_is_best", "C71_precon_closed_form", "C71_plain_closed_form", "C71_precon_double_closed_form", "C71_plain_double_closed_form"], "note": "'SqExp' and 'Ma5f2'; no penalty on varK; data, scaled points and hyperparameters are exact inputs; no overflow or underflow; sums in any order; without 'precon' in double precision: constant nugget without gradients up to 1e10, nugget from the row sums up to 1e8"},
 {"property": "C72", "status": "proved", "theorems": ["C72_precon_gradient", "C72_plain_gradient", "C72_precon_double_gradient"], "note": "'SqExp' and 'Ma5f2'; the derivative of the rescaled model in scaled coordinates; scaled points, residuals and hyperparameters are exact inputs; no overflow or underflow; sums in any order; without 'precon': C72_plain_gradient, stated through the general bound (nugget from the row sums, or gradient-free with a constant nugget)"},
 {"property": "C73", "status": "proved", "theorems": ["C73_precon_std_gradient", "C73_plain_std_gradient", "C73_precon_double_std_gradient"], "note": "'SqExp' and 'Ma5f2'; derivatives of the rescaled model in scaled coordinates; scaled points and hyperparameters are exact inputs; no overflow or underflow; sums in any order; the general theorems assume cond_max_target var_err < 1, which holds in the double-precision theorem"},
 {"property": "C74", "status": "proved", "theorems": ["C74_predictions_bounded_and_lipschitz", "C74_globally_lipschitz"], "note": "mean, standard deviation and their gradients, all three kernels, masks, noise; model over the reals"},
 {"property": "C75", "status": "proved", "theorems": ["C75_less_noise_less_uncertainty", "C75_more_noise_more_uncertainty"], "note": "the noise the surrogate uses (C37: it does not divide it by varK); a larger nugget is excluded by hypothesis, and by a constant nugget for equal places"},
 {"property": "C76", "status": "proved", "theorems": ["C76_agreeing_observations_change_no_prediction"], "note": "same nugget by hypothesis: it holds for a constant nugget when only gradients are added, and for the nugget of the user; the default grows with the number of points (C51)"},
 {"property": "C77", "status": "proved", "theorems": ["C77_standard_deviation_bounds_the_error", "C77_error_changes_no_faster_than_the_kernel", "C77_residuals_no_larger_than_the_function"], "note": "function error bounded by sigma, masks and noise included; the gradient by a constant bound (not by the posterior variance of the derivative)"}
]}
