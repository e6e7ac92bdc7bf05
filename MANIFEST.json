{
 "claims": [
  {
   "property": "C01",
   "status": "proved",
   "theorems": [
    "C01_decoders_agree"
   ],
   "note": "Holds for every behaviour of float(); the restriction to 4 or 5 fields is necessary (Example C01_six_fields)."
  },
  {
   "property": "C02",
   "status": "proved",
   "theorems": [
    "C02_fields",
    "C02_accepted",
    "C02_rejected"
   ],
   "note": "Exact acceptance and meaning; every string has exactly one list of fields."
  },
  {
   "property": "C03",
   "status": "partial",
   "theorems": [
    "C03_empty_exponent",
    "C03_any_literal_refuted",
    "C03_dash_free_partial",
    "C03_numerals",
    "C03_words",
    "C03_numerals_in_cost",
    "C03_kappa_text"
   ],
   "note": "REFUTED: t-NC-1e-3-2 is split inside the literal and raises ValueError. Proved part: dash-free literals are read back."
  },
  {
   "property": "C04",
   "status": "partial",
   "theorems": [
    "C04_tutorial_order_never",
    "C04_tutorial_order_refuted"
   ],
   "note": "REFUTED for every pair of distinct numbers: the first number is the power, the second the norm."
  },
  {
   "property": "C05",
   "status": "partial",
   "theorems": [
    "C05_default",
    "C05_engine_four_fields",
    "C05_engine_five_fields_ignored",
    "C05_engine_five_fields_refuted"
   ],
   "note": "Default and four-field engine check proved. REFUTED for five fields: the engine field is ignored."
  },
  {
   "property": "C06",
   "status": "proved",
   "theorems": [
    "C06_transport_cost",
    "C06_usual_norms",
    "C06_power_zero"
   ],
   "note": "All p in [1,inf], all powers > 0, exact reals."
  },
  {
   "property": "C07",
   "status": "proved",
   "theorems": [
    "C07_triangle",
    "C07_square_no_triangle",
    "C07_square_relaxed",
    "C07_power_relaxed",
    "C07_labelled_triangle"
   ],
   "note": "Minkowski for every real p>=1 and inf; power-2 failure and relaxed form."
  },
  {
   "property": "C08",
   "status": "proved",
   "theorems": [
    "C08_between",
    "C08_limits",
    "C08_errors"
   ],
   "note": "Two-sided bound, limits at 0 and infinity, error branches."
  },
  {
   "property": "C09",
   "status": "partial",
   "theorems": [
    "C09_kappa_inf_refuted",
    "C09_features_ignored"
   ],
   "note": "REFUTED: with kappa=inf the features move for free."
  },
  {
   "property": "C10",
   "status": "proved",
   "theorems": [
    "C10_same_labels",
    "C10_shrinks"
   ],
   "note": "Exact factor and strict shrinking."
  },
  {
   "property": "C11",
   "status": "proved",
   "theorems": [
    "C11_optimal",
    "C11_other_costs"
   ],
   "note": "Unique global maximiser; other costs raise NotImplementedError."
  },
  {
   "property": "C12",
   "status": "partial",
   "theorems": [
    "C12_labelled_optimal_refuted",
    "C12_zero_kappa_not_finite",
    "C12_additive_cost_partial",
    "C12_other_costs"
   ],
   "note": "REFUTED for the cost the class computes (witness in dimension 1+1) and for kappa=0 (non-finite labels). Proved part: the formula is optimal for the additive cost ||dx||^2+kappa||dy||^2."
  },
  {
   "property": "C13",
   "status": "proved",
   "theorems": [
    "C13_clipped",
    "C13_negative_multiplier",
    "C13_not_finite_undisplaced",
    "C13_zero_gradient",
    "C13_zero_multiplier",
    "C13_moved",
    "C13_default_threshold",
    "C13_moved_labels"
   ],
   "note": "All clauses, with kappa > 0 as in C12. One sample with zero gradient at lambda = 0 (0/0) leaves the whole batch undisplaced; a negative multiplier flips the direction."
  },
  {
   "property": "C14",
   "status": "partial",
   "theorems": [
    "C14_zero_radius",
    "C14_zero_radius_presampled",
    "C14_erm_mode",
    "C14_presampled_reuse_fails",
    "C14_presampled_reuse_refuted"
   ],
   "note": "Proved for the post-sampled path, the ERM mode and the pre-sampled path with samples given. REFUTED on one path: the pre-sampled loss called again without samples at radius 0 raises AssertionError."
  },
  {
   "property": "C15",
   "status": "proved",
   "theorems": [
    "C15_infinite_power",
    "C15_negative",
    "C15_nan",
    "C15_positive_finite",
    "C15_infinite",
    "C15_construction_limits",
    "C15_fit_not_a_number"
   ],
   "note": "Every radius: negative, -inf, NaN, 0 (C14), finite, +inf. The constructors: C15_construction_limits gives the exact limits of all five estimators; C15_fit_not_a_number what fit does when set_params has put a value that is no number."
  },
  {
   "property": "C16",
   "status": "proved",
   "theorems": [
    "C16_sandwich"
   ],
   "note": "Sandwich for every batch."
  },
  {
   "property": "C17",
   "status": "proved",
   "theorems": [
    "C17_weak_duality",
    "C17_tight",
    "C17_strong_duality"
   ],
   "note": "Weak duality, tightness for each lambda, and strong duality at the best multiplier under strict feasibility."
  },
  {
   "property": "C18",
   "status": "partial",
   "theorems": [
    "C18_monotone_radius",
    "C18_convex_multiplier",
    "C18_monotone_epsilon",
    "C18_zero_radius_refuted"
   ],
   "note": "Monotone in the radius on (0,inf), convex in lambda, antitone in epsilon. REFUTED across radius 0, where the objective can drop."
  },
  {
   "property": "C19",
   "status": "proved",
   "theorems": [
    "C19_shift",
    "C19_monotone",
    "C19_order"
   ],
   "note": "Shift, monotonicity and order invariance."
  },
  {
   "property": "C20",
   "status": "partial",
   "theorems": [
    "C20_mean_and_gap",
    "C20_zero_radius",
    "C20_sum_refuted",
    "C20_unknown_reduction_fails_late",
    "C20_unknown_reduction_refuted",
    "C20_reduces_columns"
   ],
   "note": "Mean and none agree; REFUTED for sum (constant added once instead of per sample; exact gap proved) and for unknown names (accepted at construction)."
  },
  {
   "property": "C21",
   "status": "partial",
   "theorems": [
    "C21_density",
    "C21_labelled_density",
    "C21_density_ratio",
    "C21_weighted_estimate",
    "C21_labelled_no_correction",
    "C21_labelled_refuted"
   ],
   "note": "Unlabelled Gaussian sampler proved, with the log-densities those of the Gaussian laws. REFUTED for labelled samplers: the correction is identically 0."
  },
  {
   "property": "C22",
   "status": "partial",
   "theorems": [
    "C22_composite_history",
    "C22_composite_step",
    "C22_error_unclamped",
    "C22_error_refuted",
    "C22_starts_not_negative",
    "C22_starting_value",
    "C22_adamw_first_step",
    "C22_adamw_given_rate",
    "C22_adamw_refuted",
    "C22_lbfgs_refuted"
   ],
   "note": "Composite optimisers: invariant over every history. REFUTED for AdamW (adapt=None) and LBFGS (pre-sampled), whose first step can make lambda negative. torch's AdamW and LBFGS first steps are modelled from torch's documentation."
  },
  {
   "property": "C23",
   "status": "proved",
   "theorems": [
    "C23_power_below_one",
    "C23_power_below_one_flat",
    "C23_power_zero",
    "C23_only_norm_costs",
    "C23_guess_is_optimal",
    "C23_guess_value",
    "C23_no_radius",
    "C23_zero_gradients",
    "C23_power_limits",
    "C23_power_limit_unique",
    "C23_power_nan"
   ],
   "note": "Unique minimiser for every power > 1 and the Euclidean norm. Props_Edges adds what the same formula returns for powers below one, positive between 0 and 1 and negative below 0 (C23_power_below_one, C23_power_below_one_flat), and for the power zero (C23_power_zero). C23_only_norm_costs: with a positive radius a cost that is not one of the library's norm costs ends with RuntimeError. C23_power_limits (Props_PowLim): the power used in the guess is the limit of powers of positive reals at 0 and at infinite values, along the paths listed there, C23_power_limit_unique that this fixes it, C23_power_nan when a NaN does not spread; that Tensor.pow follows these rules is an assumption about torch."
  },
  {
   "property": "C24",
   "status": "partial",
   "theorems": [
    "C24_ignores_gradients",
    "C24_value",
    "C24_linearised_dual",
    "C24_power_one_refuted"
   ],
   "note": "REFUTED for every batch: the value is 1/(m rho)."
  },
  {
   "property": "C25",
   "status": "partial",
   "theorems": [
    "C25_eval_mode",
    "C25_train_true",
    "C25_train_is_eval",
    "C25_erm_flag",
    "C25_train_refuted",
    "C25_roundtrip_refuted",
    "C25_reading_the_loss_refuted"
   ],
   "note": "REFUTED: train() without argument is eval(). Proved: eval() and train(True) set the modes."
  },
  {
   "property": "C26",
   "status": "partial",
   "theorems": [
    "C26_flags_kept_iff",
    "C26_everything_trainable",
    "C26_after_failure",
    "C26_frozen_parameter_refuted",
    "C26_failure_refuted"
   ],
   "note": "REFUTED: user-frozen parameters become trainable; after an exception everything stays frozen. Flags kept iff all were trainable."
  },
  {
   "property": "C27",
   "status": "proved",
   "theorems": [
    "C27_first_evaluation",
    "C27_second_evaluation"
   ],
   "note": "First evaluation with the gradient metric, first two with the parameter metric, from a fresh condition."
  },
  {
   "property": "C28",
   "status": "proved",
   "theorems": [
    "C28_theta_gradient",
    "C28_theta_parameter",
    "C28_lambda_gradient"
   ],
   "note": "Parameter and gradient metrics of theta, gradient metric of lambda, relative and absolute."
  },
  {
   "property": "C29",
   "status": "proved",
   "theorems": [
    "C29_both",
    "C29_one",
    "C29_synonyms",
    "C29_unknown_name"
   ],
   "note": "Exact meaning of each name and its synonyms; unknown names rejected."
  },
  {
   "property": "C30",
   "status": "partial",
   "theorems": [
    "C30_one_ignores_lambda",
    "C30_one_ignores_theta",
    "C30_both_never_stops",
    "C30_both_refuted"
   ],
   "note": "REFUTED for 'both': with a disabled tolerance it never stops. 'one' ignores a disabled tolerance (proved)."
  },
  {
   "property": "C31",
   "status": "partial",
   "theorems": [
    "C31_lambda_parameter",
    "C31_absolute_refuted",
    "C31_relative_refuted"
   ],
   "note": "REFUTED: the multiplier is kept by reference, so the relative test never stops and the absolute test stops at the third evaluation whatever happens."
  },
  {
   "property": "C32",
   "status": "partial",
   "theorems": [
    "C32_second_fit",
    "C32_reuse_refuted",
    "C32_reuse_other_size"
   ],
   "note": "REFUTED: references of the first fit are kept, and the estimators share a default instance."
  },
  {
   "property": "C33",
   "status": "proved",
   "theorems": [
    "C33_postsample",
    "C33_presample",
    "C33_integer"
   ],
   "note": "Both solvers; losses, optimisers and stopping tests are arbitrary and may raise. An integer n is n robust steps plus 3n/10 of pretraining."
  },
  {
   "property": "C34",
   "status": "proved",
   "theorems": [
    "C34_no_optimizer",
    "C34_result",
    "C34_no_iterations"
   ],
   "note": "Also: without robust iterations the solver raises (IndexError) instead of returning."
  },
  {
   "property": "C35",
   "status": "proved",
   "theorems": [
    "C35_nan_stops"
   ],
   "note": "Both solvers, robust phase."
  },
  {
   "property": "C36",
   "status": "partial",
   "theorems": [
    "C36_success",
    "C36_every_path",
    "C36_parameter_metric_refuted"
   ],
   "note": "Proved on every successful path and, with the gradient metric or post-sampling, on every path. REFUTED when the forward pass raises with the parameter metric: importance sampling stays off."
  },
  {
   "property": "C37",
   "status": "proved",
   "theorems": [
    "C37_tuple",
    "C37_other_tuples",
    "C37_dict",
    "C37_dict_reserved",
    "C37_dict_extended_later",
    "C37_passthrough"
   ],
   "note": "All tuples, all dicts with distinct keys. The keys iterated over are a live view on the solver's dict (C37_dict_extended_later)."
  },
  {
   "property": "C38",
   "status": "proved",
   "theorems": [
    "C38_mwu_positive",
    "C38_simplex",
    "C38_mwu_factor",
    "C38_simplex_factor",
    "C38_training"
   ],
   "note": "Exact reals: rounding (exp underflowing to 0, which would make the next step raise) is not modelled. SGD without momentum for the formulas, any inner optimiser for positivity and normalisation."
  },
  {
   "property": "C39",
   "status": "proved",
   "theorems": [
    "C39_non_neg",
    "C39_projected",
    "C39_ascent",
    "C39_clipped",
    "C39_clip",
    "C39_no_rules",
    "C39_unlabelled_group",
    "C39_bound_needs_gradients"
   ],
   "note": "Any inner optimiser for non_neg and unlabelled groups, SGD without momentum for the formulas."
  },
  {
   "property": "C40",
   "status": "partial",
   "theorems": [
    "C40_untransformed",
    "C40_logarithms",
    "C40_refuted",
    "C40_two_rules",
    "C40_training_ends",
    "C40_not_positive"
   ],
   "note": "REFUTED: weights are left in logarithms; a group with mwu and non_neg fails at every step after the update. Proved for groups without transformed parameters."
  },
  {
   "property": "C41",
   "status": "proved",
   "theorems": [
    "C41_resets",
    "C41_reset_fails_only_without_labels",
    "C41_covariance_resets",
    "C41_classification_resets"
   ],
   "note": "Cost samplers, the three Gaussian samplers, the three classification samplers. Factorisations (Cholesky) are arbitrary functions returning valid factors."
  },
  {
   "property": "C42",
   "status": "partial",
   "theorems": [
    "C42_seeded_passes_reuse_noise",
    "C42_new_noise_refuted",
    "C42_generator_overwritten",
    "C42_unseeded_partial",
    "C42_no_reset_partial"
   ],
   "note": "REFUTED for a seeded sampler (default seed 42): every pass reuses the same noise, whatever the generator, and the caller's generator state is overwritten. Proved without a seed or with reset_sampler=False: each pass draws from the state left by the previous one."
  },
  {
   "property": "C43",
   "status": "proved",
   "theorems": [
    "C43_priority",
    "C43_error"
   ],
   "note": "All combinations."
  },
  {
   "property": "C44",
   "status": "partial",
   "theorems": [
    "C44_outputs",
    "C44_switch_probability",
    "C44_documented_p_refuted"
   ],
   "note": "Outputs proved. REFUTED for p: the probability of a switch is 1-p."
  },
  {
   "property": "C45",
   "status": "partial",
   "theorems": [
    "C45_rsample",
    "C45_log_prob_whole",
    "C45_per_element_refuted",
    "C45_one_wrong_label",
    "C45_nonfinite_location"
   ],
   "note": "Sampling proved for all shapes. REFUTED for log_prob per element: one scalar for the whole batch, -inf as soon as one entry differs."
  },
  {
   "property": "C46",
   "status": "proved",
   "theorems": [
    "C46_sigma",
    "C46_epsilon",
    "C46_epsilon_values",
    "C46_negative_radius",
    "C46_given_values",
    "C46_construction",
    "C46_defaults",
    "C46_optimiser_defaults"
   ],
   "note": "Exact reals, rho >= 0, powers >= 1; the whole of dualize_primal_loss up to the constructor of the dual loss. C46_optimiser_defaults: the defaults of dualize_primal_loss that C46_defaults leaves out."
  },
  {
   "property": "C47",
   "status": "partial",
   "theorems": [
    "C47_saa_answer_optimal",
    "C47_zero_optimal_iff",
    "C47_saa_optimal_iff",
    "C47_large_radius_answer_not_optimal",
    "C47_solver_optimal_refuted",
    "C47_solver_optimal_positive_radius_refuted"
   ],
   "note": "REFUTED, already at rho=0 on demands 1, 10, 10 (answer 0, optimum 1), and for every dataset whose mean is at most rho (answer SAA, optimum 0). Proved: the answer of the T<0 branch is optimal; exactly when each of the two possible answers is. Adversaries are all finitely supported transport plans with non-negative demands; the LP solver's answer is any minimiser."
  },
  {
   "property": "C48",
   "status": "proved",
   "theorems": [
    "C48_search_total",
    "C48_critical_index",
    "C48_sorted"
   ],
   "note": "All data (also empty, negative), rho>=0; the branch 'no upper bound' is dead code."
  },
  {
   "property": "C49",
   "status": "proved",
   "theorems": [
    "C49_programme_value",
    "C49_programme_solutions",
    "C49_some_demand_optimal"
   ],
   "note": "Programme as passed to cvxpy; the numerical solver is outside. k<=u is not needed."
  },
  {
   "property": "C50",
   "status": "proved",
   "theorems": [
    "C50_objective_is_worst_case",
    "C50_solution_is_robust",
    "C50_with_intercept",
    "C50_without_intercept"
   ],
   "note": "Exact reals; the numerical solver (CLARABEL) is outside: theorems speak of the programme handed to cvxpy. Adversaries: all finitely supported transport plans."
  },
  {
   "property": "C51",
   "status": "proved",
   "theorems": [
    "C51_feasible_points_bound_the_worst_case",
    "C51_programme_is_exact",
    "C51_solution_is_robust"
   ],
   "note": "As C50, any kappa>0 (the code uses 1000), rho>=0, labels +-1, with or without intercept. Weak duality, exactness and robust optimality of solutions."
  },
  {
   "property": "C52",
   "status": "proved",
   "theorems": [
    "C52_feasible_points_bound_the_worst_case",
    "C52_programme_is_exact_without_constraints",
    "C52_pieces_are_the_mean_risk_loss"
   ],
   "note": "As C50, any norm exponent p in [1,inf], any polyhedron for the bound; exactness for the default (no) constraints only, which is all the property claims."
  },
  {
   "property": "C53",
   "status": "proved",
   "theorems": [
    "C53_weights_are_a_portfolio",
    "C53_every_portfolio_reachable",
    "C53_constructor_checks"
   ],
   "note": "Constructor checks of rho, eta, alpha, solver_reg, n_zeta_samples. Portfolios with a zero weight are only approached; what that means for training is C151."
  },
  {
   "property": "C54",
   "status": "proved",
   "theorems": [
    "C54_two_classes",
    "C54_one_class",
    "C54_more_classes",
    "C54_predict",
    "C54_round_trip",
    "C54_predict_multi"
   ],
   "note": "Integer labels; coefficients of either solver, with or without intercept, any number of features; multiclass ties go to the first class."
  },
  {
   "property": "C55",
   "status": "partial",
   "theorems": [
    "C55_binary_with_intercept_partial",
    "C55_agrees_with_predict",
    "C55_without_intercept",
    "C55_no_intercept_refuted",
    "C55_one_feature_refuted",
    "C55_multiclass_scores",
    "C55_multiclass_refuted"
   ],
   "note": "REFUTED three ways: without intercept TypeError, with one feature shape (1,2n), with more than two classes raw scores. Proved for two classes with intercept and at least two features (or dedicated)."
  },
  {
   "property": "C56",
   "status": "partial",
   "theorems": [
    "C56_labelled_estimators",
    "C56_newsvendor",
    "C56_portfolio_inverted",
    "C56_portfolio_refuted"
   ],
   "note": "Proved for NewsVendor, Weber, LinearRegression, LogisticRegression. REFUTED for Portfolio: inverted for every input."
  },
  {
   "property": "C57",
   "status": "partial",
   "theorems": [
    "C57_default_values",
    "C57_default_values_logistic",
    "C57_named_solvers",
    "C57_weber_linear_logistic_portfolio",
    "C57_newsvendor_default",
    "C57_newsvendor_refuted",
    "C57_logistic_intercept",
    "C57_linear_intercept_refuted",
    "C57_default_problems"
   ],
   "note": "Proved for Weber, LinearRegression, LogisticRegression, Portfolio on every dataset. REFUTED for NewsVendor (deprecated default solver) and for fit_intercept of the robust LinearRegression."
  },
  {
   "property": "C58",
   "status": "proved",
   "theorems": [
    "C58_values",
    "C58_sizes_must_agree",
    "C58_shape_of_the_loss"
   ],
   "note": "Elementwise; margin function proved positive, strictly decreasing, convex, 1-Lipschitz."
  },
  {
   "property": "C59",
   "status": "partial",
   "theorems": [
    "C59_newsvendor",
    "C59_portfolio",
    "C59_portfolio_convex",
    "C59_portfolio_is_mean_cvar",
    "C59_weber",
    "C59_weber_any_batch",
    "C59_weber_refuses",
    "C59_weber_refuted"
   ],
   "note": "Newsvendor and portfolio proved for every batch shape; mean-CVaR equivalence by LP duality, CVaR defined through reweightings. REFUTED for Weber on batches of more than two axes called directly (extra factor: size of the second axis); proved for the flat batches the wrapper passes."
  },
  {
   "property": "C60",
   "status": "partial",
   "theorems": [
    "C60_zetas_labelled",
    "C60_no_trailing_axis",
    "C60_zetas_unlabelled",
    "C60_point",
    "C60_flat_batch_unlabelled",
    "C60_flat_batch_labelled",
    "C60_wrong_calls_raise",
    "C60_label_axes",
    "C60_refused_axes",
    "C60_regularisation_switch",
    "C60_flat_batch_labelled_refuted"
   ],
   "note": "The wrapped loss is any function treating rows separately. REFUTED for labelled flat batches of a loss with one value per sample: the batch mean is returned (squeeze before the mean). Proved for three or more axes, points, unlabelled batches (without trailing axis) and losses without trailing axis."
  },
  {
   "property": "C61",
   "status": "partial",
   "theorems": [
    "C61_unbounded",
    "C61_unbounded_refuted",
    "C61_bounded_when_feasible"
   ],
   "note": "REFUTED: unbounded below as soon as every sample is too far on average; bounded (and attained, C17) when some weighting of the samples is within the budget."
  },
  {
   "property": "C62",
   "status": "partial",
   "theorems": [
    "C62_no_sampler_always_fails",
    "C62_lazy_sampler_refuted",
    "C62_given_sampler"
   ],
   "note": "REFUTED for every loss: the sampler property raises before the None test."
  },
  {
   "property": "C63",
   "status": "partial",
   "theorems": [
    "C63_other_norm_refuted"
   ],
   "note": "REFUTED (max norm); the Euclidean case is C23."
  },
  {
   "property": "C64",
   "status": "partial",
   "theorems": [
    "C64_schedules",
    "C64_parameters",
    "C64_multiplier_refuted",
    "C64_recursion",
    "C64_pretraining_only_refuted"
   ],
   "note": "REFUTED for lambda: period = training steps, but it is also stepped during pretraining; and a run with pretraining steps only raises ZeroDivisionError at its first step. Proved for the model's parameters, and that torch's recursion gives exactly the cosine curves whatever the inner optimisers do."
  },
  {
   "property": "C65",
   "status": "partial",
   "theorems": [
    "C65_no_parameters",
    "C65_unknown_name",
    "C65_groups",
    "C65_accepts",
    "C65_groups_refuted"
   ],
   "note": "REFUTED: the generator has been consumed, only lambda is listed."
  },
  {
   "property": "C66",
   "status": "partial",
   "theorems": [
    "C66_max_iter_ignored",
    "C66_budget_stops",
    "C66_max_iter_refuted",
    "C66_tests"
   ],
   "note": "REFUTED: the limit is overwritten by the training budget of the loss at every call; only that budget counts (proved)."
  },
  {
   "property": "C67",
   "status": "partial",
   "theorems": [
    "C67_presample",
    "C67_postsample_refuted"
   ],
   "note": "Pre-sampling proved (without importance sampling when the parameter metric is used). REFUTED for post-sampling: the loss is recorded before the last step."
  },
  {
   "property": "C68",
   "status": "partial",
   "theorems": [
    "C68_success",
    "C68_postsample",
    "C68_presample_refuted"
   ],
   "note": "Proved for successful solves and for post-sampling. REFUTED when the pretraining of the pre-sampled solver raises."
  },
  {
   "property": "C69",
   "status": "partial",
   "theorems": [
    "C69_modes",
    "C69_postsample_refuted",
    "C69_evaluations"
   ],
   "note": "Pre-sampling proved; C69_evaluations gives what each step evaluates. REFUTED for post-sampling: erm_mode is set to False before the pretraining."
  },
  {
   "property": "C70",
   "status": "partial",
   "theorems": [
    "C70_sigma_is_std",
    "C70_sigma_valid",
    "C70_docstring_refuted"
   ],
   "note": "REFUTED as documented (Id/sigma**2); sigma^2 Id proved."
  },
  {
   "property": "C71",
   "status": "partial",
   "theorems": [
    "C71_accepted_cost_has_no_sampler_refuted",
    "C71_supported_costs",
    "C71_sigma_not_positive"
   ],
   "note": "REFUTED: exactly the costs 1-1, 1-2, 1-inf and 2-2 have a sampler."
  },
  {
   "property": "C72",
   "status": "partial",
   "theorems": [
    "C72_power_one_partial",
    "C72_power_two_ignores_kappa",
    "C72_kappa_refuted"
   ],
   "note": "Proved for power 1 (sigma/kappa). REFUTED for 2-2: independent of kappa."
  },
  {
   "property": "C73",
   "status": "partial",
   "theorems": [
    "C73_label_cost_without_labels_refuted"
   ],
   "note": "REFUTED: a label cost is accepted without labels and then always raises AssertionError."
  },
  {
   "property": "C74",
   "status": "proved",
   "theorems": [
    "C74_programmes_agree",
    "C74_unbounded_when_k_above_u"
   ],
   "note": "Also: for k>u the first programme is unbounded below while the second has a solution."
  },
  {
   "property": "C75",
   "status": "proved",
   "theorems": [
    "C75_certificate",
    "C75_certificate_exact"
   ],
   "note": "Upper bound for every fit, exact on the branches that computed T."
  },
  {
   "property": "C76",
   "status": "partial",
   "theorems": [
    "C76_default_cost_guarded",
    "C76_other_norms_refuted"
   ],
   "note": "REFUTED for 't-NC-1-2': fit passes the power of the cost as norm exponent, so the optimal value is below the loss of an adversary in the Euclidean ball. Proved for the default 't-NC-1-1'."
  },
  {
   "property": "C77",
   "status": "partial",
   "theorems": [
    "C77_logistic_per_sample",
    "C77_quadratic_per_sample",
    "C77_flat_labels_refuted",
    "C77_labels_required",
    "C77_label_count"
   ],
   "note": "REFUTED for labels of shape (N,): QuadraticLoss broadcasts to all pairs. Proved for labels on the axes of the data. C77_label_count: a wrong number of labels is refused."
  },
  {
   "property": "C78",
   "status": "partial",
   "theorems": [
    "C78_value_with_labels",
    "C78_newsvendor_loss_refuted"
   ],
   "note": "REFUTED: value asserts labels, which it then ignores; the formula is proved for the call with labels."
  },
  {
   "property": "C79",
   "status": "partial",
   "theorems": [
    "C79_names_without_torch_partial",
    "C79_which_error",
    "C79_dedicated",
    "C79_misspelt_means_pre",
    "C79_misspelt_accepted_refuted"
   ],
   "note": "REFUTED: any name containing 'torch' is accepted and silently means pre-sampling. Proved: names without 'torch' other than 'dedicated' raise."
  },
  {
   "property": "C80",
   "status": "partial",
   "theorems": [
    "C80_weber_kappa_refuted",
    "C80_newsvendor_l2_refuted",
    "C80_portfolio_reparam_refuted",
    "C80_passed_on_partial"
   ],
   "note": "REFUTED: Weber's kappa, NewsVendor's l2_reg, Portfolio's reparam and fit_intercept have no effect. Proved for rho, n_zeta_samples, learning_rate, and l2_reg of the labelled estimators."
  },
  {
   "property": "C81",
   "status": "partial",
   "theorems": [
    "C81_newsvendor",
    "C81_newsvendor_refuted",
    "C81_portfolio_torch",
    "C81_portfolio_dedicated",
    "C81_portfolio_dedicated_ignores_risk_refuted",
    "C81_portfolio_dtype_refuted",
    "C81_weber_eval",
    "C81_weber_refuted",
    "C81_other_names",
    "C81_name_accepted_by_fit_only_refuted"
   ],
   "note": "REFUTED: NewsVendor with several features (Jensen gap, direction proved), dedicated Portfolio with eta>0, Portfolio with data of another dtype, Weber (always raises), names without 'entropic'. Proved: NewsVendor with one feature, robust Portfolio with matching dtype."
  },
  {
   "property": "C82",
   "status": "partial",
   "theorems": [
    "C82_multiclass_shape",
    "C82_binary_shape_partial",
    "C82_multiclass_refuted"
   ],
   "note": "REFUTED for more than two classes: (n,1) for every model. Proved for two classes."
  },
  {
   "property": "C83",
   "status": "partial",
   "theorems": [
    "C83_linear_radius_zero_refuted",
    "C83_linear_radius_positive_partial",
    "C83_negative_radius"
   ],
   "note": "REFUTED: dedicated LinearRegression with rho=0. Positive and negative radii proved."
  },
  {
   "property": "C84",
   "status": "partial",
   "theorems": [
    "C84_labelled",
    "C84_unlabelled",
    "C84_set_then_get",
    "C84_arrays_only",
    "C84_arrays_only_refuted",
    "C84_wrong_kind_refuted",
    "C84_not_arrays"
   ],
   "note": "Proved for arrays; REFUTED twice: the unlabelled constructor accepts anything, and a property of the wrong kind can be assigned but never read."
  },
  {
   "property": "C85",
   "status": "partial",
   "theorems": [
    "C85_labelled_snapshot",
    "C85_unlabelled_refuted",
    "C85_unlabelled_aliases"
   ],
   "note": "Proved for labelled distributions (copies, any later writes). REFUTED for unlabelled ones, which alias the caller's array."
  },
  {
   "property": "C86",
   "status": "partial",
   "theorems": [
    "C86_grid",
    "C86_ends_refuted",
    "C86_lower_end_missing"
   ],
   "note": "REFUTED: the end min_power is never tried. The rest (which radii, how many, order, sign) is proved."
  },
  {
   "property": "C87",
   "status": "proved",
   "theorems": [
    "C87_gradient",
    "C87_fails_where_no_gradient"
   ],
   "note": "Differentiability in every direction, and no gradient at the kink (eta, alpha non-zero)."
  },
  {
   "property": "C88",
   "status": "partial",
   "theorems": [
    "C88_scalar_scale",
    "C88_scalar_infinite",
    "C88_matrix_scale",
    "C88_value_refuted"
   ],
   "note": "REFUTED: (1/2*n) instead of 1/(2*n) gives the conjugate divided by n^2; this exact relation is proved in one dimension (with the infinite case) and in several for z in the range, pinv being any Moore-Penrose inverse. Derivatives are arguments of the model."
  },
  {
   "property": "C89",
   "status": "proved",
   "theorems": [
    "C89_defined",
    "C89_bounds",
    "C89_coverage"
   ],
   "note": "Draws are an arbitrary function of the covariance matrix; the quantile is NumPy's linear interpolation, characterised by counting."
  },
  {
   "property": "C90",
   "status": "partial",
   "theorems": [
    "C90_covariances",
    "C90_covariance_size",
    "C90_covariance_refuted",
    "C90_range_refuted"
   ],
   "note": "REFUTED twice: covariance n x n over samples (np.cov of rows), and `isclose(...) is False` never detects a vector out of the range."
  },
  {
   "property": "C91",
   "status": "partial",
   "theorems": [
    "C91_only_portfolio",
    "C91_attributes",
    "C91_general_tuner_refuted",
    "C91_general_tuner_never",
    "C91_general_tuner_raises",
    "C91_portfolio_tuner_refuted",
    "C91_portfolio_tuner"
   ],
   "note": "REFUTED: no estimator has problem_, so the general tuner always raises; the portfolio one works exactly with the dedicated solver (robust fits never set tau_)."
  },
  {
   "property": "C92",
   "status": "partial",
   "theorems": [
    "C92_separate",
    "C92_none_first_fit",
    "C92_default_refuted",
    "C92_refit_refuted",
    "C92_defaults_watch"
   ],
   "note": "Proved when no two estimators hold the same condition, and for a first fit with opt_cond=None. REFUTED for default conditions (one object per class) and for refits."
  },
  {
   "property": "C93",
   "status": "proved",
   "theorems": [
    "C93_orders",
    "C93_built",
    "C93_max_iter_unused"
   ],
   "note": "Integer or string orders."
  },
  {
   "property": "C94",
   "status": "partial",
   "theorems": [
    "C94_unlabelled",
    "C94_labels_fixed",
    "C94_labels_moved",
    "C94_rank",
    "C94_gibbs",
    "C94_labelled_gibbs",
    "C94_supnorm_refuted",
    "C94_labelled_square_refuted",
    "C94_no_draw_at_zero",
    "C94_labels_required"
   ],
   "note": "Draws proved exactly, for any generator. Law: proved decreasing in the cost for the 1- and 2-norms and exactly Gibbs for 1-norm, squared 2-norm and labelled 1-norm. REFUTED for the sup norm (Gaussian) and for the labelled squared cost (kappa and the cross term ignored)."
  },
  {
   "property": "C95",
   "status": "proved",
   "theorems": [
    "C95_no_multiplier_gradient",
    "C95_no_parameter_gradient",
    "C95_answers"
   ],
   "note": "Any norm and any history. The documented settings include infinite and non-positive tolerances (NaN tolerances are excluded)."
  },
  {
   "property": "C96",
   "status": "partial",
   "theorems": [
    "C96_roundtrip",
    "C96_own_checkpoint",
    "C96_after_step",
    "C96_resume_without_schedule",
    "C96_refused",
    "C96_resume_refuted",
    "C96_all_or_nothing_refuted"
   ],
   "note": "Round trip and refusals proved; without a schedule a resumed training continues exactly (C96_resume_without_schedule). REFUTED: the schedulers are not saved, so a resumed training differs; and a refused checkpoint may have been half loaded."
  },
  {
   "property": "C97",
   "status": "partial",
   "theorems": [
    "C97_lbd_lost",
    "C97_copy_unusable",
    "C97_copy_refuted",
    "C97_copy_contents"
   ],
   "note": "REFUTED: __getstate__ stores the inner state dictionaries under the names of the optimisers and not 'opts', so a copy has no inner optimisers and every method raises AttributeError (proved for all). C97_lbd_lost (Props_Edges): the copy holds no multiplier at all."
  },
  {
   "property": "C98",
   "status": "partial",
   "theorems": [
    "C98_reset",
    "C98_schedule_goes_on",
    "C98_rate_explodes",
    "C98_restart_refuted"
   ],
   "note": "The reset itself is proved for all histories. REFUTED: the scheduler is not restarted; the rate after a reset is rescaled by the remaining curve and can exceed 1+4T^2/pi^2 (proved)."
  },
  {
   "property": "C99",
   "status": "partial",
   "theorems": [
    "C99_expand_accepts",
    "C99_expand",
    "C99_moments",
    "C99_mode",
    "C99_support",
    "C99_perplexity",
    "C99_entropy_shape_refuted",
    "C99_accepts"
   ],
   "note": "Proved, except REFUTED: entropy and perplexity are scalars, not one value per batch element."
  },
  {
   "property": "C100",
   "status": "partial",
   "theorems": [
    "C100_presample",
    "C100_presample_other",
    "C100_postsample_never",
    "C100_postsample_ignores",
    "C100_postsample_refuted"
   ],
   "note": "Proved for pre-sampling. REFUTED for post-sampling, which never resets."
  },
  {
   "property": "C101",
   "status": "partial",
   "theorems": [
    "C101_which_error",
    "C101_presample_never",
    "C101_no_optimizer",
    "C101_refuted"
   ],
   "note": "REFUTED: never returns (the list of losses is unpacked into four values). C101_which_error (Props_Edges): which error is raised for which input."
  },
  {
   "property": "C102",
   "status": "partial",
   "theorems": [
    "C102_postsample",
    "C102_presample",
    "C102_evaluations",
    "C102_sign_refuted",
    "C102_first_stop_refuted",
    "C102_tests",
    "C102_multiplier"
   ],
   "note": "The whole log is characterised, and what each step evaluates (C102_evaluations). REFUTED: absolute values are reported, the stopping step is dropped, and stopping at the first step gives IndexError."
  },
  {
   "property": "C103",
   "status": "proved",
   "theorems": [
    "C103_factor",
    "C103_matrix",
    "C103_sigma",
    "C103_labels_gauss",
    "C103_labels_bernoulli",
    "C103_labels_id"
   ],
   "note": "For any generator; the Cholesky factorisations are arguments."
  },
  {
   "property": "C104",
   "status": "partial",
   "theorems": [
    "C104_class",
    "C104_newsvendor",
    "C104_labels_refuted",
    "C104_no_sampler",
    "C104_best_effort_refuted",
    "C104_labels_required",
    "C104_constructor_radius"
   ],
   "note": "REFUTED: Gaussian labels leave {-1,1}; losses of the library pass no data to the base constructor so have no sampler; the wrapper's constructor raises. Acceptance and draws are proved."
  },
  {
   "property": "C105",
   "status": "partial",
   "theorems": [
    "C105_last_set",
    "C105_count",
    "C105_init",
    "C105_own_unread",
    "C105_own_stale_refuted",
    "C105_endless",
    "C105_delete_once"
   ],
   "note": "Proved for the sampler used, counts and iteration. REFUTED for the dual loss's own attribute, which is stale after the setter (and never read)."
  },
  {
   "property": "C106",
   "status": "proved",
   "theorems": [
    "C106_gap",
    "C106_small_eps",
    "C106_large_eps"
   ],
   "note": ""
  },
  {
   "property": "C107",
   "status": "proved",
   "theorems": [
    "C107_jointly_convex",
    "C107_stable"
   ],
   "note": ""
  },
  {
   "property": "C108",
   "status": "proved",
   "theorems": [
    "C108_rows_order",
    "C108_samples_order",
    "C108_two_batches",
    "C108_samples_twice"
   ],
   "note": "Mean reduction."
  },
  {
   "property": "C109",
   "status": "proved",
   "theorems": [
    "C109_derivative",
    "C109_best"
   ],
   "note": ""
  },
  {
   "property": "C110",
   "status": "proved",
   "theorems": [
    "C110_newsvendor",
    "C110_portfolio",
    "C110_weber",
    "C110_linear",
    "C110_logistic",
    "C110_polyhedron",
    "C110_importance_sampling"
   ],
   "note": " C110_importance_sampling says when importance sampling is used, for the five estimators."
  },
  {
   "property": "C111",
   "status": "proved",
   "theorems": [
    "C111_predictions",
    "C111_training_error"
   ],
   "note": "Input validation by scikit-learn is left out."
  },
  {
   "property": "C112",
   "status": "proved",
   "theorems": [
    "C112_shapes_must_agree",
    "C112_losses_labelled",
    "C112_losses_flat",
    "C112_losses_unlabelled",
    "C112_unlabelled",
    "C112_labelled",
    "C112_labels_missing",
    "C112_value_unlabelled",
    "C112_value_labelled",
    "C112_importance",
    "C112_importance_other_cost",
    "C112_importance_labelled",
    "C112_importance_off",
    "C112_importance_off_labelled"
   ],
   "note": "Mean reduction for the explicit values; C112_unlabelled and C112_labelled identify the tensor program with the row-by-row model used by C14-C20 and C106-C109, for every reduction. Gradients are an arbitrary function."
  },
  {
   "property": "C113",
   "status": "proved",
   "theorems": [
    "C113_density_labels",
    "C113_gradient_lengths",
    "C113_linear",
    "C113_logistic_binary",
    "C113_logistic_multi",
    "C113_weber",
    "C113_newsvendor",
    "C113_portfolio",
    "C113_default_cost",
    "C113_gaussian_sampler",
    "C113_labels_required",
    "C113_class_targets",
    "C113_fixed_linear",
    "C113_fixed_logistic_binary",
    "C113_fixed_logistic_multi",
    "C113_fixed_weber",
    "C113_importance_samplers"
   ],
   "note": "Exact numbers; the trained parameters are arbitrary values of the right shape. Input validation by scikit-learn is left out. Importance sampling when the cost keeps the labels (Dirac label sampler) is in TDirac_Model.v: the objective is then NaN unless every sampled label equals its datum's."
  },
  {
   "property": "C114",
   "status": "partial",
   "theorems": [
    "C114_function_labelled",
    "C114_function_flat",
    "C114_function_unlabelled",
    "C114_gradients_labelled",
    "C114_gradients_unlabelled",
    "C114_lengths",
    "C114_linear",
    "C114_logistic_binary",
    "C114_logistic_multi",
    "C114_weber",
    "C114_newsvendor",
    "C114_portfolio",
    "C114_linear_importance",
    "C114_direct_never",
    "C114_direct_refuted",
    "C114_newsvendor_loss_never"
   ],
   "note": "Differentiation is any operator that returns the Frechet gradient where there is one (autograd itself is trusted to be one); the gradients of the six losses are derived. Proved for wrapped losses and for every estimator, and composed with C112 for LinearRegression. REFUTED for losses used without the wrapper: LogisticLoss and QuadraticLoss keep an axis of length 1, which torch.func.grad refuses, for every model and data set (C114_direct_never); NewsVendorLoss_torch fails its assertion."
  },
  {
   "property": "C115",
   "status": "proved",
   "theorems": [
    "C115_gradient",
    "C115_stationary",
    "C115_necessary",
    "C115_linear",
    "C115_logistic"
   ],
   "note": "Mean reduction; the estimator instances are for training without importance sampling, where the drawn samples do not depend on the parameters. Stationarity is of the exact gradient on fixed samples; whether the optimiser reaches it is not claimed."
  },
  {
   "property": "C116",
   "status": "partial",
   "theorems": [
    "C116_best",
    "C116_too_small",
    "C116_linear",
    "C116_free_moves",
    "C116_initial_multiplier_refuted"
   ],
   "note": "REFUTED: the code measures the gradients with the cost itself instead of the dual norm, so with 0 < kappa < infinity its multiplier is always strictly too small, by the factor (1+kappa^2)/(1+kappa)^2 or more (proved for all gradients and powers; C116_best gives the minimiser). For LinearRegression the exact ratio is proved: with weights of norm at least 1 it is too small by 1 + kappa or more, 10^8 with the default cost. With kappa 0 or infinite there is in general no minimiser (C116_free_moves). Euclidean norms."
  },
  {
   "property": "C117",
   "status": "proved",
   "theorems": [
    "C117_leave_one_out",
    "C117_underestimates",
    "C117_more_samples",
    "C117_concentrates",
    "C117_importance_underestimates"
   ],
   "note": "Expectations are arbitrary positive linear functionals (every law of the samples, the Gaussian ones included); finiteness and positivity of the exact integrals are hypotheses. Mean reduction. The importance-sampling part is for the unlabelled Gaussian sampler."
  },
  {
   "property": "C118",
   "status": "proved",
   "theorems": [
    "C118_below_worst_case",
    "C118_portfolio",
    "C118_newsvendor",
    "C118_logistic",
    "C118_weber",
    "C118_linear",
    "C118_linear_worst_case",
    "C118_linear_importance",
    "C118_linear_importance_fixed"
   ],
   "note": "Exact numbers, mean reduction. The slope of the linear map in the norm of the cost is a hypothesis (Cauchy-Schwarz gives it for the Euclidean norm, as used in C118_linear_worst_case, C118_linear_importance and C118_linear_importance_fixed). For LogisticRegression and Weber the labels of the samples are those of the data (what a cost without labels samples); importance sampling is covered for LinearRegression, with labels that move or stay."
  },
  {
   "property": "C119",
   "status": "partial",
   "theorems": [
    "C119_signed_types",
    "C119_multiclass",
    "C119_boolean",
    "C119_labels_refuted",
    "C119_unsigned",
    "C119_one_class_learned"
   ],
   "note": "REFUTED for boolean and unsigned integer features (C119_labels_refuted, C119_boolean, C119_unsigned, C119_one_class_learned). What holds is proved: C119_signed_types, C119_multiclass. The value of -1 stored as an unsigned integer is any function of the width."
  },
  {
   "property": "C120",
   "status": "partial",
   "theorems": [
    "C120_nearest",
    "C120_exact",
    "C120_relative",
    "C120_order",
    "C120_overflow",
    "C120_data_kept",
    "C120_integers",
    "C120_distinct_refuted",
    "C120_finite_refuted",
    "C120_radius_refuted"
   ],
   "note": "REFUTED for float64 data (C120_distinct_refuted, C120_finite_refuted, C120_radius_refuted). What holds is proved for every binary format and used at float32: C120_nearest, C120_exact, C120_relative, C120_order, C120_overflow, C120_data_kept, C120_integers. Numbers are exact dyadics; NaN and infinite entries are refused by scikit-learn's validation before."
  },
  {
   "property": "C121",
   "status": "partial",
   "theorems": [
    "C121_portfolio",
    "C121_portfolio_iff",
    "C121_newsvendor",
    "C121_newsvendor_exceeds",
    "C121_refuted"
   ],
   "note": "REFUTED (C121_refuted, NewsVendor with the squared cost at multiplier 1/10; C121_newsvendor_exceeds and C121_portfolio_iff say when). What holds for all draws is proved: C121_newsvendor, C121_portfolio. Unlabelled Gaussian sampler with the default scale rho / 2, squared Euclidean cost, mean reduction; data on a kink of the loss are left out, as there is no gradient there."
  },
  {
   "property": "C122",
   "status": "partial",
   "theorems": [
    "C122_documented_attributes",
    "C122_weber_position_never",
    "C122_weber_position_refuted",
    "C122_intercept"
   ],
   "note": "REFUTED for Weber's position_ (C122_weber_position_refuted; C122_weber_position_never: by no sequence of fits). Proved for the other classes that document attributes. The inner calls (data checks, cost, solver) succeed or raise arbitrarily. C122_intercept: intercept_ of the logistic regression is None exactly when a torch solver was given a false fit_intercept."
  },
  {
   "property": "C123",
   "status": "partial",
   "theorems": [
    "C123_constructor",
    "C123_clone",
    "C123_parameters_kept",
    "C123_radius_value",
    "C123_unchanged",
    "C123_parameters_refuted",
    "C123_radius_type_refuted"
   ],
   "note": "REFUTED: opt_cond None is replaced by a condition object and an integer rho by a float. Proved: the constructor and clone, everything else is kept on every outcome (C123_parameters_kept), and nothing changes for a float radius and a given condition."
  },
  {
   "property": "C124",
   "status": "partial",
   "theorems": [
    "C124_fit_succeeds",
    "C124_answers_read_only",
    "C124_new_is_unfitted",
    "C124_set_params_is_unfitted",
    "C124_predict_before_fit",
    "C124_eval_before_fit",
    "C124_eval_after_failed_fit",
    "C124_refused_data",
    "C124_answers_from_last_fit",
    "C124_eval_not_fitted_error_refuted",
    "C124_failed_first_fit_refuted",
    "C124_stale_answer_refuted",
    "C124_untrained_answer_refuted",
    "C124_renamed_solver_refuted",
    "C124_solver_name_refuted"
   ],
   "note": "REFUTED by five witnesses (wrong exception, stale and untrained answers, solver names). Proved: answers are read-only, come from the last successful fit if that was the last call, and raise for objects never fitted. Only the attributes are tracked here; that Weber.eval then fails for another reason is C81. C124_fit_succeeds (Props_FitOk): with accepted arguments and a known solver name, fit succeeds whenever the data checks, the cost, the dual loss and the solver do, so the statements about fitted objects are about all such calls."
  },
  {
   "property": "C125",
   "status": "partial",
   "theorems": [
    "C125_default",
    "C125_maximum_norm",
    "C125_order",
    "C125_relative_order_refuted",
    "C125_scale_free",
    "C125_not_finite"
   ],
   "note": "REFUTED in relative mode (C125_relative_order_refuted: order 1 stops where 'inf' does not). Proved: the norms of the default conditions, the maximum norm, the comparison of orders with an absolute tolerance, invariance under scaling with a relative one, and what NaN and infinite gradients do. Exact norms; the metric is the gradient of theta."
  },
  {
   "property": "C126",
   "status": "partial",
   "theorems": [
    "C126_logistic_refuses",
    "C126_multiclass_refuses",
    "C126_linear_refuses",
    "C126_portfolio_refuses",
    "C126_one_feature",
    "C126_one_feature_refuted",
    "C126_newsvendor_answers"
   ],
   "note": "REFUTED for one-feature torch fits of LogisticRegression (C126_one_feature_refuted; C126_one_feature gives the array returned) and for NewsVendor.eval (C126_newsvendor_answers). Proved for the others. Weber is left out: its eval is C81."
  },
  {
   "property": "C127",
   "status": "proved",
   "theorems": [
    "C127_same_value",
    "C127_no_samples"
   ],
   "note": "Positive radius; at radius 0 the kept samples are unusable, which is C14. The samples of the post-sampled loss are those its sampler draws."
  },
  {
   "property": "C128",
   "status": "partial",
   "theorems": [
    "C128_gradient_clones",
    "C128_parameter_clone_raises",
    "C128_candidates_independent",
    "C128_search_raises",
    "C128_search_refuted"
   ],
   "note": "REFUTED: a used condition that watches the parameter keeps tensors attached to a graph, so clone raises RuntimeError (C128_parameter_clone_raises), and candidates inherit the memory of earlier fits (C128_search_refuted). Proved: gradient conditions always clone, and candidates do not see each other's fits. clone is modelled by the deepcopy of the condition; the other parameters are plain values."
  },
  {
   "property": "C129",
   "status": "partial",
   "theorems": [
    "C129_newsvendor",
    "C129_portfolio_torch",
    "C129_portfolio_dedicated",
    "C129_portfolio_dedicated_refuted",
    "C129_weber_raises",
    "C129_linear",
    "C129_linear_constant_targets",
    "C129_logistic",
    "C129_logistic_refuted",
    "C129_weber_refuted"
   ],
   "note": "REFUTED for the dedicated Portfolio solver (score is the mean return, the risk term is ignored), for LogisticRegression (accuracy) and for Weber (no score). Proved for NewsVendor, the torch Portfolio solvers and, on targets that are not all equal, LinearRegression. r2_score and accuracy_score are modelled from the scikit-learn documentation."
  },
  {
   "property": "C130",
   "status": "partial",
   "theorems": [
    "C130_only_matrices",
    "C130_nearest_neighbour",
    "C130_training_labels",
    "C130_repeated_row_refuted",
    "C130_refusals",
    "C130_targets",
    "C130_square_roots"
   ],
   "note": "REFUTED only for 'gives the training labels back' when a row is repeated with another label (C130_repeated_row_refuted); proved when equal rows have equal labels, and everything else. Dense finite data, exact distances."
  },
  {
   "property": "C131",
   "status": "partial",
   "theorems": [
    "C131_estimators",
    "C131_plain",
    "C131_rate_ignored",
    "C131_rate_ignored_refuted",
    "C131_adapt_names",
    "C131_adapt_names_refuted",
    "C131_first_move_adamw",
    "C131_first_move_lbfgs"
   ],
   "note": "REFUTED: dualize_primal_loss uses Prodigy by default and Prodigy and Mechanic take no learning rate, so a rate given without adapt=None has no effect on post-sampled losses (C131_rate_ignored); pre-sampled losses accept and ignore any adapt name (C131_adapt_names). Proved: the estimators, which drop adapt when a rate is given; dualize_primal_loss without adapt; refused names of post-sampled losses; first moves of AdamW and L-BFGS."
  },
  {
   "property": "C132",
   "status": "partial",
   "theorems": [
    "C132_metric",
    "C132_mode",
    "C132_never_reported",
    "C132_mode_refuted",
    "C132_metric_refuted",
    "C132_suite"
   ],
   "note": "REFUTED: a misspelt mode is reported only at the first comparison (second evaluation with the gradient metric, third with the parameter metric), so shorter runs never report it (C132_mode_refuted); with no positive tolerance neither mode nor metric is ever reported (C132_metric_refuted). Proved: a misspelt metric is reported at every evaluation when something is watched; C132_suite is the project's own test for every loss. Monitoring names are C29."
  },
  {
   "property": "C133",
   "status": "proved",
   "theorems": [
    "C133_logistic",
    "C133_estimator",
    "C133_regression",
    "C133_start",
    "C133_dimensions"
   ],
   "note": "Real arithmetic: in floating point tanh reaches 1 for large scores. The starting weights of the quadratic loss (kaiming initialisation of nn.Linear) are a parameter of the model; those of the logistic loss are zero."
  },
  {
   "property": "C134",
   "status": "proved",
   "theorems": [
    "C134_every_step",
    "C134_reach",
    "C134_constant_gradient",
    "C134_momentum"
   ],
   "note": "About one coordinate of torch.optim.AdamW as modelled in Oracle_Model.v (torch's published update with amsgrad); gradients are arbitrary reals. The constant 8 is not claimed to be the smallest."
  },
  {
   "property": "C135",
   "status": "proved",
   "theorems": [
    "C135_exact",
    "C135_solution_is_robust",
    "C135_constraints_help"
   ],
   "note": "Strong duality for finite data is proved here from scratch (Farkas lemma with a sublinear objective, then Kantorovich duality), so the programme is exact; that a minimiser exists and that the external solver finds it is not claimed."
  },
  {
   "property": "C136",
   "status": "proved",
   "theorems": [
    "C136_documented_dual",
    "C136_zero_radius",
    "C136_never_above",
    "C136_all_points"
   ],
   "note": "Transport plans are finite laws, one per data point. The second half is about the objective of the mean reduction for any sampled points; nothing is said here about the expectation over the draw (C117)."
  },
  {
   "property": "C137",
   "status": "partial",
   "theorems": [
    "C137_binding",
    "C137_robustify",
    "C137_dual_loss",
    "C137_dual_loss_refuted",
    "C137_dual_loss_fixed",
    "C137_seventh_argument",
    "C137_default_sampler",
    "C137_default_sampler_refuted",
    "C137_warmup_refuted",
    "C137_estimators",
    "C137_sampler_seed",
    "C137_tutorial",
    "C137_arities",
    "C137_positions",
    "C137_keywords",
    "C137_single_keyword"
   ],
   "note": "REFUTED for three documented lines (C137_dual_loss_refuted, C137_default_sampler_refuted, C137_warmup_refuted): the DualLoss of doc/pytorch.rst:329 is given epsilon= and sigma=, which are not parameters of either constructor; default_sampler at :291 lacks the required seed; :304 unpacks a tuple of one element. Proved: the binding rule for every signature, what robustify does with a batch of any length, and that the other documented calls bind as intended. Signatures are transcribed from the sources; the values of defaults are in C57. C137_keywords and C137_single_keyword list the keyword names every class takes."
  },
  {
   "property": "C138",
   "status": "partial",
   "theorems": [
    "C138_what_is_minimised",
    "C138_equal_weights",
    "C138_concentrated",
    "C138_no_critical_radius_refuted",
    "C138_radius_ignored"
   ],
   "note": "REFUTED for the exponent 2 (C138_no_critical_radius_refuted: equal weights are never optimal) and, for the exponent infinity, the radius has no effect (C138_radius_ignored). Proved for the default cost (exponent 1), with the critical radius 2 m B; concentration is proved for eta = 0. The side constraints are the default ones (none), as in the example; the external solver is assumed to return an optimum."
  },
  {
   "property": "C139",
   "status": "partial",
   "theorems": [
    "C139_convex",
    "C139_huber",
    "C139_huber_refuted",
    "C139_lipschitz",
    "C139_finite",
    "C139_exponential",
    "C139_pinball",
    "C139_median",
    "C139_vanish",
    "C139_smooth_hinge",
    "C139_documented_refuted",
    "C139_perceptron_trivial",
    "C139_quadratic_slope"
   ],
   "note": "REFUTED for Huber's loss with the threshold 0.95 of the example (C139_huber_refuted; C139_huber says exactly when it is convex or Lipschitz) and for four displayed formulas (C139_documented_refuted). Proved for the other losses. Entrywise real model; the training loops of the examples are not modelled. C139_quadratic_slope fixes the scale of the quadratic loss."
  },
  {
   "property": "C140",
   "status": "partial",
   "theorems": [
    "C140_zero_label_ignored",
    "C140_one_observation",
    "C140_everything_in_class_1",
    "C140_recoded",
    "C140_separable_refuted"
   ],
   "note": "REFUTED for labels in {0, 1} (C140_separable_refuted; C140_everything_in_class_1 for every data set and C140_zero_label_ignored say what happens). Proved for labels recoded to {-1, 1}. Empirical loss of linear models; scores and labels are columns of one length."
  },
  {
   "property": "C141",
   "status": "partial",
   "theorems": [
    "C141_call_raises",
    "C141_call_refuted",
    "C141_right_order",
    "C141_half_sphere",
    "C141_one_center",
    "C141_batch_inside",
    "C141_expectation_refuted",
    "C141_mixed_features",
    "C141_mixed_features_refuted"
   ],
   "note": "REFUTED: C141_call_refuted (and C141_call_raises for every call), C141_expectation_refuted, C141_mixed_features_refuted; the other theorems say what the snippets compute. The noise is an argument of the model, and nan is modelled by None; dtypes and devices are left out."
  },
  {
   "property": "C142",
   "status": "partial",
   "theorems": [
    "C142_readme_multiplier",
    "C142_readme_derivative_unused",
    "C142_readme_not_negative",
    "C142_clipped",
    "C142_clipped_stopping",
    "C142_clipped_value",
    "C142_clip_infinite_refuted",
    "C142_rectify",
    "C142_rectify_not_finite",
    "C142_rectify_refuted",
    "C142_stopping",
    "C142_unbounded",
    "C142_unprojected",
    "C142_constraint_idle",
    "C142_constraint_needed",
    "C142_readme_refuted",
    "C142_unprojected_refuted",
    "C142_poly_steps",
    "C142_nn_steps",
    "C142_readme_steps",
    "C142_poly_guess",
    "C142_momentum",
    "C142_nan_forever"
   ],
   "note": "REFUTED: C142_readme_refuted (the README loop leaves the multiplier at the guess although another is better, after any number of epochs), C142_unprojected_refuted (neural_net.py: one AdamW step gives a negative multiplier with a value below all admissible ones), C142_rectify_refuted, C142_clip_infinite_refuted. Proved for all optimisers: what the multiplier is after each loop, that it stays non-negative in the README loop and in the clipping examples, when the constraint matters, and that without it the objective can be unbounded below. LBFGS and SGD are arbitrary functions; AdamW with torch's default options is modelled."
  },
  {
   "property": "C143",
   "status": "partial",
   "theorems": [
    "C143_stopping",
    "C143_not_negative",
    "C143_travel",
    "C143_stays_at_zero",
    "C143_converges",
    "C143_best_refuted",
    "C143_value_refuted",
    "C143_wolfe_found",
    "C143_wolfe_nothing",
    "C143_wolfe_at_best",
    "C143_wolfe_refuted"
   ],
   "note": "REFUTED: C143_best_refuted (one hundred steps of 1/100: the value plotted is above 8 where the best multiplier gives at most 5, which is also the exact worst case), C143_value_refuted (the value returned belongs to the multiplier before the last step), C143_wolfe_refuted (at a best multiplier the Wolfe variant returns infinity twice: its two branches are swapped). Proved: when the loop stops (ten small changes in all, not in a row), the multiplier is never negative and never above the largest cost minus the radius to the power, it is 0 when no sample costs more than that, and with costs C and C^2 <= 400 epsilon it grows towards the best multiplier l* without passing it, with a value at most 25 l*^2 / k above the smallest after k steps. scipy's line search is an argument with the promises listed in EpsStudy_Spec.v."
  },
  {
   "property": "C144",
   "status": "partial",
   "theorems": [
    "C144_features",
    "C144_labelled",
    "C144_features_of_labelled",
    "C144_loss",
    "C144_best_multiplier",
    "C144_importance",
    "C144_draws",
    "C144_guess",
    "C144_start",
    "C144_start_refuted",
    "C144_default_sigma",
    "C144_default_epsilon_power_1",
    "C144_default_epsilon_refuted",
    "C144_newsvendor",
    "C144_half_cost"
   ],
   "note": "REFUTED for two automatic choices with the power 2: the starting multiplier 1e-3/rho is divided by t and not by t^2 (C144_start_refuted; C144_start for every power), and the automatic epsilon, which follows the radius for the power 2, changes with the unit of the data although the loss did not (C144_default_epsilon_refuted: the objective goes from above 0.99 to below 0.51). Proved: the objective without and with labels, with importance sampling, the draws, the best multiplier, the guess of the multiplier, the automatic scale, the automatic epsilon for the power 1, a change of unit of the loss, the dedicated newsvendor solver and the factor sqrt(2) the test-suite uses for a cost with one half. Exact numbers; mean reduction for the tensor-level statements."
  },
  {
   "property": "C145",
   "status": "partial",
   "theorems": [
    "C145_angle",
    "C145_angle_of_zero",
    "C145_cvx_accepts_all",
    "C145_fit_accepts",
    "C145_quadrant",
    "C145_right_passes",
    "C145_opposite_passes",
    "C145_wrong_model_refuted",
    "C145_intercept_refuted",
    "C145_overfitting_accepts",
    "C145_centroids_sign",
    "C145_centroids_refuted",
    "C145_autostop",
    "C145_autostop_refuted",
    "C145_consistency_same",
    "C145_consistency_small",
    "C145_consistency_refuted",
    "C145_consistency_guarantees",
    "C145_exact_direction",
    "C145_exact_guarantees",
    "C145_exact_not_opposite",
    "C145_alpha_accepts",
    "C145_alpha",
    "C145_alpha_refuted",
    "C145_eta"
   ],
   "note": "REFUTED: a model that is wrong on all six points passes (C145_wrong_model_refuted), as does one with an intercept that puts all in one class (C145_intercept_refuted); the assertion with ten times the tolerance accepts every model that was trained at all (C145_cvx_accepts_all); the multiclass test accepts coefficients at right angles to all centroids (C145_centroids_refuted); test_autostop does not read the exit code (C145_autostop_refuted); test_consistency accepts opposite classifiers (C145_consistency_refuted); the assertion on the risk level compares with == inside abs, so it fails exactly when the level was stored exactly (C145_alpha, C145_alpha_refuted). Proved: right models pass, what passing does guarantee, and that the reference test never accepts an opposite direction in up to ten dimensions. Accuracy and score are arguments of the model."
  },
  {
   "property": "C146",
   "status": "partial",
   "theorems": [
    "C146_always_lower",
    "C146_no_minimiser",
    "C146_no_minimiser_lin",
    "C146_penalty",
    "C146_infimum",
    "C146_ridge_bounded",
    "C146_exact_bounded",
    "C146_exact_zero",
    "C146_tensor",
    "C146_refuted"
   ],
   "note": "REFUTED (C146_refuted, C146_no_minimiser, C146_tensor for the module on tensors): when a linear score separates the samples, a step of any length along it lowers the objective at every model, multiplier, radius and cost, so no model is optimal; if the samples cost at most the radius on average, the infimum is 0 and is not attained (C146_infimum). What stops the training is the stopping rule, not convergence. Proved beside it: with an l2 penalty the models at least as good as the zero model are bounded (C146_ridge_bounded), and so they are for the exact worst case that the objective stands for, even without a penalty and although the data are separable (C146_exact_bounded, C146_exact_zero): it is the finite set of samples that loses the optimum. That a best model then exists, and only one, is C150."
  },
  {
   "property": "C147",
   "status": "partial",
   "theorems": [
    "C147_opt_cond",
    "C147_opt_cond_wrong",
    "C147_opt_cond_wrong_refuted",
    "C147_hybrid_sgd",
    "C147_hybrid_sgd_refuted",
    "C147_sampler_data",
    "C147_solve",
    "C147_dirac",
    "C147_small_difference",
    "C147_small_difference_lost",
    "C147_small_difference_refuted",
    "C147_exact_sum"
   ],
   "note": "REFUTED in three places: a misspelt mode or metric is not reported when the tolerances are zero, values the same test uses elsewhere (C147_opt_cond_wrong_refuted); torch.rand can return 0, where the hybrid step stops with an AssertionError (C147_hybrid_sgd_refuted); in float32 the change of 1e-7 is lost at every location of whole numbers from 2 on (C147_small_difference_lost, C147_small_difference_refuted; the test passes only through its first entry 1). Proved for all inputs: every documented setting passes (C147_opt_cond), misspelt names always and misspelt modes and metrics with positive tolerances are reported (C147_opt_cond_wrong), the hybrid step from positive parameters, exactly which norms and powers pass the sampler test, both closed forms, and the log-probability in exact numbers. pytest.approx and allclose are equality; messages of errors and the verbose flag are left out."
  },
  {
   "property": "C148",
   "status": "partial",
   "theorems": [
    "C148_first_power",
    "C148_first_power_best",
    "C148_second_power",
    "C148_second_power_best",
    "C148_second_power_line",
    "C148_line_refuted",
    "C148_best_exists",
    "C148_marked",
    "C148_off_grid"
   ],
   "note": "REFUTED (C148_line_refuted: with the radius of the script, every multiplier that reaches the value of the comment is more than 30000 times the one drawn, and the value at the line is more than 30 above it). Proved: for the first power of the distance the comment's value is the smallest and is taken at the norm of theta, while at the line the robust loss is infinite for radii below one (C148_first_power, C148_first_power_best); for the squared distance the script uses, two-sided bounds at every multiplier, what they say about the best one (C148_second_power, C148_second_power_best, C148_second_power_line), that a best multiplier exists in that bracket when some label is not 0 (C148_best_exists), what the marks are (C148_marked) and when the best multiplier is outside of the grid (C148_off_grid). Labels do not move (the script makes moving them cost 100000); the sampled curves are not part of these statements."
  },
  {
   "property": "C149",
   "status": "partial",
   "theorems": [
    "C149_rows",
    "C149_single",
    "C149_right_iff",
    "C149_rows_refuted",
    "C149_equal_gradients",
    "C149_covariance",
    "C149_portfolio_rows",
    "C149_portfolio_refuted",
    "C149_labels",
    "C149_labels_refuted",
    "C149_scale",
    "C149_scale_refuted",
    "C149_positive_definite",
    "C149_refusals",
    "C149_fit"
   ],
   "note": "REFUTED in four places: h_samples_ holds running totals, because theta.grad is never cleared and its first row is the tensor theta.grad itself (C149_rows for every dataset, C149_rows_refuted; with three samples or more the rows are right only if all gradients but the last vanish, C149_right_iff; equal gradients get a positive variance, C149_equal_gradients); the first row of a Portfolio is its parameters (C149_portfolio_refuted); labels given as an array are replaced by their mean (C149_labels_refuted); with one parameter the variance is used as the standard deviation (C149_scale_refuted). Proved: one sample is right (C149_single), labels given as tensors are kept (C149_labels), the lifted matrix is positive definite (C149_positive_definite), what is refused (C149_refusals). No estimator of the package reaches this code (C91); float32 rounding, eigvalsh and the differentiation are outside. torch adds gradients in place when no graph is created, as its documentation says. C149_fit states the rows of the whole fit for the portfolio and the other classes; C149_covariance the covariance in terms of differences of rows."
  },
  {
   "property": "C150",
   "status": "proved",
   "theorems": [
    "C150_fixed",
    "C150_joint",
    "C150_unique",
    "C150_saddle",
    "C150_unbounded",
    "C150_linear",
    "C150_logistic",
    "C150_multinomial"
   ],
   "note": "Existence: the objective is Lipschitz on boxes (through the soft maximum), is at least a multiple of the penalty plus a multiple of the multiplier, and a locally Lipschitz coercive function on R^d has a minimum (Attain.v, by induction on d from the extreme value theorem on the line). Uniqueness: the value at the midpoint is lower by l2_reg/8 times the squared distance. Saddle point: C115_necessary and C115_stationary at the minimum. C150_multinomial has existence and uniqueness for more than two classes, for samples whose labels are not negative (cross entropy is not convex otherwise). C150_linear and C150_logistic state all this of the value that compute_dual returns on the tensors of the estimators. The hypotheses are needed: without a penalty separable data have no best model (C146), and when the samples cost too much the objective is unbounded below in the multiplier (C150_unbounded). Not covered: importance weights (solver 'entropic_torch' with a squared cost), where samples move with the model."
  },
  {
   "property": "C151",
   "status": "partial",
   "theorems": [
    "C151_fixed",
    "C151_joint",
    "C151_reached_iff",
    "C151_always_lower",
    "C151_no_minimiser",
    "C151_infimum",
    "C151_shift",
    "C151_tensor",
    "C151_refuted"
   ],
   "note": "REFUTED (C151_refuted; C151_tensor on tensors): when one asset does at least as well as every other in all samples and better than some, raising its raw weight always lowers the objective, so no raw weights are best (C151_always_lower, C151_no_minimiser); the infimum is the value of holding that asset only, approached and never reached (C151_infimum). And parameters are never unique: adding a number to all raw weights changes nothing for any tensor (C151_shift). Proved: a best portfolio always exists among weights that may vanish, at every multiplier and together with the multiplier under the budget condition of C150 (C151_fixed, C151_joint; the simplex is the image of a cube and thresholds can be cut at the largest return); the raw weights reach the best value exactly when some best portfolio holds every asset (C151_reached_iff). Not covered: importance weights, where samples move with the model."
  },
  {
   "property": "C152",
   "status": "partial",
   "theorems": [
    "C152_abstract_iff",
    "C152_instantiable",
    "C152_library",
    "C152_bases",
    "C152_new_loss",
    "C152_diff_loss_refuted",
    "C152_diff_loss_never",
    "C152_diff_loss_repair",
    "C152_tuner_stops",
    "C152_loss_call"
   ],
   "note": "REFUTED for DiffLoss (C152_diff_loss_refuted): intercept and default_sampler stay abstract, so no instance exists (C152_diff_loss_never), and deriving a class that defines them would not do, because its constructor leaves out has_labels (C152_diff_loss_repair); the general tuner would stop there even on an estimator with the attribute it asks for (C152_tuner_stops). Proved: Python's bookkeeping from class to class is the set of names whose definition in effect is abstract, for every hierarchy (C152_abstract_iff, C152_instantiable); all the other classes with an abstract ancestor can be built (C152_library); what the bases leave to define (C152_bases, C152_new_loss: default_sampler, presented as optional, is required and value is not); which calls of Loss.__init__ are accepted (C152_loss_call). Names are looked up depth first, which is Python's order on these hierarchies."
  },
  {
   "property": "C153",
   "status": "partial",
   "theorems": [
    "C153_feature_derivatives",
    "C153_label_derivatives",
    "C153_defined",
    "C153_one_feature_refuted",
    "C153_one_feature",
    "C153_value",
    "C153_features",
    "C153_at_least",
    "C153_refuted",
    "C153_draw_refuted",
    "C153_parameters",
    "C153_wrapped_refuted",
    "C153_branches",
    "C153_get_parameter",
    "C153_newsvendor",
    "C153_newsvendor_refuted",
    "C153_names"
   ],
   "note": "REFUTED in five places: with labels the derivative in the label is appended as one more column instead of one more row, so the conjugate is taken in d + 1 variables of another function (C153_value says which, C153_refuted for every pseudo-inverse) and depends on a random number added to make the sizes agree (C153_draw_refuted: at one data set it takes every non-negative value); with one feature the concatenation fails (C153_one_feature, C153_one_feature_refuted); for every wrapped loss, so for Portfolio, Weber and NewsVendor, the parameter is not found (C153_parameters, C153_wrapped_refuted); the newsvendor loss asserts labels (C153_newsvendor_refuted) and with labels another block of the Hessian is taken (C153_newsvendor). Proved: the blocks used are the mixed derivatives of the logistic and square losses with any intercept and ridge (C153_feature_derivatives, C153_label_derivatives); when there is a value (C153_defined); the value is never below the conjugate for transports that keep the labels (C153_features, C153_at_least); which names let any class through (C153_branches, C153_names, C153_get_parameter). C153_value and C153_at_least need the supremum to be attained; where it is infinite the code returns a number (C90)."
  },
  {
   "property": "C154",
   "status": "partial",
   "theorems": [
    "C154_order_iff",
    "C154_order_unbounded",
    "C154_order_range",
    "C154_order_joint",
    "C154_site_fixed",
    "C154_site_joint",
    "C154_site_unbounded",
    "C154_newsvendor",
    "C154_weber",
    "C154_refuted",
    "C154_weber_refuted"
   ],
   "note": "REFUTED: NewsVendor takes any prices, and with a buying price above the selling price (k=7, u=5) what fit minimises has no lower bound, for all samples and multipliers (C154_refuted); Weber takes any weights, and with a negative weight the objective falls without end as the location moves away (C154_weber_refuted). Proved: a best order exists exactly when 0 <= k <= u (C154_order_iff, C154_order_unbounded; C154_newsvendor on the tensors of the estimator), can be found in the range of the sampled demands and, when 0 < k < u, nowhere else (C154_order_range), and exists together with the multiplier under the budget condition of C150 (C154_order_joint). A best location exists whenever there is a penalty or some adversary makes the average sampled weight positive, at each multiplier and jointly (C154_site_fixed, C154_site_joint), and none exists without a penalty when every adversary makes it negative (C154_site_unbounded; C154_weber on tensors). Between the two, where the largest average weight is exactly 0, either may happen and nothing is stated. Not covered: importance weights, where samples move with the decision (so Weber with its default cost t-NLC-2-2, whose samples are moved; the theorems are about the same class with a first-power cost)."
  },
  {
   "property": "C155",
   "status": "proved",
   "theorems": [
    "C155_strictly_convex",
    "C155_unique",
    "C155_spending",
    "C155_exists_iff",
    "C155_one_cost",
    "C155_radius",
    "C155_price",
    "C155_bound"
   ],
   "note": "Exact numbers, mean reduction, no importance weights. Strict convexity comes from the tangent of the soft maximum, whose slope is the budget left by the Gibbs adversary (C109). C155_exists_iff completes C61: with samples at different costs a best multiplier exists exactly when some weighting costs strictly less than the budget (at equality it escapes to infinity). C155_one_cost is the remaining case, which a single sample per datum (n_zeta_samples=1) is always in: 0, every multiplier, or none is best."
  },
  {
   "property": "C156",
   "status": "partial",
   "theorems": [
    "C156_depth",
    "C156_documented_depth_refuted",
    "C156_extra_layer",
    "C156_one_output",
    "C156_predict",
    "C156_probas",
    "C156_copy",
    "C156_two_classes",
    "C156_refused",
    "C156_constructor",
    "C156_homogeneous",
    "C156_rays",
    "C156_intercept_needed",
    "C156_lipschitz",
    "C156_certified",
    "C156_defaults"
   ],
   "note": "REFUTED for the depth: n_hidden_layers=1 gives two hidden layers of 32 neurons (C156_documented_depth_refuted; C156_depth for all sizes: n+1 hidden layers), and the extra layer does give functions that the documented network cannot (C156_extra_layer). Proved: on two classes the problem handed over is that of LogisticRegression but for the steps 50 and 200 and the specialised solver (C156_copy, C156_defaults); more classes are refused although they are encoded and predict has a branch for them, and the documented solver 'dedicated' is refused (C156_two_classes, C156_refused); predictions and probabilities (C156_one_output, C156_predict, C156_probas); without intercept the output is positively homogeneous, so no two points of a ray are told apart and the origin is always in the second class (C156_homogeneous, C156_rays; with intercept C156_intercept_needed); the output moves at most by the product of the Frobenius norms times the move of the input, which certifies a radius per prediction (C156_lipschitz, C156_certified). Training itself is the solver of C30-C35; exact numbers."
  },
  {
   "property": "C157",
   "status": "proved",
   "theorems": [
    "C157_constant",
    "C157_intercept",
    "C157_only_constants",
    "C157_more_freedom",
    "C157_no_intercept",
    "C157_class_means",
    "C157_script",
    "C157_dedicated_over",
    "C157_dedicated",
    "C157_dedicated_zero"
   ],
   "note": "The exact problem is the worst case over all plans of Transport_Spec.v (what the sampled objective stands for, C118); with labels that move or cheaper moves the models do no better (C157_more_freedom). The dedicated programme is the one handed to cvxpy (DedProg_Model.v), and its two cases are without intercept, or balanced classes; samples no longer than kappa, 1000 by default. C157_script: for balanced data with the class means of the example, the critical radius is sqrt(32) and the script uses 32, where only the zero coefficients are optimal. The objective on a finite number of draws is weaker than the exact one, so a trained model need not vanish."
  },
  {
   "property": "C158",
   "status": "proved",
   "theorems": [
    "C158_constant",
    "C158_critical",
    "C158_only_constants",
    "C158_below",
    "C158_worst_case"
   ],
   "note": "The objective is the one handed to cvxpy (DedProg_Model.v), equal to the exact worst case by C50, which C158_worst_case uses. The solver itself is external: the theorems speak about every best point of the programme. The critical radius is |cov(x, y)| / sd(y) with intercept and |mean of y x| / rms(y) without; when the targets are constant the constant model is best at every radius."
  },
  {
   "property": "C159",
   "status": "proved",
   "theorems": [
    "C159_labelled",
    "C159_unlabelled",
    "C159_rotations",
    "C159_shifts",
    "C159_reorderings",
    "C159_linear",
    "C159_logistic",
    "C159_dedicated_linear_rotated",
    "C159_dedicated_logistic_rotated",
    "C159_dedicated_linear_shifted",
    "C159_units_matter"
   ],
   "note": "The samples are moved with the data: the sampler itself draws coordinate by coordinate, so a fit on rotated data uses other samples of the same law. C159_linear and C159_logistic compare two fits of the same estimator; the ridge penalty includes the intercept, so with l2_reg > 0 a translation changes it and the equal penalties are a hypothesis (true for rotations and reorderings, and for l2_reg <= 0). C159_units_matter is a witness that nothing of the kind holds for the units of the features at a fixed radius (C144 says how the radius has to change)."
  },
  {
   "property": "C160",
   "status": "partial",
   "theorems": [
    "C160_percent",
    "C160_colours",
    "C160_panels",
    "C160_reference_gap",
    "C160_names_required",
    "C160_epsilon_titles",
    "C160_radius_titles_refuted"
   ],
   "note": "REFUTED for the titles of the epsilon study: five of them say rho=32, their classifiers have the radius 1 (C160_radius_titles_refuted); the exponents of epsilon are right (C160_epsilon_titles). Proved of the figure itself for any data: place, title, reference and levels of every panel (C160_panels, C160_reference_gap, C160_names_required), what a percentage can hide (C160_percent: a gap below one percent loses its sign) and that the two functions of the colour scale are inverse and increasing (C160_colours). fit is a function of the object and the data; scores, losses and the contour levels of matplotlib are arbitrary functions, with the one law that given levels are used; scatter plots and axes are left out."
  },
  {
   "property": "C161",
   "status": "partial",
   "theorems": [
    "C161_moons_shift",
    "C161_blobs_shift",
    "C161_moons_radius_refuted",
    "C161_blobs_radius"
   ],
   "note": "REFUTED (C161_moons_radius_refuted): the squared distance is 2 (s1 - s2)^2 exactly (C161_moons_shift: a lower bound for every coupling, reached by moving points in proportion), which is below (0.2 / 2)^2 for the first data set and above (2 * 0.2)^2 for the second. C161_blobs_shift is the same for the Gaussian blobs, whose radius 32 is more than five times the distance (C161_blobs_radius). Only the second moments of the noise are used, so the lower bound holds for every noise of unit variance; the shape of the moons, which is common to both sets, is left out."
  },
  {
   "property": "C162",
   "status": "partial",
   "theorems": [
    "C162_dedicated_is_binary",
    "C162_dedicated_refuses",
    "C162_more_classes",
    "C162_binary_only_refuted",
    "C162_ends_with",
    "C162_checked",
    "C162_blind",
    "C162_presampled_excused",
    "C162_unknown",
    "C162_every_class_refuted"
   ],
   "note": "REFUTED twice: with the default solver any number of classes from two on is fitted (C162_more_classes, C162_binary_only_refuted), and test_all_estimators excuses four of its eight entries before looking the estimator up, the only one of Weber among them (C162_every_class_refuted). Proved: with the dedicated solver a fit that succeeds had two classes (C162_dedicated_is_binary) and more are refused with NotImplementedError (C162_dedicated_refuses); the checks are run on exactly the entries with the dedicated solver (C162_checked), a name outside the table is a KeyError (C162_unknown), every name with the suffix of the presampled ones is excused (C162_presampled_excused, with str.endswith specified by C162_ends_with), so that no fault of another solver changes an outcome (C162_blind). check_estimator itself is scikit-learn's and is a parameter; the cost arguments of the table are left out."
  }
 ]
}