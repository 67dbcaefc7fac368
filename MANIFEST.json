{
 "claims": [
  {
   "property": "C01",
   "status": "proved",
   "theorems": [
    "C01_lhs_in_box",
    "C01_lhs_lower_bound",
    "C01_random_in_box",
    "C01_sobol_in_box",
    "C01_exact_in_box",
    "C01_lhs_upper_bound_refuted"
   ],
   "note": "binary64 model; upper bound for Latin hypercube draws equal to 1 needs lo+(hi-lo)<=hi, refuted otherwise (C01_lhs_upper_bound_refuted)"
  },
  {
   "property": "C02",
   "status": "proved",
   "theorems": [
    "C02_lhs_stratified"
   ],
   "note": "exact arithmetic: scaling carries the unit-cube stratification to the box"
  },
  {
   "property": "C03",
   "status": "proved",
   "theorems": [
    "C03_fix_number"
   ],
   "note": ""
  },
  {
   "property": "C04",
   "status": "proved",
   "theorems": [
    "C04_non_nested_levels",
    "C04_shared_lhs",
    "C04_shared_sobol"
   ],
   "note": ""
  },
  {
   "property": "C05",
   "status": "proved",
   "theorems": [
    "C05_nested_levels"
   ],
   "note": ""
  },
  {
   "property": "C06",
   "status": "proved",
   "theorems": [
    "C06_rule_violation",
    "C06_rule_only"
   ],
   "note": ""
  },
  {
   "property": "C07",
   "status": "proved",
   "theorems": [
    "C07_list_consumed",
    "C07_list_after_failure"
   ],
   "note": ""
  },
  {
   "property": "C08",
   "status": "proved",
   "theorems": [
    "C08_sobol_slices",
    "C08_sobol_prefix"
   ],
   "note": ""
  },
  {
   "property": "C09",
   "status": "proved",
   "theorems": [
    "C09_non_nested_reproducible",
    "C09_sobol_reproducible",
    "C09_random_sampler_reproducible",
    "C09_nested_lhs_refuted"
   ],
   "note": "nested Latin hypercube sampling shown irreproducible by C09_nested_lhs_refuted"
  },
  {
   "property": "C10",
   "status": "proved",
   "theorems": [
    "C10_nested_own_box_refuted",
    "C05_nested_levels"
   ],
   "note": "positive half (all levels lie in the lowest level's box) is C05_nested_levels"
  },
  {
   "property": "C11",
   "status": "proved",
   "theorems": [
    "C11_sobol_too_many",
    "C11_sobol_work"
   ],
   "note": ""
  },
  {
   "property": "C12",
   "status": "proved",
   "theorems": [
    "C12_pso_in_space",
    "C12_pso_no_nan",
    "C12_negative_rate_refuted"
   ],
   "note": "the NaN-free half needs moderate bounds and rates and max_v_rate>=0; C12_negative_rate_refuted shows the last condition is needed"
  },
  {
   "property": "C13",
   "status": "proved",
   "theorems": [
    "C13_de_in_space"
   ],
   "note": ""
  },
  {
   "property": "C14",
   "status": "proved",
   "theorems": [
    "C14_pso_history",
    "C14_de_history"
   ],
   "note": ""
  },
  {
   "property": "C15",
   "status": "proved",
   "theorems": [
    "C15_pso_best",
    "C15_de_best",
    "C15_pso_late_nan_refuted"
   ],
   "note": "C15_pso_late_nan_refuted: the claim fails for PSO if a later generation has a NaN"
  },
  {
   "property": "C16",
   "status": "proved",
   "theorems": [
    "C16_de_selection",
    "C16_de_never_worse"
   ],
   "note": ""
  },
  {
   "property": "C17",
   "status": "proved",
   "theorems": [
    "C17_pso_personal_best"
   ],
   "note": ""
  },
  {
   "property": "C18",
   "status": "proved",
   "theorems": [
    "C18_pso_outputs",
    "C18_de_outputs"
   ],
   "note": ""
  },
  {
   "property": "C19",
   "status": "proved",
   "theorems": [
    "C19_pso_stopping",
    "C19_de_stopping",
    "C19_pso_calls",
    "C19_de_calls",
    "C19_pso_returns",
    "C19_de_returns",
    "C12_pso_in_space",
    "C13_de_in_space"
   ],
   "note": "that each call gets num_pop locations is part of C12_pso_in_space and C13_de_in_space"
  },
  {
   "property": "C20",
   "status": "proved",
   "theorems": [
    "C20_de_donors"
   ],
   "note": ""
  },
  {
   "property": "C21",
   "status": "proved",
   "theorems": [
    "C21_de_trials"
   ],
   "note": ""
  },
  {
   "property": "C22",
   "status": "proved",
   "theorems": [
    "C22_pso_poisoned",
    "C22_de_poisoned"
   ],
   "note": ""
  },
  {
   "property": "C23",
   "status": "proved",
   "theorems": [
    "C23_clamp",
    "C23_binary64_refuted",
    "C23_binary64_bound"
   ],
   "note": "exact arithmetic; C23_binary64_refuted and C23_binary64_bound describe rounding"
  },
  {
   "property": "C24",
   "status": "proved",
   "theorems": [
    "C24_pso_no_generation",
    "C24_de_no_generation",
    "C24_de_rejected"
   ],
   "note": ""
  },
  {
   "property": "C25",
   "status": "proved",
   "theorems": [
    "C25_sf_best"
   ],
   "note": ""
  },
  {
   "property": "C26",
   "status": "proved",
   "theorems": [
    "C26_sf_records",
    "C26_sf_keeps",
    "C26_sf_history"
   ],
   "note": ""
  },
  {
   "property": "C27",
   "status": "proved",
   "theorems": [
    "C27_sf_stopping",
    "C27_cons_stopping",
    "C27_sf_unknown_optimum"
   ],
   "note": ""
  },
  {
   "property": "C28",
   "status": "proved",
   "theorems": [
    "C28_cons_best",
    "C28_cons_history",
    "C28_cons_keeps"
   ],
   "note": ""
  },
  {
   "property": "C29",
   "status": "proved",
   "theorems": [
    "C29_cons_best_x",
    "C29_infeasible_tie_refuted"
   ],
   "note": "C29_infeasible_tie_refuted shows that not every row of best_x is feasible"
  },
  {
   "property": "C30",
   "status": "proved",
   "theorems": [
    "C30_mf_best",
    "C30_mf_low_fidelity"
   ],
   "note": ""
  },
  {
   "property": "C31",
   "status": "proved",
   "theorems": [
    "C31_mf_records",
    "C31_mf_one_fidelity",
    "C31_mf_initial_design"
   ],
   "note": ""
  },
  {
   "property": "C32",
   "status": "proved",
   "theorems": [
    "C32_mf_unknown_optimum",
    "C32_default_tolerance",
    "C32_mf_stopping",
    "C32_mf_stopping_rule",
    "C27_sf_unknown_optimum"
   ],
   "note": ""
  },
  {
   "property": "C33",
   "status": "proved",
   "theorems": [
    "C33_selection"
   ],
   "note": "surrogates lacking the needed attributes are C77"
  },
  {
   "property": "C34",
   "status": "proved",
   "theorems": [
    "C34_user_optimizer",
    "C34_in_space"
   ],
   "note": "that the differential-evolution oracle returns a point of the box is SciPy's contract"
  },
  {
   "property": "C35",
   "status": "proved",
   "theorems": [
    "C35_bases",
    "C35_pairs",
    "C35_order"
   ],
   "note": ""
  },
  {
   "property": "C36",
   "status": "proved",
   "theorems": [
    "C36_correlation",
    "C36_formula",
    "C36_translation"
   ],
   "note": "exact real arithmetic"
  },
  {
   "property": "C37",
   "status": "proved",
   "theorems": [
    "C37_positive_definite"
   ],
   "note": "exact real arithmetic"
  },
  {
   "property": "C38",
   "status": "proved",
   "theorems": [
    "C38_call"
   ],
   "note": ""
  },
  {
   "property": "C39",
   "status": "proved",
   "theorems": [
    "C39_position",
    "C39_batch_differs",
    "C39_jitter",
    "C36_formula"
   ],
   "note": ""
  },
  {
   "property": "C40",
   "status": "proved",
   "theorems": [
    "C40_train_ordinary",
    "C40_train_full_rank",
    "C40_predict"
   ],
   "note": "exact real arithmetic; the box may even be degenerate in the model"
  },
  {
   "property": "C41",
   "status": "proved",
   "theorems": [
    "C41_interpolates"
   ],
   "note": "exact real arithmetic"
  },
  {
   "property": "C42",
   "status": "proved",
   "theorems": [
    "C42_least_squares",
    "C42_data",
    "C42_ordinary_positive"
   ],
   "note": ""
  },
  {
   "property": "C43",
   "status": "proved",
   "theorems": [
    "C43_std"
   ],
   "note": ""
  },
  {
   "property": "C44",
   "status": "proved",
   "theorems": [
    "C44_equivariant",
    "C44_objective"
   ],
   "note": "the same search results are used on both sides; C44_objective shows the searches minimise the same function"
  },
  {
   "property": "C45",
   "status": "proved",
   "theorems": [
    "C45_input_units"
   ],
   "note": "also for decreasing maps"
  },
  {
   "property": "C46",
   "status": "proved",
   "theorems": [
    "C46_unit_cube",
    "C46_inverse",
    "C46_order",
    "C46_corners",
    "C46_responses"
   ],
   "note": ""
  },
  {
   "property": "C47",
   "status": "proved",
   "theorems": [
    "C47_given_noise",
    "C47_learned_once",
    "C47_kernel_only"
   ],
   "note": ""
  },
  {
   "property": "C48",
   "status": "proved",
   "theorems": [
    "C48_best_trial",
    "C48_no_trial"
   ],
   "note": ""
  },
  {
   "property": "C49",
   "status": "proved",
   "theorems": [
    "C49_lbfgs",
    "C49_de",
    "C49_pso"
   ],
   "note": "for L-BFGS-B the bounds of every trial's result are SciPy's contract (hypothesis of C49_lbfgs); for PSO and DE they are proved"
  },
  {
   "property": "C50",
   "status": "proved",
   "theorems": [
    "C50_logp",
    "C50_noise_free_differs"
   ],
   "note": ""
  },
  {
   "property": "C51",
   "status": "proved",
   "theorems": [
    "C51_interpolates",
    "C83_train_iff"
   ],
   "note": "exact real arithmetic; that training succeeds exactly when the scaled predictions are not all zero is C83_train_iff"
  },
  {
   "property": "C52",
   "status": "proved",
   "theorems": [
    "C52_proportional"
   ],
   "note": ""
  },
  {
   "property": "C53",
   "status": "proved",
   "theorems": [
    "C53_predictions",
    "C53_samples",
    "C53_train",
    "C53_same_mean_refuted"
   ],
   "note": "C53_same_mean_refuted: with rho = 2 the two calls disagree at the training inputs"
  },
  {
   "property": "C54",
   "status": "proved",
   "theorems": [
    "C54_quadratic",
    "C54_minimiser",
    "C54_convex",
    "C54_zero"
   ],
   "note": ""
  },
  {
   "property": "C55",
   "status": "proved",
   "theorems": [
    "C55_covariance",
    "C55_trained"
   ],
   "note": "exact real arithmetic"
  },
  {
   "property": "C56",
   "status": "proved",
   "theorems": [
    "C56_history",
    "C56_drift",
    "C57_history"
   ],
   "note": "predict without std returns no new state in the model, so it has no side effect by its type; C57_history covers mixed histories"
  },
  {
   "property": "C57",
   "status": "proved",
   "theorems": [
    "C57_train_divides",
    "C57_history",
    "C57_zero",
    "C57_learned"
   ],
   "note": ""
  },
  {
   "property": "C58",
   "status": "proved",
   "theorems": [
    "C58_density",
    "C58_normal",
    "C58_formula",
    "C58_unique",
    "C58_bounds",
    "C58_monotone",
    "C58_eval",
    "C58_choice",
    "C58_sampled",
    "C58_gaussian_process"
   ],
   "note": "Probabilities and expectations are improper Riemann integrals (Coquelicot). Exact real arithmetic: rounding in norm.cdf/norm.pdf is not modelled; 1e-9 is the decimal number."
  },
  {
   "property": "C59",
   "status": "proved",
   "theorems": [
    "C59_eval",
    "C59_monotone",
    "C59_feasibility",
    "C59_feasibility_monotone",
    "C59_constrained",
    "C59_unconstrained"
   ],
   "note": "Same conventions as C58. Batches of several points with constraints are C88."
  },
  {
   "property": "C60",
   "status": "proved",
   "theorems": [
    "C60_lcb",
    "C60_monotone",
    "C60_sampled",
    "C60_vflcb",
    "C60_hierarchical",
    "C60_scaled"
   ],
   "note": "C60_hierarchical and C60_scaled show that the hypothesis of C60_vflcb holds for every trained model; Co-Kriging predictions change its state (C56) and are not an instance."
  },
  {
   "property": "C61",
   "status": "proved",
   "theorems": [
    "C61_minimum",
    "C61_scheme"
   ],
   "note": "Exact real arithmetic, as for C61 to C73 and C93."
  },
  {
   "property": "C62",
   "status": "proved",
   "theorems": [
    "C62_minimum",
    "C62_attained",
    "C62_unique",
    "C62_declared",
    "C62_dimension_zero"
   ],
   "note": ""
  },
  {
   "property": "C63",
   "status": "proved",
   "theorems": [
    "C63_minimum",
    "C63_minimisers",
    "C63_inside",
    "C63_declared"
   ],
   "note": ""
  },
  {
   "property": "C64",
   "status": "proved",
   "theorems": [
    "C64_one_dimension",
    "C64_declared",
    "C64_beaten",
    "C64_above"
   ],
   "note": ""
  },
  {
   "property": "C65",
   "status": "proved",
   "theorems": [
    "C65_minimum",
    "C65_swapped",
    "C78_list_optimum"
   ],
   "note": "The consequence for the optimiser is C78_list_optimum."
  },
  {
   "property": "C66",
   "status": "proved",
   "theorems": [
    "C66_booth",
    "C66_bohachevsky",
    "C66_himmelblau",
    "C66_inside"
   ],
   "note": ""
  },
  {
   "property": "C67",
   "status": "proved",
   "theorems": [
    "C67_forrester"
   ],
   "note": "Numeric bound by coq-interval (verified interval arithmetic; its Uint63 primitives appear in Print Assumptions)."
  },
  {
   "property": "C68",
   "status": "proved",
   "theorems": [
    "C68_sixhump",
    "C68_sixhump_scheme",
    "C68_sasena"
   ],
   "note": "Numeric bounds by coq-interval."
  },
  {
   "property": "C69",
   "status": "proved",
   "theorems": [
    "C69_hartman3",
    "C69_hartman3_domain",
    "C69_hartman3_scheme",
    "C69_hartman6",
    "C69_hartman6_scheme",
    "C69_hartman6_low"
   ],
   "note": "Numeric bounds by coq-interval."
  },
  {
   "property": "C70",
   "status": "proved",
   "theorems": [
    "C70_borehole",
    "C70_currin",
    "C70_park"
   ],
   "note": "A NaN or infinity from a division by zero or a log is None in the model."
  },
  {
   "property": "C71",
   "status": "proved",
   "theorems": [
    "C71_ackley",
    "C71_thevenot",
    "C71_own",
    "C71_negative",
    "C71_two"
   ],
   "note": ""
  },
  {
   "property": "C72",
   "status": "proved",
   "theorems": [
    "C72_branin1",
    "C72_branin2",
    "C72_objective"
   ],
   "note": "Numeric bounds by coq-interval. The English claim first made for Branin_2 (feasible place) is false of the code; the theorem states what holds instead."
  },
  {
   "property": "C73",
   "status": "proved",
   "theorems": [
    "C73_call",
    "C73_array"
   ],
   "note": ""
  },
  {
   "property": "C74",
   "status": "proved",
   "theorems": [
    "C74_pso_records"
   ],
   "note": ""
  },
  {
   "property": "C75",
   "status": "proved",
   "theorems": [
    "C75_sf_nan",
    "C75_mf_nan"
   ],
   "note": ""
  },
  {
   "property": "C76",
   "status": "proved",
   "theorems": [
    "C76_sf_recovers",
    "C76_mf_recovers_refuted"
   ],
   "note": ""
  },
  {
   "property": "C77",
   "status": "proved",
   "theorems": [
    "C77_unusable_models"
   ],
   "note": ""
  },
  {
   "property": "C78",
   "status": "proved",
   "theorems": [
    "C78_list_optimum"
   ],
   "note": ""
  },
  {
   "property": "C79",
   "status": "proved",
   "theorems": [
    "C79_sobol_points",
    "C79_mf_sobol_points"
   ],
   "note": ""
  },
  {
   "property": "C80",
   "status": "proved",
   "theorems": [
    "C80_sf_completes",
    "C80_cons_completes",
    "C80_mf_completes"
   ],
   "note": "The query with its optimizer, the objectives and the surrogate training are inputs of the theorem; a numeric or missing optimum is assumed (the other attribute shape is C78)."
  },
  {
   "property": "C81",
   "status": "proved",
   "theorems": [
    "C81_high_fidelity",
    "C81_low_fidelity"
   ],
   "note": ""
  },
  {
   "property": "C82",
   "status": "proved",
   "theorems": [
    "C82_scaled_untrained",
    "C82_hierarchical_trained",
    "C82_hierarchical_low",
    "C82_scaled_low",
    "C82_unknown_fidelity"
   ],
   "note": ""
  },
  {
   "property": "C83",
   "status": "proved",
   "theorems": [
    "C83_train_iff",
    "C83_predict",
    "C83_std",
    "C83_noise"
   ],
   "note": ""
  },
  {
   "property": "C84",
   "status": "proved",
   "theorems": [
    "C84_train",
    "C84_predict"
   ],
   "note": ""
  },
  {
   "property": "C85",
   "status": "proved",
   "theorems": [
    "C85_unknown_method",
    "C85_bumpiness_noise",
    "C85_given_noise"
   ],
   "note": "the search over rho is free"
  },
  {
   "property": "C86",
   "status": "proved",
   "theorems": [
    "C86_logp",
    "C86_numeric_noise"
   ],
   "note": ""
  },
  {
   "property": "C87",
   "status": "proved",
   "theorems": [
    "C87_vfei",
    "C87_negative_scale",
    "C87_scale",
    "C87_only_hierarchical"
   ],
   "note": "eps is 2^-52."
  },
  {
   "property": "C88",
   "status": "proved",
   "theorems": [
    "C88_batch"
   ],
   "note": ""
  },
  {
   "property": "C89",
   "status": "proved",
   "theorems": [
    "C89_vflcb",
    "C89_vfei",
    "C89_augmented",
    "C89_extended"
   ],
   "note": ""
  },
  {
   "property": "C90",
   "status": "proved",
   "theorems": [
    "C90_augmented",
    "C90_not_a_number"
   ],
   "note": "None stands for NaN. The reference prediction is predict without return_std, which for scaled Kriging is another mean (C53)."
  },
  {
   "property": "C91",
   "status": "proved",
   "theorems": [
    "C91_extended",
    "C91_crowding",
    "C91_correlations"
   ],
   "note": ""
  },
  {
   "property": "C92",
   "status": "proved",
   "theorems": [
    "C92_nearest",
    "C92_cheap",
    "C92_zero"
   ],
   "note": "The quotient is the exact real quotient; rounding of cost[0]/cost[1] to a float is not modelled."
  },
  {
   "property": "C93",
   "status": "proved",
   "theorems": [
    "C93_forrester",
    "C93_two_dimensions",
    "C93_one_dimension",
    "C93_park",
    "C93_park_positive",
    "C93_discontinuous"
   ],
   "note": ""
  },
  {
   "property": "C94",
   "status": "proved",
   "theorems": [
    "C94_batch",
    "C94_low_fidelity",
    "C94_no_low_fidelity",
    "C94_constraint",
    "C94_no_constraint",
    "C94_numbers",
    "C94_low_numbers"
   ],
   "note": "Arrays of floats of dimension 1 or 2, without rounding. Ackley and Thevenot, whose dimension is a parameter, are C62, C64 and C71."
  },
  {
   "property": "C95",
   "status": "proved",
   "theorems": [
    "C95_domain",
    "C95_dimension",
    "C95_cost",
    "C95_ackley_n2"
   ],
   "note": "Dimensions are integers (None is also accepted by AckleyN2)."
  },
  {
   "property": "C96",
   "status": "proved",
   "theorems": [
    "C96_wide",
    "C96_narrow",
    "C96_point",
    "C96_no_point",
    "C96_hartman",
    "C96_forrester",
    "C96_forrester_vector",
    "C96_flat",
    "C96_ackley_n2"
   ],
   "note": ""
  },
  {
   "property": "C97",
   "status": "proved",
   "theorems": [
    "C97_currin",
    "C97_points"
   ],
   "note": ""
  },
  {
   "property": "C98",
   "status": "proved",
   "theorems": [
    "C98_hartman3",
    "C98_hartman6",
    "C98_currin",
    "C98_currin_attained",
    "C98_currin_decreasing",
    "C98_park_a",
    "C98_park_a_increasing",
    "C98_park_a_corner",
    "C98_park_b",
    "C98_borehole",
    "C98_borehole_range",
    "C98_one_dimension"
   ],
   "note": "Over the real numbers, without rounding."
  },
  {
   "property": "C99",
   "status": "proved",
   "theorems": [
    "C99_entry",
    "C99_positive_definite",
    "C99_positive_definite_refuted"
   ],
   "note": "Error bound for every entry and positive definiteness under an explicit size bound; refuted without a bound on the parameters (C99_positive_definite_refuted)."
  },
  {
   "property": "C100",
   "status": "proved",
   "theorems": [
    "C100_factored",
    "C100_outcome",
    "C100_factored_refuted"
   ],
   "note": "Success of the factorisation with a backward error bound; an outcome always exists; refuted without a bound on the parameters (C100_factored_refuted)."
  },
  {
   "property": "C101",
   "status": "proved",
   "theorems": [
    "C101_unit_interval",
    "C101_bounds",
    "C101_monotone",
    "C101_training_set"
   ],
   "note": "normalize_input in binary64: range, end points, monotonicity, and the consequence for training sets."
  },
  {
   "property": "C102",
   "status": "proved",
   "theorems": [
    "C102_single",
    "C102_dimensions",
    "C102_levels",
    "C102_distinct",
    "C102_many_levels_refuted",
    "C102_delivered"
   ],
   "note": "Axis labels, titles, fonts and matplotlib itself are not modelled; a plot is the list of figure, scatter, save, close and show calls."
  },
  {
   "property": "C103",
   "status": "proved",
   "theorems": [
    "C103_reflexive_symmetric",
    "C103_close",
    "C103_separated",
    "C103_transitive_refuted"
   ],
   "note": "Exact real arithmetic; rounding inside scipy's cdist is not modelled."
  },
  {
   "property": "C104",
   "status": "proved",
   "theorems": [
    "C104_single",
    "C104_pair",
    "C104_constant",
    "C104_constant_refuted",
    "C104_poison"
   ],
   "note": "Any order of summation. NumPy's definitions of mean and std are part of the trusted base. That equal responses always give NaN is refuted (C104_constant_refuted)."
  },
  {
   "property": "C105",
   "status": "proved",
   "theorems": [
    "C105_scaled",
    "C105_second_moment",
    "C105_monotone",
    "C105_restored",
    "C105_mean",
    "C105_std",
    "C105_scaled_refuted"
   ],
   "note": "Any order of summation; up to 2^20 responses of magnitude up to 2^400. Refuted for closer responses (C105_scaled_refuted)."
  },
  {
   "property": "C106",
   "status": "proved",
   "theorems": [
    "C106_exceptions",
    "C106_data_replaced",
    "C106_never_trained",
    "C106_other_size",
    "C106_same_sites",
    "C106_same_sites_std",
    "C106_at_samples",
    "C106_rollback_refuted"
   ],
   "note": "Attributes are modelled one by one; exact arithmetic. That a failed training is undone is refuted (C106_rollback_refuted)."
  },
  {
   "property": "C107",
   "status": "proved",
   "theorems": [
    "C107_same_outcome",
    "C107_same_answers",
    "C107_forgets",
    "C107_agrees"
   ],
   "note": "Searches that return only evaluated points, except C107_forgets, which holds for all."
  },
  {
   "property": "C108",
   "status": "proved",
   "theorems": [
    "C108_stages",
    "C108_other_size",
    "C108_same_sites",
    "C108_rollback_refuted",
    "C108_forgets",
    "C108_agrees"
   ],
   "note": "That a failed training is undone is refuted (C108_rollback_refuted)."
  },
  {
   "property": "C109",
   "status": "proved",
   "theorems": [
    "C109_stages",
    "C109_never_trained",
    "C109_sizes",
    "C109_same_sites",
    "C109_rollback_refuted",
    "C109_agrees"
   ],
   "note": "That a failed training leaves the old model in force is refuted (C109_rollback_refuted)."
  },
  {
   "property": "C110",
   "status": "proved",
   "theorems": [
    "C110_noise",
    "C110_repeated",
    "C110_forgets",
    "C110_zero",
    "C110_disturbed_refuted",
    "C110_learned"
   ],
   "note": "That a failed training does not disturb later ones is refuted (C110_disturbed_refuted); it holds with noise 0 (C110_zero)."
  },
  {
   "property": "C111",
   "status": "proved",
   "theorems": [
    "C111_stages",
    "C111_lf_sizes",
    "C111_unknown_method",
    "C111_disc_sizes",
    "C111_lf_same_sites",
    "C111_disc_same_sites",
    "C111_rollback_refuted"
   ],
   "note": "Default low-fidelity and discrepancy models. That a failed training leaves the old model in force is refuted (C111_rollback_refuted)."
  },
  {
   "property": "C112",
   "status": "proved",
   "theorems": [
    "C112_forgets",
    "C112_agrees",
    "C112_learned",
    "C112_learned_first",
    "C112_noise"
   ],
   "note": "Default low-fidelity and discrepancy models; exact arithmetic."
  },
  {
   "property": "C113",
   "status": "proved",
   "theorems": [
    "C113_objective",
    "C113_equivariant",
    "C113_low_scale",
    "C113_low_origin_refuted"
   ],
   "note": "That adding a constant to the low-fidelity responses alone changes nothing is refuted (C113_low_origin_refuted). The same search results are used on both sides."
  },
  {
   "property": "C114",
   "status": "proved",
   "theorems": [
    "C114_equivariant",
    "C114_error_scale",
    "C114_error_origin_refuted"
   ],
   "note": "That the best rho does not depend on the origin is refuted (C114_error_origin_refuted). The same search results are used on both sides."
  },
  {
   "property": "C115",
   "status": "proved",
   "theorems": [
    "C115_equivariant",
    "C115_objective",
    "C115_objective_refuted"
   ],
   "note": "That the objective does not depend on the unit is refuted for a numeric noise (C115_objective_refuted). The same search results are used on both sides."
  },
  {
   "property": "C116",
   "status": "proved",
   "theorems": [
    "C116_hierarchical",
    "C116_scaled",
    "C116_cokriging"
   ],
   "note": ""
  },
  {
   "property": "C117",
   "status": "proved",
   "theorems": [
    "C117_concentrated",
    "C117_unit_variance",
    "C117_maximum",
    "C117_maximum_ordinary",
    "C117_value",
    "C117_ranking_refuted"
   ],
   "note": "That the search ranks hyper-parameters by the likelihood of the fitted model is refuted for a learned noise (C117_ranking_refuted)."
  },
  {
   "property": "C118",
   "status": "proved",
   "theorems": [
    "C118_hierarchical_concentrated",
    "C118_hierarchical_unit_variance",
    "C118_hierarchical_maximum",
    "C118_low_fidelity",
    "C118_cokriging_concentrated",
    "C118_cokriging_unit_variance",
    "C118_cokriging_maximum",
    "C118_cokriging_mean"
   ],
   "note": ""
  },
  {
   "property": "C119",
   "status": "proved",
   "theorems": [
    "C119_objective",
    "C119_order",
    "C119_failure",
    "C119_first_rows_refuted"
   ],
   "note": "Exact independence of the order is refuted for the first rows of a batch (C119_first_rows_refuted). The same search results are used on both sides."
  },
  {
   "property": "C120",
   "status": "proved",
   "theorems": [
    "C120_gaussian_process",
    "C120_bases",
    "C120_hierarchical",
    "C120_cokriging"
   ],
   "note": "That the standard deviation of Co-Kriging is the error of its own prediction is false; C120_cokriging states what it is instead."
  },
  {
   "property": "C121",
   "status": "proved",
   "theorems": [
    "C121_uncertainty",
    "C121_no_surprise"
   ],
   "note": "The correlation parameters (and the noise ratio) are assumed to be the same in both trainings."
  },
  {
   "property": "C122",
   "status": "proved",
   "theorems": [
    "C122_pso",
    "C122_de",
    "C122_power_of_two",
    "C122_constant_refuted"
   ],
   "note": "That adding a constant to the objective changes nothing is refuted (C122_constant_refuted)."
  },
  {
   "property": "C123",
   "status": "proved",
   "theorems": [
    "C123_gaussian_process",
    "C123_hierarchical",
    "C123_lcb",
    "C123_vflcb",
    "C123_ei_origin",
    "C123_cei_origin",
    "C123_ei",
    "C123_vfei_origin",
    "C123_vfei",
    "C123_pi",
    "C123_pi_refuted",
    "C123_aei",
    "C123_epi",
    "C123_threshold_refuted"
   ],
   "note": "That the probability of improvement does not depend on the unit is refuted (C123_pi_refuted), so is that augmented expected improvement does not (C123_threshold_refuted)."
  },
  {
   "property": "C124",
   "status": "proved",
   "theorems": [
    "C124_pso",
    "C124_de",
    "C124_torn_refuted",
    "C124_pso_calls",
    "C124_de_calls",
    "C124_pso_lines",
    "C124_de_lines",
    "C124_pso_plot",
    "C124_de_plot",
    "C124_curve_refuted"
   ],
   "note": "That the file always holds the last finished generation is refuted (C124_torn_refuted), so is that the plotted curve only shows observed values (C124_curve_refuted)."
  },
  {
   "property": "C125",
   "status": "proved",
   "theorems": [
    "C125_samples",
    "C125_once",
    "C125_learned",
    "C125_learned_refuted",
    "C125_failed",
    "C125_retry_refuted",
    "C125_untrained"
   ],
   "note": "With a noise to be learned the equality with one training is refuted (C125_learned_refuted); that a failed call can be repeated is refuted (C125_retry_refuted)."
  },
  {
   "property": "C126",
   "status": "proved",
   "theorems": [
    "C126_gaussian_process",
    "C126_trend",
    "C126_hierarchical",
    "C126_cokriging"
   ],
   "note": "That the standard deviation of Co-Kriging approaches the error of the prediction is false; C126_cokriging states what it approaches and what is missing."
  },
  {
   "property": "C127",
   "status": "proved",
   "theorems": [
    "C127_flat",
    "C127_single",
    "C127_not_finite",
    "C127_default_raises",
    "C127_trained",
    "C127_trained_means",
    "C127_after",
    "C127_always_raises",
    "C127_given_noise",
    "C127_learned_noise",
    "C127_kept",
    "C127_as_given",
    "C127_poisoned",
    "C127_poisoned_std"
   ],
   "note": "C127_always_raises, C127_given_noise and C127_poisoned assume a factorisation that raises at a NaN pivot, as LAPACK's dpotrf does; the other theorems assume nothing about it. Constant responses whose computed mean differs from them are C104_constant."
  },
  {
   "property": "C128",
   "status": "proved",
   "theorems": [
    "C128_noise",
    "C128_exceptions",
    "C128_always_raises",
    "C128_trained",
    "C128_after",
    "C128_after_std",
    "C128_stops",
    "C128_ruined",
    "C128_single",
    "C127_flat",
    "C127_single",
    "C127_not_finite"
   ],
   "note": "C128_always_raises, C128_stops and C128_ruined assume a factorisation that raises at a NaN pivot, as LAPACK's dpotrf does; the other theorems do not."
  },
  {
   "property": "C129",
   "status": "proved",
   "theorems": [
    "C129_spread",
    "C129_infinite",
    "C129_after",
    "C129_unnoticed",
    "C129_silent",
    "C129_learned_raises",
    "C129_learned_noise",
    "C129_learned_ruined",
    "C129_ck_after",
    "C129_ck_noise",
    "C129_ck_gone",
    "C129_ck_std",
    "C129_ck_ruined"
   ],
   "note": "C129_learned_raises, C129_learned_ruined and C129_ck_ruined assume a factorisation that raises at a NaN pivot, as LAPACK's dpotrf does. C129_unnoticed assumes that whether numpy.linalg.solve raises depends on its matrix only."
  },
  {
   "property": "C130",
   "status": "proved",
   "theorems": [
    "C130_exceptions",
    "C130_high_raises",
    "C130_high_stops",
    "C130_learned_zero",
    "C130_kept",
    "C130_after",
    "C130_low_after",
    "C130_low_raises",
    "C130_low_learned",
    "C130_low_ruined",
    "C127_flat",
    "C127_single",
    "C127_not_finite",
    "C129_spread",
    "C129_infinite"
   ],
   "note": "C130_high_raises, C130_high_stops, C130_low_raises and C130_low_ruined assume a factorisation that raises at a NaN pivot, as LAPACK's dpotrf does; the other theorems do not."
  },
  {
   "property": "C131",
   "status": "proved",
   "theorems": [
    "C131_exceptions",
    "C131_single",
    "C131_not_finite",
    "C131_agree",
    "C131_flat",
    "C131_low",
    "C131_high_after",
    "C131_low_after",
    "C131_learned",
    "C131_kept",
    "C131_ruined",
    "C127_flat",
    "C127_single",
    "C127_not_finite",
    "C129_spread",
    "C129_infinite"
   ],
   "note": "C131_single, C131_not_finite, C131_agree, C131_flat, C131_low and C131_ruined assume a factorisation that raises at a NaN pivot, as LAPACK's dpotrf does; the other theorems do not."
  },
  {
   "property": "C132",
   "status": "proved",
   "theorems": [
    "C132_ei",
    "C132_pi",
    "C132_lcb",
    "C132_vflcb_high",
    "C132_vflcb_low",
    "C132_cei_finite",
    "C132_cei_poisoned",
    "C132_vfei_high",
    "C132_vfei_low",
    "C132_aei_high",
    "C132_aei_low",
    "C132_epi_high",
    "C132_epi_low",
    "C132_sample",
    "C132_ruined"
   ],
   "note": "norm.cdf, norm.pdf and np.prod are arguments with the contracts normal_kind and prod_of; finite numbers are assumed to be at most 2^300 in size. For augmented expected improvement C132_overflow shows that the condition on the distance of the means is needed."
  },
  {
   "property": "C133",
   "status": "proved",
   "theorems": [
    "C133_ei",
    "C133_choice",
    "C133_pi",
    "C133_lcb",
    "C133_cei",
    "C133_vfei",
    "C133_aei",
    "C133_lcb_order",
    "C133_pi_order"
   ],
   "note": "The error of norm.cdf and norm.pdf is the parameter e (normal_near); finite numbers are at most 2^300 in size. The order statement for the probability of improvement assumes a monotone norm.cdf (cdf_ordered)."
  },
  {
   "property": "C134",
   "status": "proved",
   "theorems": [
    "C134_near_lhs",
    "C134_near_random",
    "C134_near_sobol",
    "C134_order",
    "C134_strata",
    "C134_apart",
    "C134_strata_exact_refuted",
    "C134_levels",
    "C134_last_level",
    "C134_nested_refuted"
   ],
   "note": "Stratification of the unit-cube draws is a hypothesis about SciPy's engine (one_per_stratum, stratifies) for the sample counts used. Two parts of the naive expectation are refuted: C134_strata_exact_refuted and C134_nested_refuted."
  },
  {
   "property": "C135",
   "status": "proved",
   "theorems": [
    "C135_accurate"
   ],
   "note": "The summation, dot product and exponential contracts are those of C108 (any order of summation; exp_ok). Weights are finite with a total size of at most 2^500, responses at most 2^400."
  },
  {
   "property": "C136",
   "status": "proved",
   "theorems": [
    "C136_samples",
    "C136_interpolates",
    "C136_any_order_refuted"
   ],
   "note": "numpy.linalg.solve is assumed to be backward stable with a parameter eps (backward_stable), numpy.linalg.cholesky to have a small residual (cholesky64) and zeros above the diagonal (lower_factor). That interpolation does not depend on the order of the batch is refuted (C136_any_order_refuted)."
  },
  {
   "property": "C137",
   "status": "proved",
   "theorems": [
    "C137_zero",
    "C137_finite",
    "C137_any_order_refuted"
   ],
   "note": "The basis function is that of Ordinary (p = 1). Hypotheses about the trained object, besides those of C136: the factor of the trend is finite, and the process variance is finite and not negative. std_size bounds the data set; C137_zero does not exclude a standard deviation that is not finite (the solver may overflow). C137_finite does, for a solver that raises rather than return a NaN or an infinity (contract finite_solutions) and a process variance up to 2^900; it needs no hypothesis on the factor of the trend. That the order of the batch does not matter is refuted (C137_any_order_refuted)."
  },
  {
   "property": "C138",
   "status": "proved",
   "theorems": [
    "C138_gaussian_process",
    "C138_scaled_kriging",
    "C138_hierarchical_kriging",
    "C138_co_kriging",
    "C138_gaussian_process_noise_refuted"
   ],
   "note": "For all object states, also ones no training produces, and for all results of NumPy's sum, dot, exp and linalg.solve. That a Gaussian process predicts at least its noise is refuted (C138_gaussian_process_noise_refuted)."
  }
 ]
}