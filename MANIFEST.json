{
 "claims": [
  {
   "property": "C01",
   "status": "proved",
   "theorems": [
    "C01_rows_to_obs",
    "C01_row_unique_column"
   ],
   "note": ""
  },
  {
   "property": "C02",
   "status": "proved",
   "theorems": [
    "C02_rows_to_alts",
    "C02_column_independent_of_row_order"
   ],
   "note": ""
  },
  {
   "property": "C03",
   "status": "proved",
   "theorems": [
    "C03_chosen_row_to_obs",
    "C03_one_per_column"
   ],
   "note": ""
  },
  {
   "property": "C04",
   "status": "proved",
   "theorems": [
    "C04_rows_to_nests",
    "C04_missing_alternative_is_an_error"
   ],
   "note": ""
  },
  {
   "property": "C05",
   "status": "partial",
   "theorems": [
    "C05_accepts_only_contiguous",
    "C05_estimation_sees_whole_observations",
    "C05_accepts_exactly_nondecreasing",
    "C05_refuted_rejects_contiguous_column"
   ],
   "note": "the first half is proved; the second half (accepts every contiguous column) is false: contiguous blocks in decreasing id order are rejected. The second theorem says exactly what is accepted"
  },
  {
   "property": "C06",
   "status": "partial",
   "theorems": [
    "C06_accepted_and_at_most_one",
    "C06_one_choice_is_accepted",
    "C06_refuted_total_only"
   ],
   "note": "false as stated: only totals are compared. Proved when no observation has two chosen rows, and the converse"
  },
  {
   "property": "C07",
   "status": "proved",
   "theorems": [
    "C07_design_matrix_content",
    "C07_number_of_columns"
   ],
   "note": ""
  },
  {
   "property": "C08",
   "status": "partial",
   "theorems": [
    "C08_as_many_names_as_columns",
    "C08_names_line_up_in_same_order",
    "C08_refuted_names_misaligned"
   ],
   "note": "false as stated: the names dictionary may list its keys in another order than the specification. Proved when the key orders agree"
  },
  {
   "property": "C09",
   "status": "proved",
   "theorems": [
    "C09_specification_validator_exact",
    "C09_error_kind"
   ],
   "note": ""
  },
  {
   "property": "C10",
   "status": "partial",
   "theorems": [
    "C10_wide_to_long",
    "C10_rows_are_ordered",
    "C10_refuted_dictionary_order"
   ],
   "note": "proved when the availability dictionary lists alternatives in increasing id order and availabilities are 0/1; false as stated because the code pairs dictionary order with sorted ids"
  },
  {
   "property": "C100",
   "status": "proved",
   "theorems": [
    "C100_hessian_negative_definite",
    "C100_unidentified_hessian_is_singular",
    "C100_standard_errors_are_positive",
    "C100_no_fit_completes_when_unidentified",
    "C100_fit_completes_when_identified"
   ],
   "note": "exact real arithmetic: scipy.linalg.inv is a parameter that returns an inverse (sound_numerics) and, for the last theorem, finds one when it exists"
  },
  {
   "property": "C101",
   "status": "proved",
   "theorems": [
    "C101_same_probabilities",
    "C101_log_likelihood_and_derivatives",
    "C101_change_of_units",
    "C101_mnl_estimates_change_units"
   ],
   "note": "statements about the log-likelihood and its derivatives are without ridge penalty, which is not invariant"
  },
  {
   "property": "C102",
   "status": "proved",
   "theorems": [
    "C102_utilities_shift_together",
    "C102_same_probabilities",
    "C102_same_log_likelihood",
    "C102_every_vector_has_a_counterpart"
   ],
   "note": "utilities within the clipping bounds under both references"
  },
  {
   "property": "C103",
   "status": "proved",
   "theorems": [
    "C103_same_probabilities",
    "C103_log_likelihood_adds_up",
    "C103_gradient_adds_up",
    "C103_hessian_adds_up",
    "C103_bhhh_adds_up"
   ],
   "note": "weights constant within observations for the Hessian, and not negative for the BHHH matrix"
  },
  {
   "property": "C104",
   "status": "proved",
   "theorems": [
    "C104_utilities",
    "C104_never_the_wrong_way",
    "C104_better_row_gains",
    "C104_positive_coefficient",
    "C104_nested",
    "C104_mixed",
    "C104_refuted_mixed_variable"
   ],
   "note": "For a mixed variable a positive mean coefficient is not enough (C104_refuted_mixed_variable); the condition in the statement is on the utility at every draw."
  },
  {
   "property": "C105",
   "status": "proved",
   "theorems": [
    "C105_zero_coefficients",
    "C105_more_variables_never_fit_worse",
    "C105_scobit_and_uneven_contain_mnl",
    "C105_asym_contains_mnl"
   ],
   "note": "asymmetric logit: without ridge penalty and within the clipping bounds"
  },
  {
   "property": "C106",
   "status": "proved",
   "theorems": [
    "C106_penalty_shrinks",
    "C106_penalty_against_none"
   ],
   "note": ""
  },
  {
   "property": "C107",
   "status": "proved",
   "theorems": [
    "C107_rho_squared",
    "C107_mnl_rho_squared_in_unit_interval"
   ],
   "note": "the optimizer is a parameter that keeps the length of the vector and reports the objective at the point it returns; no weights"
  },
  {
   "property": "C108",
   "status": "proved",
   "theorems": [
    "C108_order_of_draws"
   ],
   "note": ""
  },
  {
   "property": "C109",
   "status": "proved",
   "theorems": [
    "C109_sign_of_sigma",
    "C109_symmetric_draws"
   ],
   "note": ""
  },
  {
   "property": "C11",
   "status": "partial",
   "theorems": [
    "C11_rows_choices_and_individual_variables",
    "C11_availability",
    "C11_alternative_specific_cells",
    "C11_accepts_well_formed_data",
    "C11_refuted_interleaved_rows"
   ],
   "note": "availability and alternative-specific cells proved for every accepted dataset; the choice column only when each observation's rows are contiguous, otherwise false (last theorem)"
  },
  {
   "property": "C110",
   "status": "proved",
   "theorems": [
    "C110_order_of_nests"
   ],
   "note": ""
  },
  {
   "property": "C111",
   "status": "proved",
   "theorems": [
    "C111_design_of_the_bootstrap_table",
    "C111_bootstrap_table_is_weighting",
    "C111_bootstrap_curvature",
    "C111_nested_bootstrap_table_is_weighting",
    "C111_refuted_lost_alternative"
   ],
   "note": "The condition that every alternative is still offered is needed: C111_refuted_lost_alternative shows draws of the sampler after which the same specification is rejected."
  },
  {
   "property": "C112",
   "status": "proved",
   "theorems": [
    "C112_order_of_the_rows",
    "C112_nested_order_of_the_rows",
    "C112_mixed_order_of_the_rows",
    "C112_mixed_same_seed",
    "C112_refuted_mixed_same_seed"
   ],
   "note": "Weights are the same within an observation (unit) and not negative. The nested and mixed Hessian is the BHHH matrix, as in the code. For the mixed logit the condition on the draws is needed: C112_refuted_mixed_same_seed."
  },
  {
   "property": "C113",
   "status": "proved",
   "theorems": [
    "C113_odds_within_a_nest",
    "C113_odds_between_nests",
    "C113_proportional_substitution",
    "C113_mixed_odds_depend_on_others"
   ],
   "note": "Odds under the logit types are C20."
  },
  {
   "property": "C114",
   "status": "partial",
   "theorems": [
    "C114_printed_right_after_a_fit",
    "C114_printed_until_the_next_completed_fit",
    "C114_print_needs_a_completed_fit",
    "C114_report_without_statsmodels",
    "C114_refuted_report_mixes_fits",
    "C114_refuted_report_after_failed_first_fit"
   ],
   "note": "Proved for print_summaries over all histories, and for get_statsmodels_summary right after a completed fit. False for get_statsmodels_summary after a fit that raised while storing its results: it mixes two fits (C114_refuted_report_mixes_fits), or fails with AttributeError where it should say that the model has not been estimated (C114_refuted_report_after_failed_first_fit)."
  },
  {
   "property": "C115",
   "status": "proved",
   "theorems": [
    "C115_pickle_file_name",
    "C115_same_file"
   ],
   "note": "The pickle format itself is not modelled."
  },
  {
   "property": "C116",
   "status": "proved",
   "theorems": [
    "C116_accepts_exactly_finite_numbers",
    "C116_rejects_with_value_error",
    "C116_design_of_a_model_is_finite"
   ],
   "note": "Cells of other dtypes (strings, dates, objects) are not modelled beyond being refused."
  },
  {
   "property": "C117",
   "status": "proved",
   "theorems": [
    "C117_gaps_do_not_spread",
    "C117_gap_spoils_its_observation",
    "C117_infinite_utilities_are_clipped"
   ],
   "note": "Conditional logit, one vector of coefficients. Finite numbers are exact reals; NaN and infinities follow IEEE rules."
  },
  {
   "property": "C118",
   "status": "proved",
   "theorems": [
    "C118_same_seed_same_result",
    "C118_seed_argument_is_np_random_seed",
    "C118_later_draws_repeat",
    "C118_refused_seed",
    "C118_numbers_used",
    "C118_samples_are_covered"
   ],
   "note": "The generator is any state machine that yields numbers one after the other; that numpy fills arrays row by row is part of the model. C118_samples_are_covered links the generator to the bootstrap model of C55, C56, C83 and C111."
  },
  {
   "property": "C119",
   "status": "partial",
   "theorems": [
    "C119_same_rows_same_seed",
    "C119_refuted_other_people"
   ],
   "note": "False as stated: the draws of the second random coefficient start after those of all people for the first, so their position depends on the number of people. Proved for one random coefficient or equally many people."
  },
  {
   "property": "C12",
   "status": "proved",
   "theorems": [
    "C12_round_trip"
   ],
   "note": ""
  },
  {
   "property": "C120",
   "status": "proved",
   "theorems": [
    "C120_gradient_points_along_the_separation",
    "C120_no_stationary_point",
    "C120_likelihood_increases_along_the_separation",
    "C120_no_maximum",
    "C120_no_fit_reaches_a_stationary_point"
   ],
   "note": "Real arithmetic. The gradient statements hold also where utilities are clipped; the statements about the value of the log-likelihood are over the region where they are not."
  },
  {
   "property": "C121",
   "status": "proved",
   "theorems": [
    "C121_penalty_bounds_the_parameters",
    "C121_penalised_estimates_lie_in_a_ball",
    "C121_reported_parameters_are_bounded",
    "C121_nested_penalty_bounds_the_parameters",
    "C121_mixed_penalty_bounds_the_parameters"
   ],
   "note": "The nested logit penalises (nest coefficient - 1) squared and the index coefficients; the bound is on that sum. Mixed logit: two or more draws."
  },
  {
   "property": "C122",
   "status": "proved",
   "theorems": [
    "C122_computed_probabilities_are_numbers_in_the_unit_interval",
    "C122_computed_probabilities_are_accurate",
    "C122_computed_probabilities_sum_to_one",
    "C122_computed_probabilities_follow_the_model",
    "C122_refuted_for_many_rows"
   ],
   "note": "The exponential is an oracle with a bounded relative error on [-700, 700]; the correctly rounded one is shown to qualify. The limit on the number of rows is needed: with 2^19 or more rows at the upper limit the denominator overflows and all probabilities become 1e-300 (C122_refuted_for_many_rows)."
  },
  {
   "property": "C123",
   "status": "partial",
   "theorems": [
    "C123_computed_ranking_follows_utilities",
    "C123_refuted_computed_ranking",
    "C123_refuted_computed_monotonicity"
   ],
   "note": "False as stated: a ratio that underflows is replaced by 1e-300, which is larger than the subnormal probability of a better alternative. Proved for a monotone exponential except when the larger probability is below 1e-300 and the smaller was replaced."
  },
  {
   "property": "C124",
   "status": "proved",
   "theorems": [
    "C124_computed_log_likelihood_is_accurate",
    "C124_computed_log_likelihood_is_finite",
    "C124_refuted_log_of_an_unlikely_choice"
   ],
   "note": "Without weights and penalty. With respect to the exact probabilities the logarithm may be far off: a chosen row whose probability underflows counts as log(1e-300) (C124_refuted_log_of_an_unlikely_choice)."
  },
  {
   "property": "C125",
   "status": "proved",
   "theorems": [
    "C125_transformed_utilities_are_defined",
    "C125_transformed_utilities_are_numbers",
    "C125_infinite_utilities_with_a_case",
    "C125_log_likelihood_is_finite",
    "C125_refuted_infinite_utilities"
   ],
   "note": "exp, log, log1p and power are oracles with sign and range requirements that the correctly rounded functions meet. Systematic utilities are inputs (rounding and overflow of design times parameters is not modelled; an overflowing product is an infinite utility, for which the uneven and asymmetric logit can give NaN: C125_refuted_infinite_utilities)."
  },
  {
   "property": "C126",
   "status": "partial",
   "theorems": [
    "C126_clog_log_below_minus_38",
    "C126_scobit_above_38",
    "C126_refuted_clog_log_probabilities",
    "C126_refuted_scobit_probabilities",
    "C126_clog_log_is_accurate",
    "C126_scobit_is_accurate",
    "C126_uneven_logit_is_accurate",
    "C126_asym_is_accurate"
   ],
   "note": "False as stated: clog-log utilities of -38 or less are all transformed to -1e300, scobit utilities of 38 or more all to 1e300, so an observation with such utilities gets equal probabilities. Elsewhere the error of a computed transformed utility is bounded, for all four asymmetric models: the bound for clog-log grows like 1+exp(-v), that for scobit like 1 + 1/ln((1+exp(-v))^shape), that for the asymmetric logit like (1+|v|)/(1-c); that for the uneven logit does not grow."
  },
  {
   "property": "C127",
   "status": "proved",
   "theorems": [
    "C127_multinomial_logit_in_figures",
    "C127_multinomial_logit_probabilities",
    "C127_computed_utilities_are_accurate",
    "C127_log_likelihood_follows_the_model"
   ],
   "note": "The first theorem is the statement; the others give the bounds for any number of parameters up to 2^20, any magnitude up to 2^1000 and any accuracy of exp and log. Without weights and penalty."
  },
  {
   "property": "C128",
   "status": "proved",
   "theorems": [
    "C128_natural_shapes_are_accurate",
    "C128_uneven_rows",
    "C128_clog_rows",
    "C128_scobit_rows",
    "C128_asym_rows",
    "C128_probabilities",
    "C128_log_likelihood",
    "C128_rows_in_figures",
    "C128_probabilities_in_figures"
   ],
   "note": "Unweighted, without ridge penalty. np.exp, np.log, np.log1p, np.power are oracles with a relative error bound; correctly rounded functions are shown to satisfy it."
  },
  {
   "property": "C129",
   "status": "partial",
   "theorems": [
    "C129_nested_probabilities_are_accurate",
    "C129_nested_probabilities_sum_to_one",
    "C129_nested_probabilities_follow_the_model",
    "C129_nested_probabilities_in_figures",
    "C129_refuted_probabilities_above_ten_million",
    "C129_refuted_high_utilities_of_a_nest_are_not_told_apart",
    "C129_refuted_ranking_within_a_nest"
   ],
   "note": "False for utilities that are several hundred nest coefficients away from zero, which the code's guards replace one by one: computed probabilities above ten million, equal probabilities, reversed ranking (refuted_ theorems). Proved up to 600 nest coefficients from computed utilities, 500 from the data."
  },
  {
   "property": "C13",
   "status": "proved",
   "theorems": [
    "C13_accepted_specifications_are_partitions",
    "C13_every_row_gets_its_nest"
   ],
   "note": ""
  },
  {
   "property": "C130",
   "status": "proved",
   "theorems": [
    "C130_objective_is_accurate",
    "C130_logit_objective_follows_the_model",
    "C130_logit_objective_in_figures",
    "C130_nested_objective_follows_the_model",
    "C130_nested_objective_in_figures"
   ],
   "note": "Chosen probabilities of at least 10^-280, utilities and shapes in the range of C128 and C129, weights up to 2^900, penalty below 2^1000."
  },
  {
   "property": "C131",
   "status": "proved",
   "theorems": [
    "C131_gradient_entry_is_accurate",
    "C131_logit_gradient_follows_the_model",
    "C131_logit_gradient_in_figures",
    "C131_mnl_gradient_is_the_derivative",
    "C131_intercept_gradient_in_figures"
   ],
   "note": "At most 2^20 rows, weights and columns up to 2^400, utilities and shapes in the range of C128. The error of a computed column of derivatives is a parameter of the general theorems; it is zero for the design columns of a multinomial logit and for intercepts."
  },
  {
   "property": "C132",
   "status": "proved",
   "theorems": [
    "C132_clog_derivative",
    "C132_scobit_derivative",
    "C132_scobit_shape_derivative",
    "C132_uneven_derivative",
    "C132_asym_derivatives",
    "C132_rates_are_accurate",
    "C132_shape_columns_are_accurate",
    "C132_columns_are_accurate",
    "C132_gradient_in_figures",
    "C132_gradient_is_the_derivative",
    "C132_refuted_scobit_small_shapes",
    "C132_refuted_clog_near_minus_37"
   ],
   "note": "At most 2^20 rows and 100 coefficients, utilities up to 6, shape parameters up to 1, intercepts up to 1000, design up to 2^300, weights up to 2^400. For the asymmetric model the computed utility must be on the same side of zero as the exact one, as the derivative jumps there (same_side; implied by utilities not within rounding of zero). The two refuted theorems show wrong derivatives outside the range."
  },
  {
   "property": "C133",
   "status": "partial",
   "theorems": [
    "C133_utility_derivatives_are_numbers",
    "C133_shape_derivatives_are_defined",
    "C133_refuted_scobit_shape_derivative",
    "C133_refuted_scobit_gradient_is_defined"
   ],
   "note": "Proved for the derivative in the utility of every model and for the shape derivatives of the uneven and the asymmetric model. False for the shape derivative of the scobit model: for utilities between -700 and -11 and shape parameters between 5 and 700 it is undefined and so is the gradient; for other ranges it is a number far from the derivative."
  },
  {
   "property": "C134",
   "status": "proved",
   "theorems": [
    "C134_scobit_large_utilities",
    "C134_scobit_low_utilities",
    "C134_clog_low_utilities",
    "C134_clog_large_utilities",
    "C134_uneven_extreme_utilities",
    "C134_uneven_infinite_utilities"
   ],
   "note": "With a correctly rounded np.exp, np.power and np.log1p. Shape parameters: scobit -700 to 10 (large utilities) and -3 to 700 (low utilities), uneven 0 to 10. Clog-log up to a utility of 690. The scobit shape derivative for low utilities is wrong (C133)."
  },
  {
   "property": "C135",
   "status": "proved",
   "theorems": [
    "C135_aic_is_rounded_once",
    "C135_criteria_keep_the_order",
    "C135_rho_squared",
    "C135_standard_errors",
    "C135_t_statistics",
    "C135_p_values",
    "C135_confidence_intervals",
    "C135_intervals_and_t_statistics_agree"
   ],
   "note": "norm.sf is an oracle assumed to be decreasing with values between 0 and 1/2; np.log(nobs) any number between 0 and 1000; np.sqrt is correctly rounded as IEEE requires. The null log-likelihood is below zero."
  },
  {
   "property": "C136",
   "status": "proved",
   "theorems": [
    "C136_simulated_probability_is_a_number",
    "C136_simulated_probability_is_accurate",
    "C136_mixed_objective_is_accurate",
    "C136_mixed_log_likelihood_follows_the_model",
    "C136_refuted_flat_for_unlikely_sequences",
    "C136_refuted_order_of_unlikely_sequences"
   ],
   "note": "The accuracy does not extend to less likely sequences: below exp(-750) the computed value no longer depends on the probabilities, and it exceeds that of more likely sequences (the two refuted theorems, finding 63). np.exp and np.log are oracles with a relative error."
  },
  {
   "property": "C137",
   "status": "proved",
   "theorems": [
    "C137_bic",
    "C137_rho_squared",
    "C137_standard_error",
    "C137_t_statistic",
    "C137_p_value",
    "C137_confidence_interval",
    "C135_aic_is_rounded_once"
   ],
   "note": "np.log of the number of observations is any number with a relative error; norm.sf and the critical value are oracles."
  },
  {
   "property": "C138",
   "status": "proved",
   "theorems": [
    "C138_draw_weights_are_numbers",
    "C138_draw_weights_are_accurate",
    "C138_gradient_entry_is_accurate",
    "C138_gradient_before_ridge_is_accurate",
    "C138_gradient_is_accurate",
    "C138_refuted_equal_weights_for_unlikely_sequences"
   ],
   "note": "The accuracy does not extend to less likely sequences: below exp(-750) every draw gets the same weight (refuted theorem, finding 64). np.exp and np.log are oracles with a relative error."
  },
  {
   "property": "C139",
   "status": "proved",
   "theorems": [
    "C139_data_source",
    "C139_only_the_named_file_is_read",
    "C139_path_and_table_give_the_same_design"
   ],
   "note": "pandas' reader is a parameter; the same path is assumed to give the same result within one call."
  },
  {
   "property": "C14",
   "status": "proved",
   "theorems": [
    "C14_split_is_lossless",
    "C14_nested_split_is_lossless"
   ],
   "note": ""
  },
  {
   "property": "C15",
   "status": "partial",
   "theorems": [
    "C15_parameter_table",
    "C15_blocks",
    "C15_storing_succeeds",
    "C15_table_is_the_optimizers_point",
    "C15_bootstrap_names",
    "C15_bootstrap_slices",
    "C15_default_names_are_distinct",
    "C15_refuted_bootstrap_names_with_defaults"
   ],
   "note": "the fitted table: proved. The bootstrap code's name list agrees with it when the optional blocks were named by the user; with default names it leaves them out (last theorem)"
  },
  {
   "property": "C16",
   "status": "partial",
   "theorems": [
    "C16_nothing_requested_raises",
    "C16_logit_returns_what_is_requested",
    "C16_nested_single_requests",
    "C16_refuted_nested_both",
    "C16_mixed_single_requests",
    "C16_refuted_mixed_both"
   ],
   "note": "true of the five logit-type models; with both arrays requested nested predict returns only long_probs and mixed predict always raises"
  },
  {
   "property": "C17",
   "status": "proved",
   "theorems": [
    "C17_probabilities_sum_to_one"
   ],
   "note": "for every utility transform, in exact real arithmetic"
  },
  {
   "property": "C18",
   "status": "proved",
   "theorems": [
    "C18_probabilities_positive",
    "C18_probabilities_below_one"
   ],
   "note": ""
  },
  {
   "property": "C19",
   "status": "proved",
   "theorems": [
    "C19_chosen_probs_are_long_probs"
   ],
   "note": ""
  },
  {
   "property": "C20",
   "status": "proved",
   "theorems": [
    "C20_odds_depend_on_own_utilities",
    "C20_independence_of_irrelevant_alternatives",
    "C20_mnl_common_shift"
   ],
   "note": ""
  },
  {
   "property": "C21",
   "status": "proved",
   "theorems": [
    "C21_row_order_and_labels",
    "C21_log_likelihood_unchanged"
   ],
   "note": ""
  },
  {
   "property": "C22",
   "status": "proved",
   "theorems": [
    "C22_scobit_at_zero_shape_is_mnl",
    "C22_uneven_at_zero_shape_is_mnl",
    "C22_asym_at_zero_shape_is_scaled_mnl"
   ],
   "note": "outside intercepts become ordinary alternative-specific constants of the MNL; the asymmetric case needs unclipped utilities because the two models differ by a common shift ln J"
  },
  {
   "property": "C23",
   "status": "proved",
   "theorems": [
    "C23_natural_shapes_are_probabilities",
    "C23_natural_shapes_injective"
   ],
   "note": ""
  },
  {
   "property": "C24",
   "status": "proved",
   "theorems": [
    "C24_log_likelihood_sum",
    "C24_log_likelihood_nonpositive"
   ],
   "note": ""
  },
  {
   "property": "C25",
   "status": "proved",
   "theorems": [
    "C25_mnl_gradient"
   ],
   "note": "under: utilities strictly within the +-700 clip, one choice per observation, weights constant within an observation (the necessity of each is C30)"
  },
  {
   "property": "C26",
   "status": "proved",
   "theorems": [
    "C26_clog_log_gradient"
   ],
   "note": "as C25, and every index below 3.7, where the code switches to an approximation"
  },
  {
   "property": "C27",
   "status": "proved",
   "theorems": [
    "C27_scobit_gradient"
   ],
   "note": "as C25"
  },
  {
   "property": "C28",
   "status": "proved",
   "theorems": [
    "C28_uneven_gradient"
   ],
   "note": "as C25"
  },
  {
   "property": "C29",
   "status": "proved",
   "theorems": [
    "C29_asym_gradient"
   ],
   "note": "as C25, and no index exactly 0, where the transform has a kink"
  },
  {
   "property": "C30",
   "status": "partial",
   "theorems": [
    "C30_refuted_clipping",
    "C30_refuted_uneven_weights",
    "C30_refuted_choices_per_observation",
    "C30_refuted_clog_log_above_switch",
    "C30_refuted_asym_kink"
   ],
   "note": "false as stated: each theorem gives an accepted input at which gradient and objective disagree; C25-C29 prove the property away from these cases"
  },
  {
   "property": "C31",
   "status": "proved",
   "theorems": [
    "C31_mnl_hessian"
   ],
   "note": "under the hypotheses of C25"
  },
  {
   "property": "C32",
   "status": "proved",
   "theorems": [
    "C32_hessian_symmetric_nsd"
   ],
   "note": ""
  },
  {
   "property": "C33",
   "status": "proved",
   "theorems": [
    "C33_stationary_point_is_maximum",
    "C33_ridge_maximum_is_unique",
    "C33_log_likelihood_concave"
   ],
   "note": "over parameter vectors whose utilities are within the +-700 clip"
  },
  {
   "property": "C34",
   "status": "partial",
   "theorems": [
    "C34_hessian_is_first_order_part",
    "C34_refuted_clog_log_curvature"
   ],
   "note": "false as stated: the code drops the second derivative of the transform. The first theorem states exactly what is returned, the second exhibits the difference"
  },
  {
   "property": "C35",
   "status": "proved",
   "theorems": [
    "C35_bhhh_matrix",
    "C35_refuted_with_ridge"
   ],
   "note": "without ridge, as stated; the second theorem shows the statement is false with ridge"
  },
  {
   "property": "C36",
   "status": "proved",
   "theorems": [
    "C36_sandwich_symmetric_psd",
    "C36_reported_robust_covariance"
   ],
   "note": ""
  },
  {
   "property": "C37",
   "status": "partial",
   "theorems": [
    "C37_equal_shares",
    "C37_null_log_likelihood",
    "C37_mixed_null_log_likelihood",
    "C37_nested_null_probabilities",
    "C37_nested_null_log_likelihood",
    "C37_refuted_nested"
   ],
   "note": "proved for the five logit-type models and the mixed logit (more than one draw, weights constant within a mixing unit); false of the nested logit, whose zero vector means nest coefficients of 1/2: its null log-likelihood is given exactly"
  },
  {
   "property": "C38",
   "status": "proved",
   "theorems": [
    "C38_weight_scaling",
    "C38_copies_have_same_probabilities",
    "C38_frequency_weights",
    "C38_frequency_weights_curvature",
    "C38_weight_zero_is_left_out",
    "C38_nested_frequency_weights",
    "C38_nested_weight_zero_is_left_out",
    "C38_mixed_frequency_weights",
    "C38_mixed_weight_zero_is_left_out"
   ],
   "note": "For the mixed logit copies are copies of whole units with their draws."
  },
  {
   "property": "C39",
   "status": "proved",
   "theorems": [
    "C39_nested_probabilities",
    "C39_nested_chosen_probs"
   ],
   "note": ""
  },
  {
   "property": "C40",
   "status": "proved",
   "theorems": [
    "C40_textbook_factors",
    "C40_sums"
   ],
   "note": "the nest probabilities include the code's 1e-300 floor for absent nests; C40_sums states the sum exactly"
  },
  {
   "property": "C41",
   "status": "proved",
   "theorems": [
    "C41_unit_nests_is_mnl"
   ],
   "note": ""
  },
  {
   "property": "C42",
   "status": "proved",
   "theorems": [
    "C42_nest_coefs_in_unit_interval"
   ],
   "note": ""
  },
  {
   "property": "C43",
   "status": "partial",
   "theorems": [
    "C43_gradient_exactly",
    "C43_nested_gradient",
    "C43_nested_index_gradient",
    "C43_refuted_observation_lacking_a_nest",
    "C43_refuted_ridge"
   ],
   "note": "true when every observation has an available alternative in every nest and there is no ridge; C43_gradient_exactly says what is computed in general; false when an observation lacks a nest, and with a ridge (refutations)"
  },
  {
   "property": "C44",
   "status": "partial",
   "theorems": [
    "C44_bhhh_symmetric_nsd",
    "C44_score_rows",
    "C44_constrained_positions_decoupled",
    "C44_inverse_of_decoupled",
    "C44_mixed_bhhh_symmetric_nsd",
    "C44_mixed_score_rows",
    "C44_mixed_constrained_positions_decoupled",
    "C44_refuted_mixed_ridge"
   ],
   "note": "true for the nested logit and for the mixed logit without a ridge; with a ridge the mixed logit adds the penalty with the wrong sign (refutation)"
  },
  {
   "property": "C45",
   "status": "proved",
   "theorems": [
    "C45_utilities_use_own_draws"
   ],
   "note": ""
  },
  {
   "property": "C46",
   "status": "partial",
   "theorems": [
    "C46_mixed_predictions",
    "C46_mixed_chosen_predictions",
    "C46_zero_sigmas_give_mnl",
    "C46_refuted_single_draw_predict"
   ],
   "note": "true whenever prediction succeeds; with num_draws = 1 prediction always raises (refutation)"
  },
  {
   "property": "C47",
   "status": "partial",
   "theorems": [
    "C47_simulated_log_likelihood",
    "C47_refuted_single_draw",
    "C47_refuted_single_draw_constant"
   ],
   "note": "exact for every number of draws >= 2; with one draw the code broadcasts the probabilities over all rows (refutation: the value is then ln(1/2) for every parameter vector of a two-row table)"
  },
  {
   "property": "C48",
   "status": "partial",
   "theorems": [
    "C48_mixed_gradient",
    "C48_refuted_single_draw",
    "C48_objective_function",
    "C48_objective_is_the_one_minimised"
   ],
   "note": "exact for every number of draws >= 2; with one draw the code's gradient is not the derivative of its log-likelihood (refutation)"
  },
  {
   "property": "C49",
   "status": "partial",
   "theorems": [
    "C49_panel_probabilities_sum_to_one",
    "C49_panel_probabilities_partial",
    "C49_panel_probabilities_same_order",
    "C49_panel_predict_total",
    "C49_refuted_person_order"
   ],
   "note": "sums, totality and the exact formula hold for every order of persons; the weights are each person's own posterior when returning persons come in the same relative order in both tables; for at least two draws; in another order the past is evaluated with another person's draws (refutation)"
  },
  {
   "property": "C50",
   "status": "proved",
   "theorems": [
    "C50_constrained_parameters_do_not_move",
    "C50_fit_mle_keeps_constrained",
    "C50_bfgs_keeps_constrained",
    "C50_newton_nested_mixed",
    "C50_refuted_newton_logit"
   ],
   "note": "proved for every optimiser moving along gradients, and for BFGS with any step sizes; Newton steps keep nested/mixed constraints but not those of the logit-type models (their Hessian is not masked), shown by C50_refuted_newton_logit, which is outside the claim"
  },
  {
   "property": "C51",
   "status": "partial",
   "theorems": [
    "C51_blanks_exactly_the_constrained",
    "C51_inference_output",
    "C51_refuted_duplicate_names"
   ],
   "note": "proved for distinct parameter names; false when two parameters share a name, which nothing prevents"
  },
  {
   "property": "C52",
   "status": "proved",
   "theorems": [
    "C52_information_criteria",
    "C52_rho_squared"
   ],
   "note": ""
  },
  {
   "property": "C53",
   "status": "partial",
   "theorems": [
    "C53_estimation_object_uses_weights",
    "C53_refuted_fit_mle_ignores_weights",
    "C53_refuted_weights_change_nothing"
   ],
   "note": "false of the code: fit_mle swallows the weights keyword; estimation objects built directly do use them"
  },
  {
   "property": "C54",
   "status": "proved",
   "theorems": [
    "C54_history_independence",
    "C54_same_answer_after_any_history"
   ],
   "note": ""
  },
  {
   "property": "C55",
   "status": "proved",
   "theorems": [
    "C55_samples_are_the_stratified_ones",
    "C55_one_choice_per_observation",
    "C55_bad_seed_rejected",
    "C55_refuted_two_choices"
   ],
   "note": "the refutation shows the one-choice condition in the statement is needed for the sample size"
  },
  {
   "property": "C56",
   "status": "proved",
   "theorems": [
    "C56_rows_are_copies",
    "C56_bootstrap_ids",
    "C56_one_choice_inherited",
    "C56_rejections",
    "C56_samples_are_accepted"
   ],
   "note": ""
  },
  {
   "property": "C57",
   "status": "proved",
   "theorems": [
    "C57_percentile_interval",
    "C57_not_too_wide",
    "C57_higher_confidence_contains",
    "C57_replicate_order_irrelevant",
    "C57_transformation_respecting",
    "C57_rejections"
   ],
   "note": ""
  },
  {
   "property": "C58",
   "status": "proved",
   "theorems": [
    "C58_acceleration_is_a_number",
    "C58_acceleration_bound",
    "C58_acceleration_affine",
    "C58_acceleration_location_scale",
    "C58_acceleration_symmetric",
    "C58_lower_percentile_below_upper",
    "C58_bca_interval",
    "C58_reduces_to_percentile_interval",
    "C58_refuted_percentiles_cross",
    "C58_refuted_one_sided_replicates"
   ],
   "note": "norm.cdf and norm.ppf are parameters assumed strictly increasing, within (0,1) and inverse to each other; the refutations show what happens outside the stated conditions"
  },
  {
   "property": "C59",
   "status": "proved",
   "theorems": [
    "C59_weights_sum_to_one",
    "C59_long_row_gets_its_observations_weight",
    "C59_weights_of_the_refits",
    "C59_plus_weights_nonneg",
    "C59_refuted_minus_weights_nonneg"
   ],
   "note": "the minus-weights, about which the statement says nothing, can be negative"
  },
  {
   "property": "C60",
   "status": "partial",
   "theorems": [
    "C60_scobit_and_uneven_start_at_the_mnl",
    "C60_asym_starts_at_the_mnl",
    "C60_mixed_starts_at_the_mnl",
    "C60_refuted_asym_without_intercept_names"
   ],
   "note": "true when the intercepts are named; false for an asymmetric logit with intercept_ref_pos and no intercept_names, whose starting intercepts are divided by ln J like the coefficients"
  },
  {
   "property": "C61",
   "status": "partial",
   "theorems": [
    "C61_options_are_used",
    "C61_refuted_mnl_options_ignored",
    "C61_refuted_mnl",
    "C61_refuted_mixed_logit"
   ],
   "note": "true for all types but two: the MNL's re-estimations ignore the options given to the generate_* methods and use mnl_fit_kwargs or the defaults, and a mixed logit's never succeed because num_draws is not passed"
  },
  {
   "property": "C62",
   "status": "proved",
   "theorems": [
    "C62_confidence_intervals",
    "C62_no_interval_for_constrained"
   ],
   "note": "the normal quantile function is a parameter assumed increasing and zero at one half"
  },
  {
   "property": "C63",
   "status": "proved",
   "theorems": [
    "C63_accepted_parameter_lists"
   ],
   "note": ""
  },
  {
   "property": "C64",
   "status": "proved",
   "theorems": [
    "C64_names_and_reference_position"
   ],
   "note": ""
  },
  {
   "property": "C65",
   "status": "proved",
   "theorems": [
    "C65_degenerate_nests_do_not_matter"
   ],
   "note": ""
  },
  {
   "property": "C66",
   "status": "partial",
   "theorems": [
    "C36_reported_robust_covariance",
    "C66_refuted_nested_robust_variances",
    "C66_refuted_mixed_robust_variances"
   ],
   "note": "holds for the logit-type models; for the nested and mixed models the Fisher matrix is a placeholder and every robust variance is negative"
  },
  {
   "property": "C67",
   "status": "proved",
   "theorems": [
    "C67_residuals_and_chi_squares"
   ],
   "note": ""
  },
  {
   "property": "C68",
   "status": "proved",
   "theorems": [
    "C68_shares_are_reproduced"
   ],
   "note": ""
  },
  {
   "property": "C69",
   "status": "proved",
   "theorems": [
    "C69_separate_starting_values",
    "C69_full_starting_vector",
    "C69_wrong_length_refused",
    "C69_bad_starting_values"
   ],
   "note": ""
  },
  {
   "property": "C70",
   "status": "proved",
   "theorems": [
    "C70_nested_constrained_positions",
    "C70_degenerate_nests_keep_starting_values"
   ],
   "note": ""
  },
  {
   "property": "C71",
   "status": "proved",
   "theorems": [
    "C71_accepted_weights",
    "C71_rejected_weights"
   ],
   "note": ""
  },
  {
   "property": "C72",
   "status": "proved",
   "theorems": [
    "C72_just_point"
   ],
   "note": ""
  },
  {
   "property": "C73",
   "status": "proved",
   "theorems": [
    "C73_reported_log_likelihood",
    "C73_reported_parameters"
   ],
   "note": ""
  },
  {
   "property": "C74",
   "status": "partial",
   "theorems": [
    "C74_predict_reproduces_fit",
    "C46_refuted_single_draw_predict"
   ],
   "note": "proved for every model type and successful fit whose reference positions are in range, except mixed logit with exactly one draw, where predict raises"
  },
  {
   "property": "C75",
   "status": "partial",
   "theorems": [
    "C75_own_rows",
    "C75_refuted_other_alternatives",
    "C75_refuted_fewer_alternatives",
    "C75_refuted_single_intercept"
   ],
   "note": "true when both tables contain the same set of alternatives (for mixed logit: with the same draws for the observation's mixing unit; C119 says when a seed gives those); false otherwise, because alternative-specific parameters are matched by rank, and a single intercept is broadcast"
  },
  {
   "property": "C76",
   "status": "proved",
   "theorems": [
    "C76_predictions_are_distributions",
    "C76_chosen_are_long_probabilities"
   ],
   "note": ""
  },
  {
   "property": "C77",
   "status": "partial",
   "theorems": [
    "C77_refuted_abc_interval_is_a_point",
    "C77_refuted_abc_fails_when_one_coefficient_moves"
   ],
   "note": "false for every model: fit_mle ignores the weights, so both endpoints are the refitted estimate, or the call raises"
  },
  {
   "property": "C78",
   "status": "proved",
   "theorems": [
    "C78_abc_interval_of_a_weighted_mean",
    "C78_abc_interval_of_a_squared_mean"
   ],
   "note": "values within the code's 1e-12 tolerance of the mean must equal the mean"
  },
  {
   "property": "C79",
   "status": "proved",
   "theorems": [
    "C79_creation_succeeds_exactly",
    "C79_missing_columns",
    "C79_what_the_model_holds",
    "C79_arguments_kept",
    "C79_one_name_per_column"
   ],
   "note": ""
  },
  {
   "property": "C80",
   "status": "partial",
   "theorems": [
    "C80_positions_of_the_mixing_variables",
    "C80_random_coefficient_is_the_named_variables",
    "C80_refuted_names_in_another_order"
   ],
   "note": "true when the name dictionary is in the order of the specification and names are distinct; otherwise the named variable's coefficient can stay fixed and another one's become random"
  },
  {
   "property": "C81",
   "status": "proved",
   "theorems": [
    "C81_stored_settings_are_the_users",
    "C81_rebuilt_model_is_the_model"
   ],
   "note": ""
  },
  {
   "property": "C82",
   "status": "proved",
   "theorems": [
    "C82_jackknife_leaves_one_observation_out"
   ],
   "note": "the options used are those of C61; the optimizer is arbitrary"
  },
  {
   "property": "C83",
   "status": "proved",
   "theorems": [
    "C83_bootstrap_replicates"
   ],
   "note": "the options used are those of C61; which observations are sampled is C55"
  },
  {
   "property": "C84",
   "status": "proved",
   "theorems": [
    "C84_inference_tables"
   ],
   "note": "scipy.linalg.inv and scipy.stats.norm.sf are parameters, assumed to return an inverse and to be the survival function of a symmetric distribution; C51 says what constraints change"
  },
  {
   "property": "C85",
   "status": "proved",
   "theorems": [
    "C85_objective_and_its_gradient",
    "C85_conditional_logit_objective"
   ],
   "note": "the general theorem holds wherever the estimator's gradient is the derivative of its log-likelihood (C25-C29, C43, C48); written out in full for the conditional logit"
  },
  {
   "property": "C86",
   "status": "partial",
   "theorems": [
    "C86_several_vectors_partial",
    "C86_one_column_partial",
    "C86_one_vector",
    "C86_refuted_scobit_without_intercepts",
    "C86_refuted_one_column_with_intercepts",
    "C86_refuted_one_column_asymmetric",
    "C86_refuted_one_column_square"
   ],
   "note": "true for two or more vectors except for scobit models without outside intercepts, which raise; a two-dimensional array of a single column is rejected or turned into a square array by the classes with shape parameters or outside intercepts"
  },
  {
   "property": "C87",
   "status": "partial",
   "theorems": [
    "C87_replicate_log_likelihoods_partial",
    "C87_refuted_scobit_without_intercepts",
    "C87_refuted_panel_mixed_logit"
   ],
   "note": "true when the names divide the replicates as the estimator does and predict accepts the number of replicates (C86); scobit models without outside intercepts raise, and for a mixed logit with several observations per mixing unit the value is that of a model without panel structure"
  },
  {
   "property": "C88",
   "status": "partial",
   "theorems": [
    "C88_gradient_norms_partial",
    "C88_zero_norm",
    "C88_refuted_constrained_positions_ignored",
    "C88_replicates_argument"
   ],
   "note": "true where the estimator's gradient is the derivative of its log-likelihood (C25-C29, C43, C48) and no parameter is constrained; constrained_pos has no effect, so constrained parameters count in the norm"
  },
  {
   "property": "C89",
   "status": "proved",
   "theorems": [
    "C89_single_type",
    "C89_percentile_numbers",
    "C89_bca_numbers",
    "C89_all",
    "C89_failures",
    "C89_needs_replicates",
    "C89_stored_percentile_table",
    "C89_tables_are_labelled",
    "C89_refuted_stale_after_new_replicates",
    "C89_refuted_combined_table_stale"
   ],
   "note": "the two refuted_ theorems record what is not promised: nothing clears the intervals when replicates are generated anew, and a later 'pi' call does not update the combined table; label formatting is a parameter"
  },
  {
   "property": "C90",
   "status": "partial",
   "theorems": [
    "C90_accepted_names",
    "C90_rejected_names",
    "C90_column_names",
    "C90_number_of_columns",
    "C90_names_are_distinct",
    "C90_reading_columns_by_name",
    "C90_refuted_variable_called_availability",
    "C90_refuted_individual_variable_with_suffix",
    "C90_refuted_repeated_alternative_names",
    "C90_refuted_alternative_names_with_underscores"
   ],
   "note": "names, their order, the exact acceptance of alt_name_dict and (for ids, or distinct underscore-free names, and no user variable imitating such a name) the distinctness are proved; that every column can be read by its name is false in general: four kinds of clash are exhibited"
  },
  {
   "property": "C91",
   "status": "proved",
   "theorems": [
    "C91_fit_does_not_depend_on_history"
   ],
   "note": "sessions are sequences of table creations and edits, model creations, fits and predictions on a store of tables and objects"
  },
  {
   "property": "C92",
   "status": "proved",
   "theorems": [
    "C92_what_estimation_stores"
   ],
   "note": "stated as equality with the list fit_attributes (PropStore.v); the numbers in it are the subject of C51, C73, C84"
  },
  {
   "property": "C93",
   "status": "partial",
   "theorems": [
    "C93_failed_estimation_keeps_results",
    "C93_refuted_when_the_inverse_raises",
    "C93_refuted_mixture"
   ],
   "note": "true for failures up to the end of the optimization; false when the Hessian cannot be inverted: the object then mixes the new coefficients, probabilities and log-likelihood with the previous params, covariance and standard errors (theorem for every model, and a concrete session)"
  },
  {
   "property": "C94",
   "status": "proved",
   "theorems": [
    "C94_tables_keep_their_columns",
    "C94_other_tables_are_not_changed",
    "C94_without_intercept_in_the_specification"
   ],
   "note": ""
  },
  {
   "property": "C95",
   "status": "proved",
   "theorems": [
    "C95_inference_stays_in_step"
   ],
   "note": ""
  },
  {
   "property": "C96",
   "status": "partial",
   "theorems": [
    "C96_explicit_parameters_need_no_history",
    "C96_refuted_mixed_logit_before_estimation"
   ],
   "note": "true for every type but the mixed logit, and for that from its first estimation on; before it a mixed logit rejects every param_list"
  },
  {
   "property": "C97",
   "status": "partial",
   "theorems": [
    "C97_other_columns_may_change",
    "C97_refuted_observation_ids_are_read_again"
   ],
   "note": "true for the columns that hold neither identifiers nor choices; identifier columns are read again by every fit while design and choices are copies"
  },
  {
   "property": "C98",
   "status": "proved",
   "theorems": [
    "C98_results_stay_until_the_next_fit",
    "C98_predictions_are_the_stored_probabilities"
   ],
   "note": "reference positions are assumed to be positions of alternatives (they are only checked when names are given), and the optimizer to keep the number of parameters"
  },
  {
   "property": "C99",
   "status": "proved",
   "theorems": [
    "C99_maximum_is_unique",
    "C99_estimates_do_not_depend_on_the_start",
    "C99_unidentified_parameters_are_not_estimable"
   ],
   "note": "multinomial logit; utilities within the clipping bounds at the vectors compared"
  }
 ]
}