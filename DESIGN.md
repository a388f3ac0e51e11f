# A Rocq model of pylogit: design

## 1. What is modelled and how

Two layers, joined at the mapping matrices.

**Discrete layer** (lists, `Z`, `nat`, `string`; every function computes).
Validators, mapping construction, design-matrix construction, wide/long
conversion, nest specification, parameter splitting and naming, `predict`
return shapes, model dispatch, bootstrap sampling and dataframes, option
plumbing of the bootstrap estimation.  Python exceptions are values: a function
that can raise returns `Res A = Ok a | Err e`, `e` naming the exception class
(`ValueError`, `KeyError`, ...).  Dictionaries are association lists in
insertion order.

**Numeric layer** (Coq's real numbers, derivatives from Coquelicot).
`choice_calcs.py`, the four utility transforms and their derivatives,
`nested_choice_calcs.py`, `mixed_logit_calcs.py`, the log-likelihood /
gradient / Hessian plumbing of `estimation.py`, fit statistics, bootstrap
intervals.  Arrays are index functions with explicit dimensions (`nat -> R`,
`nat -> nat -> R`); every sum is over an explicit range, so no out-of-range
entry is ever read.

**Double precision** (`Floats.v`, `FloatTransforms.v`, `FloatUtilities.v`, `FloatLogit.v`,
`FloatNested.v`, `FloatObjective.v`, `FloatGradient.v`, `FloatDerivatives.v`, `FloatReport.v`, `FloatMixed.v`, `FloatMixedGradient.v`; C122-C138).  Probabilities, the objective with weights
and penalty and the utility transformations of the logit types, and the nested logit, once more, with IEEE
doubles: a value is a real of Flocq's binary64 format (`FLT_exp (-1074) 53`), an infinity
or NaN; each operation rounds to nearest even and overflows; sums are taken in an
arbitrary order (a binary tree over the terms); `np.exp`, `np.log`, `np.log1p` and
`np.power` are universally quantified functions with accuracy or range hypotheses.  All
guards on infinities that the code writes are part of this model.

In the numeric layer floating point is idealised to exact real arithmetic.  Guards that the code
writes explicitly and that can fire in exact arithmetic (clipping of utilities to
+/-700, replacing zero probabilities by 1e-300, the nested-logit zero guards, the
3.7 switch of the clog-log transform) are part of the model.  Guards that fire
only on IEEE overflow, underflow or NaN (`isinf`, `isneginf`, `isnan` of a
finite expression) cannot fire over the reals; each is cited where it is omitted.

The layers are joined: numeric theorems that a user would state about a dataset
are stated about the *columns of ids* and use the mapping built by the discrete
model of `create_long_form_mappings`.

Conventions that recur:

* A function that can raise returns `Res A`; the exception classes are
  `ValueError KeyError TypeError AttributeError IndexError NotImplementedError
  AssertionError NameError`.  A method that mutates its object before it raises
  is a state transformer `bstate -> bstate * Res unit` (`BootIntervals.v`), so
  that "what is left behind after an exception" is observable.
* The optimiser is a universally quantified function (`mz`, `sp`); the random
  generators are universally quantified draw functions (`rng`, `rvs`);
  `scipy.linalg.inv`, `norm.cdf`, `norm.ppf`, `norm.sf` are universally
  quantified, and what a theorem needs of them is a hypothesis of that theorem.
* A property that is false of the code is not weakened silently: the manifest
  says `partial`, a theorem with `_refuted_` in its name exhibits an accepted
  input at which the English claim fails, and further theorems prove the claim
  under the extra hypothesis that makes it true.  Section 5 lists these.

## 2. File layout (`rocq/theories`)

Library (models no code of pylogit): `Vec.v` finite sums; `Res.v` results with
exceptions; `Arr.v`, `Nd.v` one- and two-dimensional arrays with numpy
broadcasting; `Ids.v` sort / unique / association lists; `Frame.v` tables.

Specification, written without reference to the model: `SpecLogit.v` (textbook
logit notions), and the definitions at the head of each `Prop*.v` file.

Model (definitions, each with the cited lines):

| file | source |
|---|---|
| `Mappings.v`, `ChoiceTools.v`, `WideLong.v`, `WideNames.v` | `choice_tools.py` |
| `ChoiceCalcs.v` | `choice_calcs.py` |
| `Transforms.v` | `conditional_logit.py`, `clog_log.py`, `scobit.py`, `uneven_logit.py`, `asym_logit.py` |
| `LongData.v` | the join of the id columns with the numeric data (`estimation.py:87-145`) |
| `NestedCalcs.v` | `nested_choice_calcs.py`, `nested_logit.py` |
| `MixedCalcs.v` | `mixed_logit_calcs.py`, `mixed_logit.py` |
| `BaseModel.v`, `Predict.v`, `PredictNd.v` | `base_multinomial_cm_v2.py` |
| `Estimation.v` | `estimation.py`, `construct_estimator.py`, the `fit_mle` methods |
| `Construct.v` | `pylogit.py`, the constructors |
| `ObjectStore.v`, `Session.v` | attributes of a model object, the assignments of `store_fit_results`, sequences of calls over shared tables |
| `PredictExt.v`, `RawData.v` | `predict` over sessions; columns with missing and infinite values at construction and in prediction |
| `Summaries.v` | `print_summaries`, `get_statsmodels_summary`, `to_pickle` (which values are shown, which file is written) |
| `Generator.v` | numpy's global random generator, seeds, order of the draws |
| `MixedObjective.v` | the objective that a mixed logit estimation maximises |
| `Floats.v`, `FloatTransforms.v`, `FloatUtilities.v`, `FloatLogit.v`, `FloatObjective.v`, `FloatGradient.v`, `FloatDerivatives.v`, `FloatReport.v`, `FloatMixed.v`, `FloatMixedGradient.v` | `choice_calcs.py:130-287, 403-484`, `mixed_logit_calcs.py:222-235, 317-348, 448-473`, the utility transformations with their derivatives, and the reported statistics (`base_multinomial_cm_v2.py:611-681, 1227-1242, 1602-1607`, `estimation.py:472-474`) in double precision |
| `FloatNested.v` | `nested_choice_calcs.py:91-263, 332-350, 466-496` in double precision |
| `BootSampler.v`, `BootCalcs.v`, `BootAbc.v`, `BootMle.v`, `BootLogLike.v`, `BootIntervals.v` | `bootstrap_sampler.py`, `bootstrap_calcs.py`, `bootstrap_utils.py`, `bootstrap_abc.py`, `bootstrap_mle.py`, `bootstrap.py` |

Proofs about the model that are not themselves claims: `*Facts.v`, `RowDeriv.v`,
`HessFacts.v`, `FloatNear.v`.  Claims: `Prop*.v`, each with the theorems, the concrete cases
(`Example ex...`) that meet their hypotheses, and `Print Assumptions`.  The
theorems of property `Cxx` are named `Cxx_...`.

## 3. Trusted base

* Coq 8.16.1's kernel (and `coqchk`, run by the gate).
* Axioms: only those of Coq's standard library, listed per theorem in 3.1.  No
  axiom, parameter or admitted statement is added.  Libraries used: Coq's
  standard library, Coquelicot and Flocq (which add no axiom of their own; from Flocq the
  definitions of format and rounding and lemmas about them).
* The hand transcription of the Python source into Gallina.  Nothing mechanical
  ties the two; every definition cites the lines it transcribes and says where it
  simplifies.  Section 6 lists, function by function, what is modelled and where.
* Idealisations:
  - exact reals instead of IEEE doubles, except in C122-C138: no rounding, overflow,
    underflow, NaN except where a division by zero is written into the model as NaN
    (`fcell`, `xnum`);
  - in C122-C138: the sign of zero is not modelled; in C122-C126 systematic utilities,
    natural shapes and intercepts are given doubles, from C127 on they are computed from
    the data; weights and penalty occur in C130-C133 only; gradients are exact outside C131-C134,
    Hessians everywhere;
  - numpy / scipy / pandas primitives by their documented meaning (`np.unique`,
    `searchsorted`, `in1d`, sparse products, boolean indexing, `groupby` order,
    `np.percentile` with `interpolation='lower'/'higher'`, broadcasting);
  - ids, choices and availabilities are integers, the other cells are reals;
    missing and infinite values occur in C116 and C117 only; strings as cell contents
    do not occur;
  - dictionaries keep insertion order and have no repeated key;
  - `scipy.optimize.minimize` and the random generators are oracles: arbitrary
    functions; except in C118 and C119, where numpy's generator is a state machine, the
    seed only selects which function.

Modelled: every function listed with a Gallina definition in section 6.

Not modelled: the text of console output and summaries (only which values are shown),
the pandas formatting of the tables, reading CSV files, the content of pickle files, tqdm, timing, warnings, deprecation notices, sparse
storage formats, memory, performance, the optimiser's algorithm (BFGS and Newton
steps are modelled only in `PropEstimation.v`, for C50), the type checks that hold
by typing (an argument of the wrong Python class), `newsletter.py`,
`_version.py`, and the functions marked "not modelled" in section 6.

### 3.1 What `Print Assumptions` lists for each theorem

Names: `sig_forall_dec`, `sig_not_dec` are `Coq.Reals.ClassicalDedekindReals.*`; `functional_extensionality_dep` is `Coq.Logic.FunctionalExtensionality.*`; `classic` is `Coq.Logic.Classical_Prop.classic`. All belong to Coq's standard library. The list covers every theorem named in `MANIFEST.json`; the `Prop*.v` files print the same information during the build.

* **Closed under the global context** (38 theorems): `C01_rows_to_obs`, `C01_row_unique_column`, `C02_rows_to_alts`, `C02_column_independent_of_row_order`, `C03_chosen_row_to_obs`, `C03_one_per_column`, `C04_rows_to_nests`, `C04_missing_alternative_is_an_error`, `C05_accepts_only_contiguous`, `C05_accepts_exactly_nondecreasing`, `C05_refuted_rejects_contiguous_column`, `C06_refuted_total_only`, `C09_specification_validator_exact`, `C09_error_kind`, `C10_rows_are_ordered`, `C114_report_without_statsmodels`, `C115_pickle_file_name`, `C115_same_file`, `C116_accepts_exactly_finite_numbers`, `C116_rejects_with_value_error`, `C118_samples_are_covered`, `C13_accepted_specifications_are_partitions`, `C13_every_row_gets_its_nest`, `C14_split_is_lossless`, `C14_nested_split_is_lossless`, `C15_default_names_are_distinct`, `C51_blanks_exactly_the_constrained`, `C55_samples_are_the_stratified_ones`, `C55_one_choice_per_observation`, `C55_bad_seed_rejected`, `C55_refuted_two_choices`, `C56_bootstrap_ids`, `C56_one_choice_inherited`, `C56_rejections`, `C63_accepted_parameter_lists`, `C64_names_and_reference_position`, `C139_data_source`, `C139_only_the_named_file_is_read`

* **`sig_forall_dec`** (15 theorems): `C08_refuted_names_misaligned`, `C10_refuted_dictionary_order`, `C111_design_of_the_bootstrap_table`, `C111_refuted_lost_alternative`, `C118_numbers_used`, `C15_bootstrap_slices`, `C56_rows_are_copies`, `C56_samples_are_accepted`, `C79_creation_succeeds_exactly`, `C79_missing_columns`, `C79_arguments_kept`, `C80_positions_of_the_mixing_variables`, `C81_stored_settings_are_the_users`, `C81_rebuilt_model_is_the_model`, `C139_path_and_table_give_the_same_design`

* **`functional_extensionality_dep`, `sig_forall_dec`** (54 theorems): `C06_accepted_and_at_most_one`, `C06_one_choice_is_accepted`, `C07_design_matrix_content`, `C07_number_of_columns`, `C08_as_many_names_as_columns`, `C08_names_line_up_in_same_order`, `C10_wide_to_long`, `C102_every_vector_has_a_counterpart`, `C11_rows_choices_and_individual_variables`, `C11_availability`, `C11_alternative_specific_cells`, `C11_accepts_well_formed_data`, `C11_refuted_interleaved_rows`, `C116_design_of_a_model_is_finite`, `C12_round_trip`, `C36_sandwich_symmetric_psd`, `C45_utilities_use_own_draws`, `C52_rho_squared`, `C57_percentile_interval`, `C57_not_too_wide`, `C57_higher_confidence_contains`, `C57_replicate_order_irrelevant`, `C57_transformation_respecting`, `C57_rejections`, `C58_lower_percentile_below_upper`, `C58_refuted_percentiles_cross`, `C59_weights_sum_to_one`, `C59_long_row_gets_its_observations_weight`, `C59_weights_of_the_refits`, `C59_plus_weights_nonneg`, `C59_refuted_minus_weights_nonneg`, `C62_confidence_intervals`, `C62_no_interval_for_constrained`, `C66_refuted_nested_robust_variances`, `C66_refuted_mixed_robust_variances`, `C69_separate_starting_values`, `C69_full_starting_vector`, `C70_nested_constrained_positions`, `C71_accepted_weights`, `C71_rejected_weights`, `C79_what_the_model_holds`, `C79_one_name_per_column`, `C80_random_coefficient_is_the_named_variables`, `C80_refuted_names_in_another_order`, `C90_accepted_names`, `C90_rejected_names`, `C90_column_names`, `C90_number_of_columns`, `C90_names_are_distinct`, `C90_reading_columns_by_name`, `C90_refuted_variable_called_availability`, `C90_refuted_individual_variable_with_suffix`, `C90_refuted_repeated_alternative_names`, `C90_refuted_alternative_names_with_underscores`

* **`functional_extensionality_dep`, `sig_forall_dec`, `sig_not_dec`** (34 theorems): `C117_gap_spoils_its_observation`, `C117_infinite_utilities_are_clipped`, `C17_probabilities_sum_to_one`, `C18_probabilities_positive`, `C18_probabilities_below_one`, `C19_chosen_probs_are_long_probs`, `C20_odds_depend_on_own_utilities`, `C20_independence_of_irrelevant_alternatives`, `C20_mnl_common_shift`, `C46_mixed_predictions`, `C46_mixed_chosen_predictions`, `C46_zero_sigmas_give_mnl`, `C46_refuted_single_draw_predict`, `C58_acceleration_is_a_number`, `C58_acceleration_bound`, `C58_acceleration_affine`, `C58_acceleration_location_scale`, `C58_acceleration_symmetric`, `C58_bca_interval`, `C58_reduces_to_percentile_interval`, `C58_refuted_one_sided_replicates`, `C78_abc_interval_of_a_weighted_mean`, `C78_abc_interval_of_a_squared_mean`, `C88_zero_norm`, `C89_single_type`, `C89_percentile_numbers`, `C89_bca_numbers`, `C89_all`, `C89_failures`, `C89_needs_replicates`, `C89_stored_percentile_table`, `C89_tables_are_labelled`, `C89_refuted_stale_after_new_replicates`, `C89_refuted_combined_table_stale`

* **`classic`, `functional_extensionality_dep`, `sig_forall_dec`, `sig_not_dec`** (335 theorems): `C05_estimation_sees_whole_observations`, `C100_hessian_negative_definite`, `C100_unidentified_hessian_is_singular`, `C100_standard_errors_are_positive`, `C100_no_fit_completes_when_unidentified`, `C100_fit_completes_when_identified`, `C101_same_probabilities`, `C101_log_likelihood_and_derivatives`, `C101_change_of_units`, `C101_mnl_estimates_change_units`, `C102_utilities_shift_together`, `C102_same_probabilities`, `C102_same_log_likelihood`, `C103_same_probabilities`, `C103_log_likelihood_adds_up`, `C103_gradient_adds_up`, `C103_hessian_adds_up`, `C103_bhhh_adds_up`, `C104_utilities`, `C104_never_the_wrong_way`, `C104_better_row_gains`, `C104_positive_coefficient`, `C104_nested`, `C104_mixed`, `C104_refuted_mixed_variable`, `C105_zero_coefficients`, `C105_more_variables_never_fit_worse`, `C105_scobit_and_uneven_contain_mnl`, `C105_asym_contains_mnl`, `C106_penalty_shrinks`, `C106_penalty_against_none`, `C107_rho_squared`, `C107_mnl_rho_squared_in_unit_interval`, `C108_order_of_draws`, `C109_sign_of_sigma`, `C109_symmetric_draws`, `C110_order_of_nests`, `C111_bootstrap_table_is_weighting`, `C111_bootstrap_curvature`, `C111_nested_bootstrap_table_is_weighting`, `C112_order_of_the_rows`, `C112_nested_order_of_the_rows`, `C112_mixed_order_of_the_rows`, `C112_mixed_same_seed`, `C112_refuted_mixed_same_seed`, `C113_odds_within_a_nest`, `C113_odds_between_nests`, `C113_proportional_substitution`, `C113_mixed_odds_depend_on_others`, `C114_printed_right_after_a_fit`, `C114_printed_until_the_next_completed_fit`, `C114_print_needs_a_completed_fit`, `C114_refuted_report_mixes_fits`, `C114_refuted_report_after_failed_first_fit`, `C117_gaps_do_not_spread`, `C118_same_seed_same_result`, `C118_seed_argument_is_np_random_seed`, `C118_later_draws_repeat`, `C118_refused_seed`, `C119_same_rows_same_seed`, `C119_refuted_other_people`, `C120_gradient_points_along_the_separation`, `C120_no_stationary_point`, `C120_likelihood_increases_along_the_separation`, `C120_no_maximum`, `C120_no_fit_reaches_a_stationary_point`, `C121_penalty_bounds_the_parameters`, `C121_penalised_estimates_lie_in_a_ball`, `C121_reported_parameters_are_bounded`, `C121_nested_penalty_bounds_the_parameters`, `C121_mixed_penalty_bounds_the_parameters`, `C122_computed_probabilities_are_numbers_in_the_unit_interval`, `C122_computed_probabilities_are_accurate`, `C122_computed_probabilities_sum_to_one`, `C122_computed_probabilities_follow_the_model`, `C122_refuted_for_many_rows`, `C123_computed_ranking_follows_utilities`, `C123_refuted_computed_ranking`, `C123_refuted_computed_monotonicity`, `C124_computed_log_likelihood_is_accurate`, `C124_computed_log_likelihood_is_finite`, `C124_refuted_log_of_an_unlikely_choice`, `C125_transformed_utilities_are_defined`, `C125_transformed_utilities_are_numbers`, `C125_infinite_utilities_with_a_case`, `C125_log_likelihood_is_finite`, `C125_refuted_infinite_utilities`, `C126_clog_log_below_minus_38`, `C126_scobit_above_38`, `C126_refuted_clog_log_probabilities`, `C126_refuted_scobit_probabilities`, `C126_clog_log_is_accurate`, `C126_scobit_is_accurate`, `C126_uneven_logit_is_accurate`, `C126_asym_is_accurate`, `C127_multinomial_logit_in_figures`, `C127_multinomial_logit_probabilities`, `C127_computed_utilities_are_accurate`, `C127_log_likelihood_follows_the_model`, `C128_natural_shapes_are_accurate`, `C128_uneven_rows`, `C128_clog_rows`, `C128_scobit_rows`, `C128_asym_rows`, `C128_probabilities`, `C128_log_likelihood`, `C128_rows_in_figures`, `C128_probabilities_in_figures`, `C129_nested_probabilities_are_accurate`, `C129_nested_probabilities_sum_to_one`, `C129_nested_probabilities_follow_the_model`, `C129_nested_probabilities_in_figures`, `C129_refuted_probabilities_above_ten_million`, `C129_refuted_high_utilities_of_a_nest_are_not_told_apart`, `C129_refuted_ranking_within_a_nest`, `C130_objective_is_accurate`, `C130_logit_objective_follows_the_model`, `C130_logit_objective_in_figures`, `C130_nested_objective_follows_the_model`, `C130_nested_objective_in_figures`, `C131_gradient_entry_is_accurate`, `C131_logit_gradient_follows_the_model`, `C131_logit_gradient_in_figures`, `C131_mnl_gradient_is_the_derivative`, `C131_intercept_gradient_in_figures`, `C132_clog_derivative`, `C132_scobit_derivative`, `C132_scobit_shape_derivative`, `C132_uneven_derivative`, `C132_asym_derivatives`, `C132_rates_are_accurate`, `C132_shape_columns_are_accurate`, `C132_columns_are_accurate`, `C132_gradient_in_figures`, `C132_gradient_is_the_derivative`, `C132_refuted_scobit_small_shapes`, `C132_refuted_clog_near_minus_37`, `C133_utility_derivatives_are_numbers`, `C133_shape_derivatives_are_defined`, `C133_refuted_scobit_shape_derivative`, `C133_refuted_scobit_gradient_is_defined`, `C134_scobit_large_utilities`, `C134_scobit_low_utilities`, `C134_clog_low_utilities`, `C134_clog_large_utilities`, `C134_uneven_extreme_utilities`, `C134_uneven_infinite_utilities`, `C135_aic_is_rounded_once`, `C135_criteria_keep_the_order`, `C135_rho_squared`, `C135_standard_errors`, `C135_t_statistics`, `C135_p_values`, `C135_confidence_intervals`, `C135_intervals_and_t_statistics_agree`, `C136_simulated_probability_is_a_number`, `C136_simulated_probability_is_accurate`, `C136_mixed_objective_is_accurate`, `C136_mixed_log_likelihood_follows_the_model`, `C136_refuted_flat_for_unlikely_sequences`, `C136_refuted_order_of_unlikely_sequences`, `C137_bic`, `C137_rho_squared`, `C137_standard_error`, `C137_t_statistic`, `C137_p_value`, `C137_confidence_interval`, `C15_parameter_table`, `C15_blocks`, `C15_storing_succeeds`, `C15_table_is_the_optimizers_point`, `C15_bootstrap_names`, `C15_refuted_bootstrap_names_with_defaults`, `C16_nothing_requested_raises`, `C16_logit_returns_what_is_requested`, `C16_nested_single_requests`, `C16_refuted_nested_both`, `C16_mixed_single_requests`, `C16_refuted_mixed_both`, `C21_row_order_and_labels`, `C21_log_likelihood_unchanged`, `C22_scobit_at_zero_shape_is_mnl`, `C22_uneven_at_zero_shape_is_mnl`, `C22_asym_at_zero_shape_is_scaled_mnl`, `C23_natural_shapes_are_probabilities`, `C23_natural_shapes_injective`, `C24_log_likelihood_sum`, `C24_log_likelihood_nonpositive`, `C25_mnl_gradient`, `C26_clog_log_gradient`, `C27_scobit_gradient`, `C28_uneven_gradient`, `C29_asym_gradient`, `C30_refuted_clipping`, `C30_refuted_uneven_weights`, `C30_refuted_choices_per_observation`, `C30_refuted_clog_log_above_switch`, `C30_refuted_asym_kink`, `C31_mnl_hessian`, `C32_hessian_symmetric_nsd`, `C33_stationary_point_is_maximum`, `C33_ridge_maximum_is_unique`, `C33_log_likelihood_concave`, `C34_hessian_is_first_order_part`, `C34_refuted_clog_log_curvature`, `C35_bhhh_matrix`, `C35_refuted_with_ridge`, `C36_reported_robust_covariance`, `C37_equal_shares`, `C37_null_log_likelihood`, `C37_mixed_null_log_likelihood`, `C37_nested_null_probabilities`, `C37_nested_null_log_likelihood`, `C37_refuted_nested`, `C38_weight_scaling`, `C38_copies_have_same_probabilities`, `C38_frequency_weights`, `C38_frequency_weights_curvature`, `C38_weight_zero_is_left_out`, `C38_nested_frequency_weights`, `C38_nested_weight_zero_is_left_out`, `C38_mixed_frequency_weights`, `C38_mixed_weight_zero_is_left_out`, `C39_nested_probabilities`, `C39_nested_chosen_probs`, `C40_textbook_factors`, `C40_sums`, `C41_unit_nests_is_mnl`, `C42_nest_coefs_in_unit_interval`, `C43_gradient_exactly`, `C43_nested_gradient`, `C43_nested_index_gradient`, `C43_refuted_observation_lacking_a_nest`, `C43_refuted_ridge`, `C44_bhhh_symmetric_nsd`, `C44_score_rows`, `C44_constrained_positions_decoupled`, `C44_inverse_of_decoupled`, `C44_mixed_bhhh_symmetric_nsd`, `C44_mixed_score_rows`, `C44_mixed_constrained_positions_decoupled`, `C44_refuted_mixed_ridge`, `C47_simulated_log_likelihood`, `C47_refuted_single_draw`, `C47_refuted_single_draw_constant`, `C48_mixed_gradient`, `C48_refuted_single_draw`, `C48_objective_function`, `C48_objective_is_the_one_minimised`, `C49_panel_probabilities_sum_to_one`, `C49_panel_probabilities_partial`, `C49_panel_probabilities_same_order`, `C49_panel_predict_total`, `C49_refuted_person_order`, `C50_constrained_parameters_do_not_move`, `C50_fit_mle_keeps_constrained`, `C50_bfgs_keeps_constrained`, `C50_newton_nested_mixed`, `C50_refuted_newton_logit`, `C51_inference_output`, `C51_refuted_duplicate_names`, `C52_information_criteria`, `C53_estimation_object_uses_weights`, `C53_refuted_fit_mle_ignores_weights`, `C53_refuted_weights_change_nothing`, `C54_history_independence`, `C54_same_answer_after_any_history`, `C60_scobit_and_uneven_start_at_the_mnl`, `C60_asym_starts_at_the_mnl`, `C60_mixed_starts_at_the_mnl`, `C60_refuted_asym_without_intercept_names`, `C61_options_are_used`, `C61_refuted_mnl_options_ignored`, `C61_refuted_mnl`, `C61_refuted_mixed_logit`, `C65_degenerate_nests_do_not_matter`, `C67_residuals_and_chi_squares`, `C68_shares_are_reproduced`, `C69_wrong_length_refused`, `C69_bad_starting_values`, `C70_degenerate_nests_keep_starting_values`, `C72_just_point`, `C73_reported_log_likelihood`, `C73_reported_parameters`, `C74_predict_reproduces_fit`, `C75_own_rows`, `C75_refuted_other_alternatives`, `C75_refuted_fewer_alternatives`, `C75_refuted_single_intercept`, `C76_predictions_are_distributions`, `C76_chosen_are_long_probabilities`, `C77_refuted_abc_interval_is_a_point`, `C77_refuted_abc_fails_when_one_coefficient_moves`, `C82_jackknife_leaves_one_observation_out`, `C83_bootstrap_replicates`, `C84_inference_tables`, `C85_objective_and_its_gradient`, `C85_conditional_logit_objective`, `C86_several_vectors_partial`, `C86_one_column_partial`, `C86_one_vector`, `C86_refuted_scobit_without_intercepts`, `C86_refuted_one_column_with_intercepts`, `C86_refuted_one_column_asymmetric`, `C86_refuted_one_column_square`, `C87_replicate_log_likelihoods_partial`, `C87_refuted_scobit_without_intercepts`, `C87_refuted_panel_mixed_logit`, `C88_gradient_norms_partial`, `C88_refuted_constrained_positions_ignored`, `C88_replicates_argument`, `C91_fit_does_not_depend_on_history`, `C92_what_estimation_stores`, `C93_failed_estimation_keeps_results`, `C93_refuted_when_the_inverse_raises`, `C93_refuted_mixture`, `C94_tables_keep_their_columns`, `C94_other_tables_are_not_changed`, `C94_without_intercept_in_the_specification`, `C95_inference_stays_in_step`, `C96_explicit_parameters_need_no_history`, `C96_refuted_mixed_logit_before_estimation`, `C97_other_columns_may_change`, `C97_refuted_observation_ids_are_read_again`, `C98_results_stay_until_the_next_fit`, `C98_predictions_are_the_stored_probabilities`, `C99_maximum_is_unique`, `C99_estimates_do_not_depend_on_the_start`, `C99_unidentified_parameters_are_not_estimable`, `C138_draw_weights_are_numbers`, `C138_draw_weights_are_accurate`, `C138_gradient_entry_is_accurate`, `C138_gradient_is_accurate`, `C138_refuted_equal_weights_for_unlikely_sequences`, `C138_gradient_before_ridge_is_accurate`


## 4. Property by property

What is modelled and how each property is proved.  The status and the theorem
names are in `MANIFEST.json`; statements are in `properties.jsonl`.

| id | modelled | proof |
|---|---|---|
| C01 | observation-id column -> sparse mapping in order of first appearance | list induction; the column of an id characterised by its first position |
| C02 | alternative-id column -> mapping in sorted order | sorted-unique list; invariance under permutation |
| C03 | choice column times `rows_to_obs` | entries of the scaled sparse matrix |
| C04 | `nest_spec` -> alternative -> nest column | induction over the association list; missing key is `KeyError` |
| C05 | contiguity check on the id column | accepted iff non-decreasing, hence contiguous; converse refuted by a decreasing column |
| C06 | choice total check | refuted (two choices + none); true with at most one choice per observation |
| C07 | `create_design_matrix` | induction over the specification; cell by cell specification |
| C08 | names order | true for equal key order; refuted otherwise |
| C09 | specification validator | exact characterisation by induction over the value tree |
| C10-C12 | `convert_wide_to_long`, `convert_long_to_wide` as row lists | induction over rows; round trip composed from both; refutations by witness |
| C13 | nest-spec validators | exact: partition of the alternatives |
| C14 | `split_param_vec` with Python slices | list algebra, every model type |
| C15 | stored names and values; bootstrap name list | induction over blocks; injectivity of default names; refuted for bootstrap defaults |
| C16 | kinds of return of `predict` | case analysis; nested and mixed refuted |
| C17-C21 | `calc_probabilities` with clipping and zero guard, any transform | finite-sum algebra on id columns; permutation invariance |
| C22, C23 | transforms at zero shape; `_convert_eta_to_c` | algebra of exp/ln |
| C24 | `calc_log_likelihood` | sum over observations |
| C25-C29 | `calc_gradient` for five models | chain rule for an arbitrary transform, then `is_derive` of every transform in every block |
| C30 | the same functions outside the hypotheses | five witnesses |
| C31-C34 | `calc_hessian` | derivative of gradient; weighted variance; Jensen; C34 refuted by witness |
| C35, C36 | BHHH matrix, sandwich | outer products, quadratic forms |
| C37 | likelihood at zero, all seven models | algebra; nested refuted, with the exact value |
| C38 | weights | algebra; copies of an observation |
| C39-C42 | `calc_nested_probs`, `naturalize_nest_coefs` | algebra with the 1e-300 floors |
| C43 | `calc_nested_gradient` | derivative along any path of utilities and nest coefficients; two refutations |
| C44 | nested / mixed BHHH and decoupling | Gram matrices; block inverse; ridge refuted |
| C45-C48 | expanded design, simulated likelihood, its gradient | per-draw reduction to C25; derivative of log of mean of products; single draw refuted |
| C49 | `panel_predict` | closed form for all orders; posterior under equal relative order; refuted otherwise |
| C50 | masking of the gradient | invariant over optimiser histories; BFGS matrices; Newton refuted for logit types |
| C51 | NaN by name | exact for distinct names; refuted for duplicates |
| C52 | AIC, BIC, rho | algebra |
| C53 | weights keyword of `fit_mle` | refuted for every model and optimiser |
| C54 | derivative closures over a mutable buffer | induction over evaluation histories |
| C55, C56 | stratified sampler; bootstrap table | induction over strata and sample ids; every generator |
| C57 | percentile interval | order statistics |
| C58 | BCa | inequality for third moments, monotone cdf |
| C59, C77, C78 | ABC weights, interval | algebra; refutation for every estimator that ignores weights; exact interval for a weighted mean |
| C60 | default starting values | C22 composed with the splitting of the vector |
| C61 | options of the re-estimations | case analysis over types; MNL and mixed refuted |
| C62 | `conf_int` | monotone quantile function |
| C63, C64 | parameter-list and names validators | exact characterisations |
| C65 | degenerate nests | algebra |
| C66 | sign of the robust variances | C36; placeholder matrices refuted |
| C67, C68 | residuals, chi-squares, market shares | C17, C25 at a stationary point |
| C69, C70, C72, C73 | `fit_mle` of seven classes, any optimiser | unfolding along the code; induction for C70 |
| C71 | weights validator | exact |
| C74 | predict after fit | equality of the two computations, every model type |
| C75 | own rows | equality of two predictions by restriction of sums; refutations |
| C76 | predictions are distributions | C17, C39, C46 through `predict` |
| C79, C80 | constructors of seven classes | exact success condition; position of mixing names |
| C81-C83 | rebuilding, jackknife, bootstrap | fixpoint of construction; induction over ids / samples |
| C84, C85 | inference tables; objective handed to the optimiser | algebra; C25-C29, C43, C48 |
| C86 | two-dimensional parameters | broadcast semantics; column = one-vector prediction |
| C87, C88 | replicate log-likelihoods and gradient norms | C86 + C24; refutations |
| C89 | interval methods of `Boot` | state-transformer case analysis |
| C90 | column names of the wide table | injectivity of the rendering; refutations for clashes |
| C91 | sessions: sequences of calls over a store of tables and model objects (`ObjectStore.v`, `Session.v`) | invariant over histories: an attribute is written only by `fit_mle` on that object |
| C92 | `store_fit_results` as a sequence of `setattr` | evaluation of the sequence against a declared list |
| C93 | exceptions between the assignments | kept up to the optimiser; torn object exhibited when the inverse raises |
| C94 | tables of the caller | induction over calls: at most one appended column |
| C95 | params / cov / standard errors | invariant over histories, failed fits included |
| C96 | `predict` with `param_list` | prediction reads only attributes that no call changes; mixed logit refuted |
| C97 | edits of a table after construction | fits read only the id columns; refuted for those |
| C98 | results until the next fit; `predict` on the estimation table | invariant + C74 |
| C99 | uniqueness of MNL estimates | exact second-order remainder of the log-likelihood (strict convexity of log-sum-exp up to constants) |
| C100 | definiteness of the Hessian, standard errors | variance form of the Hessian; Schur complements give the inverse by induction on the size; C84 |
| C101 | change of units, recombined designs | row-wise equality of the transforms; linearity of DH; the variance form of the Hessian |
| C102 | reference alternative | the completed vectors differ by a constant; softmax and log-odds are invariant |
| C103 | pooled tables | row-wise copies (C38) and sums split at the boundary |
| C104 | a better row gains | each transform is increasing in its own index; shares; nested: rivals lose because lambda <= 1, the row gains because the total is 1 |
| C105 | richer models | the smaller design is a recombination of the larger (C101), shapes at zero give the multinomial logit; then maximality |
| C106 | larger penalty | add the two optimality inequalities |
| C107 | rho-squared of a fit | null log-likelihood is negative because a chosen row has a rival; C24, C52; C33 at a stationary point |
| C108 | order of the draws | every column-wise quantity is permuted, every reported one is a mean over columns |
| C109 | sign of a standard deviation | the same relation between two expanded designs with a sign per variable |
| C110 | order of the nests | the columns of rows_to_nests are permuted; sums over nests are invariant under permutation |
| C111 | bootstrap table = weighted table | C56 gives the rows of the bootstrap table, columns_of commutes with taking rows, then the frequency-weight theorem C38 |
| C112 | order of the rows | a rearranged table lists copies of the same observations (C38); the observation columns of the mapping matrices are permuted, all per-row quantities move with their rows |
| C113 | odds in nested and mixed logit | the nested probability is strength over a common denominator; the strength reads only the row's own nest; sums over corresponding rows are equal; mixed: a concrete three-alternative witness |
| C114 | summaries | Summaries.v reads the attributes that ObjectStore.v sets one by one; a program that assigns summary and fit_summary only after its last possible failure keeps them on error; induction over histories |
| C115 | pickle file names | string functions; endswith characterised by concatenation |
| C116 | only finite numbers enter an estimation | RawData.v: columns by dtype kind, cells finite, NaN or infinite; the check is characterised column by column; the raw design matrix is related entry by entry to that of any filled table |
| C117 | gaps in prediction tables | IEEE NaN propagation through masking, products, sums and sparse products; rows of one observation only meet in their own denominator |
| C118 | seeds | Generator.v: a generator is a state machine; the calls with their exact order of checks, seeding and drawing; programs as lists of calls; the state after a seeded call is a function of the seed |
| C119 | a person's simulated prediction and the other people | position of a draw in the stream (C118_numbers_used), then C75; a counting generator refutes the general statement |
| C120 | perfectly predicted choices | the gradient along v is the sum over chosen rows of weight times (value - expected value), each term >= 0; concavity (C33) for the value |
| C121 | penalised estimates are bounded | log-likelihood without penalty is <= 0 (C24), value at zero (C37), stored table (C15, C73) |
| C122 | computed probabilities | doubles as reals of Flocq's format plus infinities and NaN; rounding to nearest; sums as arbitrary trees; induction over the tree for overflow and error |
| C123 | computed ranking | monotonicity of rounding; the guard on zero as the only exception; witnesses with utilities -700, -20, 700 |
| C124 | computed log-likelihood | induction over the summation tree with terms in [-2048, 0]; composition with C122 |
| C125 | finite log-likelihood for every logit type | transformations in double precision with their guards for infinities; case analysis on overflow at every step; composition with C122 and C124 |
| C126 | computed transformed utilities | exp(exp V) and (1+exp(-V))^shape round to 1; refuted with exact odds; error bounds elsewhere by first-order error propagation with the condition number P/(P-1) |
| C127 | multinomial logit from data to log-likelihood in double precision | inner products as evaluation trees with optional fused multiply-add; induction over the tree; composition with C122 and C124; numerical bounds |
| C128 | asymmetric models from data to log-likelihood in double precision | rounding error of each step (C126, C127) plus Lipschitz bounds of the four transformations (mean value theorem), composed with C122 and C124 |
| C129 | nested logit probabilities in double precision | `near d x y` (x within a factor exp(d) of y) carried through scaling, exponentials, sums, powers and quotients with every guard of the code; Lipschitz bound of the textbook formula in utilities and nest coefficients; the exact model's probabilities are the textbook ones |
| C130 | objective in double precision | accuracy of an inner product in any order (C127) applied to choice vector and weighted logarithms, and to the parameters with themselves; probabilities from C128 and C129; the computed nest coefficients minus one |
| C131 | gradient in double precision | accuracy of an inner product in any order (C127) for weighted residuals and a column; probabilities from C128; the exact entry from the form of est_gradient; C25 for the derivative |
| C132 | derivatives of the transformed utilities in double precision | closeness by a factor e^d (`near`) through every operation, with the cancelling differences bounded below by the exact derivative's denominator; then C131 for the gradient and C25-C30 for the derivative |
| C133 | guards of the derivatives over the whole range of doubles | case analysis of each guard, with the extended arithmetic's closure (a finite number, an infinity or undefined) at every step; refuted for the scobit shape derivative by evaluating the code symbolically over a range |
| C134 | derivatives for utilities far from zero | the guard that applies is evaluated symbolically over the range; the exact derivative is bounded through x/(1-exp(-x)) and t/(1+t) <= ln(1+t) <= t |
| C135 | reported statistics in double precision | an order on doubles with infinities; every operation is monotone in it because rounding and overflow are |
| C136 | simulated log-likelihood of the mixed logit in double precision | a sum or mean of doubles between two powers of two stays between them; distances on the logarithmic scale for the accuracy; witnesses of 1005 and 1100 choices for the underflow |
| C137 | accuracy of the reported statistics | one rounding error per operation, added up |
| C138 | gradient of the mixed logit in double precision | weights of the draws from C136 for all draws and for a single draw; error of each product; sums over rows and draws as inner products |
| C139 | get_dataframe_from_data with an arbitrary reader (`RawData.v`) | case analysis; specification of endswith |


## 5. Findings

Places where the code does not do what the property says.  Each is exhibited by a
theorem about the model where one is named; the others were seen while
transcribing and are recorded without a theorem.

**Data preparation**

1. `convert_wide_to_long` pairs availability columns in dictionary order with
   alternatives in sorted order (`C10_refuted_dictionary_order`).
2. `convert_long_to_wide` misaligns the choice column when an observation's rows
   are not contiguous (`C11_refuted_interleaved_rows`).
3. `ensure_num_chosen_alts_equals_num_obs` compares totals only
   (`C06_refuted_total_only`); the model constructor checks choices not at all
   (`ensure_all_alternatives_are_chosen` is defined, its call is commented out).
4. The contiguity check rejects contiguous blocks whose ids decrease
   (`C05_refuted_rejects_contiguous_column`).
5. Names are matched to design columns by the order of the names dictionary, not
   by key (`C08_refuted_names_misaligned`); in a mixed logit this makes another
   variable's coefficient random (`C80_refuted_names_in_another_order`).
6. `add_intercept_to_dataframe` changes the caller's table
   (`C94_tables_keep_their_columns` says this is the only change).
7. Wide column names can clash, and a partial `alt_name_dict` passes its check
   and then fails with `KeyError` (`C90_refuted_variable_called_availability`,
   `..._individual_variable_with_suffix`, `..._repeated_alternative_names`,
   `..._alternative_names_with_underscores`).

**Derivatives and likelihoods**

8. `calc_hessian` leaves out the second derivative of the transform
   (`C34_refuted_clog_log_curvature`).
9. Clog-log: above 3.7 the transform is approximated but its derivative is not
   (`C30_refuted_clog_log_above_switch`).
10. Clipped utilities, several or no choices in an observation, weights that vary
    within an observation: the gradient is not the derivative
    (`C30_refuted_clipping`, `..._choices_per_observation`, `..._uneven_weights`).
11. Asymmetric logit: kink at index 0 (`C30_refuted_asym_kink`).
12. `calc_fisher_info_matrix` subtracts 2*ridge*I from a sum of outer products
    (`C35_refuted_with_ridge`) and takes the maximum of the weights within an
    observation.
13. Nested gradient wrong for an observation that has no available alternative in
    some nest (`C43_refuted_observation_lacking_a_nest`) and with a ridge, whose
    penalty uses other coordinates than its derivative (`C43_refuted_ridge`).
14. Nested null log-likelihood is taken at nest coefficients 1/2
    (`C37_refuted_nested`); with a ridge it is also penalised.
15. Mixed BHHH ridge has the wrong sign (`C44_refuted_mixed_ridge`).
16. Nested and mixed robust covariance uses a placeholder: every robust variance
    is negative (`C66_refuted_nested_robust_variances`,
    `C66_refuted_mixed_robust_variances`).
17. One draw: probabilities are broadcast over all rows
    (`C47_refuted_single_draw`, `C48_refuted_single_draw`,
    `C46_refuted_single_draw_predict`).
18. Scobit shape derivative: the overflow guard lacks a factor (IEEE only).
19. `split_param_vec` with zero index columns returns everything (`x[-0:]`).
20. Nest probabilities of absent nests are 1e-300 instead of 0 (`C40_sums`).

**Estimation and inference**

21. `fit_mle` accepts and ignores `weights`
    (`C53_refuted_fit_mle_ignores_weights`, `C53_refuted_weights_change_nothing`).
22. Constrained positions are masked in the gradient but not in the Hessian of the
    logit types (`C50_refuted_newton_logit`).
23. Constrained parameters are blanked by name (`C51_refuted_duplicate_names`);
    AIC, BIC, rho-bar and df count them; the stored log-likelihood includes the
    ridge penalty.
24. `fit_mle(just_point=True)` still overwrites the model's stored
    `optimization_method` and `ridge_param`.
25. `shape_ref_pos` is range-checked only when shape names are given.
26. A user's variable name containing "Sigma " suppresses the mixing names.

**Prediction**

27. Nested `predict` returns only `long_probs` when both arrays are asked for
    (`C16_refuted_nested_both`); mixed `predict` raises (`C16_refuted_mixed_both`).
28. Alternative-specific parameters are matched to a new table's alternatives by
    rank (`C75_refuted_other_alternatives`, `C75_refuted_fewer_alternatives`); one
    intercept is broadcast (`C75_refuted_single_intercept`).
29. `panel_predict` evaluates a person's past with another person's draws when the
    tables order persons differently (`C49_refuted_person_order`).
30. Scobit without outside intercepts raises for two-dimensional parameters
    (`C86_refuted_scobit_without_intercepts`); one-column arrays are rejected or
    squared (`C86_refuted_one_column_*`).

**Bootstrap**

31. Boot's names leave out default shape / intercept names
    (`C15_refuted_bootstrap_names_with_defaults`).
32. Sample size is wrong with two choices in an observation
    (`C55_refuted_two_choices`).
33. BCa: one-sided replicates raise (`C58_refuted_one_sided_replicates`),
    percentiles can cross (`C58_refuted_percentiles_cross`).
34. ABC: minus-weights can be negative (`C59_refuted_minus_weights_nonneg`); since
    the weights are ignored, the interval is a point or the call raises
    (`C77_refuted_*`); `calc_acceleration_abc` has no zero guard;
    `efron_quadratic_coef_abc` does not index its denominator.
35. Asymmetric starting intercepts are divided by ln J when unnamed
    (`C60_refuted_asym_without_intercept_names`); ln J is of the original table.
36. Re-estimations of the MNL ignore the options (`C61_refuted_mnl*`); of the
    mixed logit never succeed (`C61_refuted_mixed_logit`);
    `get_mnl_point_est` mutates the caller's keyword dictionary.
37. `generate_bootstrap_replicates(weights=...)` never uses the weights.
38. Replicate log-likelihoods of a panel mixed logit ignore the panel
    (`C87_refuted_panel_mixed_logit`); gradient norms ignore `constrained_pos`
    (`C88_refuted_constrained_positions_ignored`).
39. Stored intervals go stale when replicates change
    (`C89_refuted_stale_after_new_replicates`,
    `C89_refuted_combined_table_stale`); `'{:.3g}%'` labels round;
    `calc_conf_intervals('abc')` without `init_vals` is an `AttributeError`.
40. Resampling or leaving out observations may remove an alternative, which breaks
    the re-estimation (`C111_refuted_lost_alternative`).
41. `Boot.__init__` initialises `jackknife_log_likehoods` (typo).

**Histories of calls**

42. A fit whose Hessian cannot be inverted raises after the coefficients,
    probabilities and log-likelihood have been replaced and before `params`, `cov`
    and `standard_errors` are: the object mixes two fits
    (`C93_refuted_when_the_inverse_raises`, `C93_refuted_mixture`).
43. The design matrix and choices are copies taken at construction while the
    identifier columns are read from the caller's table at every fit; changing
    them in between pairs old rows with new observations
    (`C97_refuted_observation_ids_are_read_again`).
44. A mixed logit rejects every `param_list` before its first estimation, because
    the names of the mixing parameters are added by `fit_mle`
    (`C96_refuted_mixed_logit_before_estimation`).
45. Simulation draws are attached to the mixing units in order of first appearance in
    the table, so sorting the rows of a panel changes the mixed logit's results
    although the seed is the same (`C112_refuted_mixed_same_seed`).
46. `get_statsmodels_summary` only checks for `estimation_success`, which is set before
    the Hessian is inverted.  After a fit that raises in the inverse it reports the
    rho-squared and null log-likelihood of the failed fit beside the log-likelihood, AIC
    and parameters of an earlier one (`C114_refuted_report_mixes_fits`), or raises
    AttributeError instead of saying that the model has not been estimated
    (`C114_refuted_report_after_failed_first_fit`).

47. **predict does not check the values of its table.**  Construction refuses a table with a NaN
    in a variable of the specification (`C116_accepts_exactly_finite_numbers`), even in rows
    whose alternatives do not use the variable.  predict accepts the same table without a
    warning: because masking multiplies by zero, and zero times NaN is NaN, the NaN of an
    unused cell makes every probability of its observation NaN
    (`C117_gap_spoils_its_observation`, `ex_gap_runs`).  Boolean columns are refused at
    construction and accepted by predict.
48. **Seeds are global, and two of them are treated differently.**  The `seed` argument of
    fit_mle, predict, panel_predict and of the bootstrap functions reseeds numpy's global
    generator, so the caller's own later draws repeat as well (`C118_later_draws_repeat`).
    The mixed logit refuses the seed 0 with an AssertionError; the bootstrap sampler
    accepts it (`ex_seed_refused`, `ex_seed_zero`).
49. **A person's simulated probabilities depend on who else is in the table.**  The draws
    are made one random coefficient after the other, for all people at once.  With two or
    more random coefficients the same seed gives a person other draws as soon as a person
    is added, even at the end of the table (`C119_refuted_other_people`).
50. **The underflow guard inverts rankings.**  A probability that underflows to zero is
    replaced by 1e-300, but probabilities between 5e-324 and 1e-300 are kept.  With
    utilities -700, -20 and 700 the first alternative gets a larger computed probability
    than the second; raising a utility from -700 to -20 lowers the computed probability
    (`C123_refuted_computed_ranking`, `C123_refuted_computed_monotonicity`).  The same guard
    makes an impossible choice count as log(1e-300), about -691, where the exact value is
    -1400 (`C124_refuted_log_of_an_unlikely_choice`).
51. **Many alternatives at the utility limit overflow.**  The limit of 700 on utilities keeps
    one exponential finite, not the sum: about 17700 rows (2^19 in the theorem, which uses
    a coarse bound on e) at the limit make the denominator infinite and all probabilities
    of the observation 1e-300 (`C122_refuted_for_many_rows`).
52. **Clog-log loses all information below -38.**  For a utility V of -38 or less,
    exp(exp V) rounds to 1, so that the transformed utility is log 0, replaced by -1e300; the
    exact value is close to V.  An observation all of whose utilities are that low gets equal
    probabilities, whatever the utilities (`C126_refuted_clog_log_probabilities`); the
    derivative used for the gradient is 1 there, so it describes another function.
53. **Scobit loses all information above 38.**  1+exp(-V) rounds to 1, so that the
    transformed utility is -log 0, replaced by 1e300: alternatives with utilities above 38
    get equal probabilities, even with zero shape parameters, where the model should be the
    multinomial logit (`C126_refuted_scobit_probabilities`).  The later guard for large
    powered terms in the same function is never reached.
54. **Infinite utilities and NaN.**  An infinite utility with a shape whose exponential
    underflows gives NaN in the uneven logit (0 times infinity), and in the asymmetric logit
    with two alternatives (`C125_refuted_infinite_utilities`).
55. **Nested logit: probabilities above ten million.**  exp(V/lambda) and the sum over a nest
    are guarded one by one: each exponential may be finite while their sum is infinite and is
    replaced by 1e300.  Four alternatives with utilities of 709 nest coefficients (0.692 with
    a coefficient of 1/1024) get "probabilities" above 10^7 each, instead of 1/4
    (`C129_refuted_probabilities_above_ten_million`).
56. **Nested logit: high utilities of a nest are not told apart.**  From 710 nest
    coefficients on every exponential is replaced by the same 1e300, so that utilities 1 and
    2 in a nest with coefficient 1/1024 get equal probabilities
    (`C129_refuted_high_utilities_of_a_nest_are_not_told_apart`).  The multinomial logit
    code subtracts no maximum either, but there 710 is a utility, here a quotient.
57. **Nested logit: low utilities win.**  An exponential that underflows to zero is replaced
    by 1e-300, which is above exp(-700): in a nest with coefficient 1/1024 a utility of
    -0.729 gets more than nine tenths of the probability against a utility of -0.684
    (`C129_refuted_ranking_within_a_nest`).
58. **Scobit: the derivative is taken to be one for small shapes.**  The guard for a powered
    term of one assumes a large utility (where the derivative tends to 1), but the powered
    term also rounds to one when the natural shape is small: for a shape parameter of -50 or
    less and a utility between -30 and -4 the code uses 1 where the derivative is at most
    -2/V, at -30 at most 1/15 (`C132_refuted_scobit_small_shapes`).
59. **Clog-log: the derivative is quantised before it is guarded.**  Just above -37, where
    1-exp(-exp V) is one unit of rounding, the guard for zero does not apply: at -37 the code
    uses less than 7/8 where the derivative is at least 1
    (`C132_refuted_clog_near_minus_37`).
60. **Scobit: the shape derivative is undefined for low utilities and large shapes.**  When
    the powered term overflows, the quotient is infinity over infinity; the guard that would
    replace it applies for utilities within 10 of zero only (`scobit.py:350-369`).  For a
    utility between -700 and -11 and a shape parameter between 5 and 700 the derivative, and
    with it the whole entry of the gradient, is nan (`C133_refuted_scobit_shape_derivative`,
    `C133_refuted_scobit_gradient_is_defined`).
61. **Scobit: the guard of the shape derivative omits the chain rule.**  For a utility between
    -10 and 0 and a shape parameter of 8 or more the guard returns -log(1+exp(-V)), the limit
    of the derivative in the natural shape, without multiplying it by the natural shape
    exp(b): a value of at least -12 where the derivative is at most -2000 (same theorem).
62. **Scobit: the shape derivative has the wrong sign when exp(-V) overflows.**  For a utility
    below -712 the code uses +1e300; the derivative is negative (same theorem).
63. **Mixed logit: the likelihood of a long sequence of choices underflows and is replaced by
    1e-300.**  `calc_choice_sequence_probs` exponentiates the log-probability of the whole
    sequence before averaging over the draws.  A decision maker with, say, 1100 choices of
    probability one half each gets the simulated probability 1e-300 whatever the parameters,
    as long as every draw stays below exp(-750): the objective is flat there
    (`C136_refuted_flat_for_unlikely_sequences`), and larger than for a decision maker with
    1005 such choices (`C136_refuted_order_of_unlikely_sequences`).
64. **Mixed logit: for unlikely sequences every draw gets the same weight in the gradient.**
    Below exp(-750) each sequence probability is replaced by 1e-300, and so is their mean:
    the weights are equal, although one draw may be 2^1100 times as likely as another
    (`C138_refuted_equal_weights_for_unlikely_sequences`, `C138_very_different_draws`).

## 6. Coverage, function by function

Function of `/repo/src/pylogit` (lines): definitions of the model whose comments cite lines in it.


**asym_logit.py**

* `split_param_vec` (64-118): `Transforms.num_shapes`, `Transforms.split_param_vec`
* `_convert_eta_to_c` (121-181): `Transforms.skip`, `Transforms.convert_eta_to_c`, `PredictNd.convert_eta_to_c_nd`, `Construct.ref_pos`, `FloatTransforms.fexp_eta`, `FloatLogit.eta_position`
* `_calc_deriv_c_with_respect_to_eta` (184-225): `Transforms.skip`, `Transforms.deriv_c_wrt_eta`, `Estimation.call_dh_d_shape`, `FloatDerivatives.fdc_deta`
* `_asym_utility_transform` (228-347): `Transforms.skip`, `Transforms.long_intercepts`, `Transforms.asym_long_shapes`, `Transforms.asym_transform`, `Predict.place_intercepts`, `PredictNd.scatter`, `PredictNd.asym_transform_nd`, `Construct.ref_pos`
* `_asym_transform_deriv_v` (350-435): `Transforms.asym_deriv_v`, `Estimation.call_dh_dv`, `FloatDerivatives.fasym_deriv_v`
* `_asym_transform_deriv_shape` (438-541): `Transforms.asym_dh_dc_values`, `Transforms.asym_deriv_shape`, `Estimation.call_dh_d_shape`, `FloatDerivatives.fasym_dh_dc`
* `_asym_transform_deriv_alpha` (544-586): `Transforms.dh_d_alpha`
* `create_calc_dh_dv` (589-618): `Transforms.Asym_model`, `Estimation.buffers`
* `create_calc_dh_d_shape` (621-663): `Transforms.Asym_model`, `Estimation.buffers`
* `create_calc_dh_d_alpha` (666-707): `Transforms.dh_d_alpha`
* `AsymEstimator.set_derivatives` (760-763): `Transforms.Asym_model`
* `AsymEstimator.check_length_of_initial_values` (765-801): `Transforms.assumed_param_dimensions`
* `MNAL.__init__` (877-916): `Construct.class_init`
* `MNAL.fit_mle` (918-1099): `Estimation.shaped_init`, `Estimation.fit_estimator`

**base_multinomial_cm_v2.py**

* `ensure_valid_nums_in_specification_cols` (60-96): `RawData.problem_col`, `RawData.ensure_valid_nums_in_specification_cols`
* `ensure_ref_position_is_valid` (99-142): `BaseModel.ensure_ref_position_is_valid`
* `check_length_of_shape_or_intercept_names` (145-180): `BaseModel.check_length_of_shape_or_intercept_names`
* `check_type_of_nest_spec_keys_and_values` (183-207): `BaseModel.check_type_of_nest_spec_keys_and_values`
* `check_for_empty_nests_in_nest_spec` (210-235): `BaseModel.check_for_empty_nests_in_nest_spec`
* `ensure_alt_ids_in_nest_spec_are_ints` (238-264): `BaseModel.ensure_alt_ids_in_nest_spec_are_ints`
* `ensure_alt_ids_are_only_in_one_nest` (267-293): `BaseModel.ensure_alt_ids_are_only_in_one_nest`
* `ensure_all_alt_ids_have_a_nest` (296-327): `BaseModel.ensure_all_alt_ids_have_a_nest`
* `ensure_nest_alts_are_valid_alts` (330-361): `BaseModel.ensure_nest_alts_are_valid_alts`
* `add_intercept_to_dataframe` (364-383): `BaseModel.add_intercept_to_dataframe`, `RawData.radd_intercept`
* `check_num_rows_of_parameter_array` (386-407): `BaseModel.check_num_rows_of_parameter_array`
* `check_type_and_size_of_param_list` (410-422): part of `BaseModel.check_param_list_validity`
* `check_type_of_param_list_elements` (425-440): `BaseModel.check_type_of_param_list_elements`
* `check_num_columns_in_param_list_arrays` (443-464): `BaseModel.check_num_columns_in_param_list_arrays`
* `check_dimensional_equality_of_param_list_arrays` (467-492): `BaseModel.check_dimensional_equality_of_param_list_arrays`
* `check_for_choice_col_based_on_return_long_probs` (495-521): `BaseModel.check_for_choice_col_based_on_return_long_probs`
* `ensure_all_mixing_vars_are_in_the_name_dict` (524-574): `BaseModel.ensure_all_mixing_vars_are_in_the_name_dict`
* `ensure_all_alternatives_are_chosen` (577-608): not modelled: never called
* `compute_aic` (611-639): `BaseModel.compute_aic`, `FloatReport.faic`
* `compute_bic` (642-681): `BaseModel.compute_bic`, `FloatReport.fbic`
* `MNDC_Model.__init__` (776-918): `BaseModel.check_names_and_ref`, `BaseModel.reduce_lists`, `BaseModel.check_nest_spec`, `Construct.created`, `Construct.base_init`, `Session.base_checks`, `Session.table_after_create`, `RawData.rdesign_of_model`
* `MNDC_Model.get_mappings_for_fit` (920-951): `Estimation.estimator_core`
* `MNDC_Model._store_basic_estimation_results` (953-993): `BaseModel.store_fit_results`, `ObjectStore.store_basic`
* `MNDC_Model._create_results_summary` (995-1029): `ObjectStore.summary_table`
* `MNDC_Model._record_values_for_fit_summary_and_statsmodels` (1031-1071): `BaseModel.store_fit_results`, `ObjectStore.record_fit_values`
* `MNDC_Model._create_fit_summary` (1073-1115): `ObjectStore.fit_summary_of`
* `MNDC_Model._store_inferential_results` (1117-1164): inlined in `BaseModel.generic_inference`
* `MNDC_Model._store_generic_inference_results` (1166-1275): `BaseModel.store_optional_parameters`, `BaseModel.generic_inference`, `ObjectStore.put_inference`, `FloatReport.fstd_err`, `FloatReport.ftvalue`, `FloatReport.fpvalue`
* `MNDC_Model._store_optional_parameters` (1277-1339): `BaseModel.dec`, `BaseModel.store_optional_parameters`
* `MNDC_Model._adjust_inferential_results_for_parameter_constraints` (1341-1375): `BaseModel.blank_constrained`, `BaseModel.adjust_inferential_results`, `ObjectStore.blank_in_place`, `ObjectStore.blank_all`
* `MNDC_Model._check_result_dict_for_needed_keys` (1377-1386): holds by typing (`BaseModel.results` is a record)
* `MNDC_Model._add_mixing_variable_names_to_individual_vars` (1388-1405): `BaseModel.add_mixing_variable_names`, `ObjectStore.extend_names`
* `MNDC_Model.store_fit_results` (1407-1509): `BaseModel.store_fit_results`, `ObjectStore.default_design_3d`, `ObjectStore.put_block`, `ObjectStore.store_fit`
* `MNDC_Model.fit_mle` (1513-1554): abstract: raises NotImplementedError; not modelled
* `MNDC_Model.print_summaries` (1556-1572): `Summaries.print_summaries`
* `MNDC_Model.conf_int` (1574-1623): `BaseModel.fsub`, `Summaries.reported`, `FloatReport.flower`
* `MNDC_Model.get_statsmodels_summary` (1625-1706): `Summaries.reported`, `Summaries.get_statsmodels_summary`
* `MNDC_Model.check_param_list_validity` (1708-1777): `BaseModel.check_param_list_validity`
* `MNDC_Model.predict` (1779-1972): `MixedCalcs.mixed_predict`, `Predict.params`, `Predict.predict_logit`, `Predict.predict_nested`, `Predict.predict_mixed`, `Predict.predict`, `PredictNd.prediction_params_nd`, `PredictNd.predict_nd`
* `MNDC_Model.to_pickle` (1974-1997): `Summaries.pickle_path`

**bootstrap.py**

* `is_kernel` (35-43): not modelled: progress bar
* `get_param_names` (49-78): `BaseModel.get_param_names`
* `get_param_list_for_prediction` (81-138): `BootLogLike.pl_step`, `BootLogLike.get_param_list_for_prediction`
* `ensure_replicates_kwarg_validity` (141-149): `BootLogLike.replicates_named`
* `Boot.__init__` (162-184): `BootMle.boot`, `BootIntervals.bstate`
* `Boot.generate_bootstrap_replicates` (186-359): `BootMle.generate_bootstrap_replicates`, `BootIntervals.set_boot`
* `Boot.generate_jackknife_replicates` (361-498): `BootMle.generate_jackknife_replicates`, `BootIntervals.set_boot`
* `Boot.calc_log_likes_for_replicates` (500-594): `BootLogLike.replicates_named`, `BootLogLike.one_replicate`, `BootLogLike.calc_log_likes_for_replicates`, `BootLogLike.calc_gradient_norm_for_replicates`
* `Boot.calc_gradient_norm_for_replicates` (596-664): `Estimation.create_estimation_obj`, `BootLogLike.replicates_named`, `BootLogLike.calc_gradient_norm_for_replicates`
* `Boot.calc_percentile_interval` (666-699): `BootIntervals.endpoint_names`, `BootIntervals.percentile_table`
* `Boot.calc_bca_interval` (701-738): `BootIntervals.endpoint_names`, `BootIntervals.bca_table`
* `Boot.calc_abc_interval` (740-791): `BootIntervals.endpoint_names`, `BootIntervals.abc_table`
* `Boot.calc_conf_intervals` (793-882): `BootIntervals.endpoint_names`, `BootIntervals.all_names`, `BootIntervals.side_by_side`, `BootIntervals.all_table`, `BootIntervals.calc_conf_intervals`

**bootstrap_abc.py**

* `ensure_model_obj_has_mapping_constructor` (32-40): holds by typing
* `ensure_rows_to_obs_validity` (43-51): holds by typing
* `ensure_wide_weights_is_1D_or_2D_ndarray` (54-66): holds by typing
* `check_validity_of_long_form_args` (69-79): holds by typing
* `create_long_form_weights` (82-123): `BootAbc.create_long_form_weights`
* `calc_finite_diff_terms_for_abc` (126-225): `BootAbc.wide_weights_plus`, `BootAbc.finite_diff_loop`
* `calc_empirical_influence_abc` (228-280): `BootAbc.calc_empirical_influence_abc`
* `calc_2nd_order_influence_abc` (283-355): `BootAbc.calc_2nd_order_influence_abc`
* `calc_influence_arrays_for_abc` (358-418): `BootAbc.calc_abc_interval`
* `calc_std_error_abc` (421-447): `BootAbc.calc_std_error_abc`
* `calc_acceleration_abc` (450-478): `BootAbc.calc_acceleration_abc`
* `calc_bias_abc` (481-508): `BootAbc.calc_bias_abc`
* `calc_quadratic_coef_abc` (511-625): `BootAbc.standardized_influence`, `BootAbc.quadratic_loop`, `BootAbc.calc_quadratic_coef_abc`
* `efron_quadratic_coef_abc` (628-747): `BootAbc.standardized_influence`, `BootAbc.quadratic_loop`, `BootAbc.efron_quadratic_coef_abc`
* `calc_total_curvature_abc` (750-779): `BootAbc.calc_total_curvature_abc`
* `calc_bias_correction_abc` (782-807): `BootAbc.calc_bias_correction_abc`
* `calc_endpoint_from_percentile_abc` (810-900): `BootAbc.endpoint_loop`, `BootAbc.least_favorable_lambda`, `BootAbc.calc_endpoint_from_percentile_abc`
* `efron_endpoint_from_percentile_abc` (903-1001): `BootAbc.endpoint_loop`, `BootAbc.least_favorable_lambda`, `BootAbc.efron_endpoint_from_percentile_abc`
* `efron_endpoints_for_abc_confidence_interval` (1078-1160): `BootAbc.calc_abc_interval`
* `calc_abc_interval` (1163-1281): `BootAbc.calc_abc_interval`, `BootIntervals.abc_table`

**bootstrap_calcs.py**

* `calc_percentile_interval` (23-86): `BootCalcs.calc_percentile_interval`
* `calc_bias_correction_bca` (89-119): `BootCalcs.calc_bias_correction_bca`
* `calc_acceleration_bca` (122-160): `BootCalcs.acceleration_quotient`
* `calc_lower_bca_percentile` (163-207): `BootCalcs.bca_percentile`, `BootCalcs.calc_lower_bca_percentile`
* `calc_upper_bca_percentile` (210-254): `BootCalcs.bca_percentile`, `BootCalcs.calc_upper_bca_percentile`
* `calc_bca_interval` (257-326): `BootCalcs.calc_bca_interval`

**bootstrap_mle.py**

* `extract_default_init_vals` (17-78): `BootMle.assign_tail`, `BootMle.extract_default_init_vals`
* `get_model_abbrev` (81-103): `BootMle.recreation_args`
* `get_model_creation_kwargs` (106-136): `BootMle.recreation_args`
* `get_mnl_point_est` (139-222): `BootMle.recreation_args`, `BootMle.mnl_args`, `BootMle.get_mnl_point_est`
* `retrieve_point_est` (225-338): `BootMle.recreation_args`, `BootMle.retrieve_point_est`

**bootstrap_sampler.py**

* `relate_obs_ids_to_chosen_alts` (16-58): `BootSampler.relate_obs_ids_to_chosen_alts`
* `get_num_obs_choosing_each_alternative` (61-95): `BootSampler.get_num_obs_choosing_each_alternative`
* `create_cross_sectional_bootstrap_samples` (98-180): `BootSampler.fill_samples`, `BootSampler.create_cross_sectional_bootstrap_samples`, `Generator.g_fill_samples`, `Generator.g_bootstrap_samples`
* `create_bootstrap_id_array` (183-207): `BootSampler.create_bootstrap_id_array`
* `create_deepcopied_groupby_dict` (210-245): `BootSampler.create_deepcopied_groupby_dict`
* `check_column_existence` (248-276): `BootSampler.check_column_existence`
* `ensure_resampled_obs_ids_in_df` (279-301): `BootSampler.ensure_resampled_obs_ids_in_df`
* `create_bootstrap_dataframe` (304-363): `BootSampler.create_bootstrap_dataframe`

**bootstrap_utils.py**

* `check_conf_percentage_validity` (14-27): `BootCalcs.check_conf_percentage_validity`
* `ensure_samples_is_ndim_ndarray` (30-41): `BootCalcs.ensure_samples_is_2dim`
* `get_alpha_from_conf_percentage` (44-49): `BootCalcs.get_alpha_from_conf_percentage`
* `combine_conf_endpoints` (52-56): `BootCalcs.intervals`

**choice_calcs.py**

* `calc_probabilities` (36-189): `ChoiceCalcs.sys_utilities`, `ChoiceCalcs.clip_exponent`, `ChoiceCalcs.long_exponentials`, `ChoiceCalcs.individual_denominators`, `ChoiceCalcs.long_denominators`, `ChoiceCalcs.guard_zero`, `ChoiceCalcs.long_probs`, `ChoiceCalcs.chosen_probs`
* `calc_log_likelihood` (192-287): `ChoiceCalcs.eff_weights`, `ChoiceCalcs.all_params`, `ChoiceCalcs.calc_log_likelihood`, `Floats.flog`, `FloatObjective.float_weighted_ll`, `FloatObjective.float_penalty`, `FloatObjective.float_objective`
* `calc_gradient` (290-486): `ChoiceCalcs.eff_weights`, `ChoiceCalcs.dh_db`, `ChoiceCalcs.calc_gradient`, `Estimation.evaluate`, `FloatGradient.float_residual`, `FloatGradient.float_score`, `FloatGradient.float_gradient_entry`, `FloatDerivatives.float_column`
* `quadratic_prod_wrt_dp_ds` (489-558): `ChoiceCalcs.quadratic_prod_wrt_dp_ds`
* `calc_hessian` (561-826): `ChoiceCalcs.eff_weights`, `ChoiceCalcs.dh_db`, `ChoiceCalcs.calc_hessian`, `Estimation.evaluate`
* `calc_fisher_info_matrix` (829-1002): `ChoiceCalcs.dh_db`, `ChoiceCalcs.weights_per_obs`, `ChoiceCalcs.calc_fisher_info_matrix`, `Estimation.evaluate`
* `calc_asymptotic_covariance` (1005-1029): `ChoiceCalcs.calc_asymptotic_covariance`

**choice_tools.py**

* `get_dataframe_from_data` (25-54): `RawData.get_dataframe_from_data`
* `ensure_object_is_ordered_dict` (75-85): holds by typing
* `ensure_object_is_string` (88-98): holds by typing
* `ensure_object_is_ndarray` (101-112): holds by typing
* `ensure_columns_are_in_dataframe` (115-158): `ChoiceTools.ensure_columns_are_in_dataframe`
* `check_argument_type` (161-196): holds by typing
* `ensure_alt_id_in_long_form` (199-219): first test of `ChoiceTools.create_design_matrix` and `RawData.rcreate_design_matrix`
* `ensure_specification_cols_are_in_dataframe` (222-266): `RawData.rensure_specification_cols`
* `check_type_and_values_of_specification_dict` (269-339): `ChoiceTools.check_group`, `ChoiceTools.check_spec_value`, `ChoiceTools.check_type_and_values_of_specification_dict`
* `check_keys_and_values_of_name_dictionary` (342-419): `ChoiceTools.check_name`, `ChoiceTools.check_keys_and_values_of_name_dictionary`
* `ensure_all_columns_are_used` (422-465): not modelled: emits a warning only
* `check_dataframe_for_duplicate_records` (468-493): `ChoiceTools.pair_mem`
* `ensure_num_chosen_alts_equals_num_obs` (496-528): `ChoiceTools.ensure_num_chosen_alts_equals_num_obs`
* `check_type_and_values_of_alt_name_dict` (531-562): `WideNames.check_type_and_values_of_alt_name_dict`
* `ensure_ridge_is_scalar_or_none` (565-584): `ChoiceTools.ridge_arg`
* `create_design_matrix` (587-716): `ChoiceTools.columns_of`, `ChoiceTools.names_in_order`, `ChoiceTools.create_design_matrix`, `Construct.z_string`, `RawData.xcolumns_of`, `RawData.rcreate_design_matrix`
* `get_original_order_unique_ids` (719-746): `Mappings.get_original_order_unique_ids`
* `create_row_to_some_id_col_mapping` (749-774): `Mappings.create_row_to_some_id_col_mapping`
* `create_sparse_mapping` (777-833): `Mappings.create_sparse_mapping`
* `create_long_form_mappings` (841-976): `Mappings.multiply_rows`, `Mappings.alt_id_to_nest_name`, `Mappings.nest_name_to_nest_id`, `Mappings.nest_id_vec`, `Mappings.create_rows_to_nests`, `Mappings.create_long_form_mappings`, `Predict.opt_int_col`
* `convert_long_to_wide` (979-1256): `WideLong.obs_to_alt_entry`, `WideLong.obs_to_var_entry`, `WideLong.convert_long_to_wide`, `WideNames.alt_label`, `WideNames.wide_table`, `WideNames.convert_long_to_wide_named`
* `check_wide_data_for_blank_choices` (1259-1281): holds by typing: the choice column of `wide_frame` has an integer in every row
* `ensure_unique_obs_ids_in_wide_data` (1284-1307): `WideLong.ensure_unique_obs_ids_in_wide_data`
* `ensure_chosen_alternatives_are_in_user_alt_ids` (1310-1343): `WideLong.ensure_chosen_alternatives_are_in_user_alt_ids`
* `ensure_each_wide_obs_chose_an_available_alternative` (1346-1398): `WideLong.ensure_each_wide_obs_chose_an_available_alternative`
* `ensure_all_wide_alt_ids_are_chosen` (1401-1429): `WideLong.ensure_all_wide_alt_ids_are_chosen`
* `ensure_contiguity_in_observation_rows` (1432-1462): `ChoiceTools.ensure_contiguity_in_observation_rows`
* `convert_wide_to_long` (1465-1741): `WideLong.alt_spec_cols`, `WideLong.convert_wide_to_long`
* `convert_mixing_names_to_positions` (1744-1761): `ChoiceTools.str_index`

**clog_log.py**

* `split_param_vec` (59-113): `Transforms.split_param_vec`
* `_cloglog_utility_transform` (116-208): `Transforms.long_intercepts`, `Transforms.cloglog_transform`, `Predict.place_intercepts`, `PredictNd.scatter`, `PredictNd.cloglog_transform_nd`, `Construct.ref_pos`, `FloatTransforms.fcloglog`, `FloatLogit.frow_intercept`
* `_cloglog_transform_deriv_v` (211-285): `Transforms.cloglog_deriv_v`, `Estimation.call_dh_dv`, `FloatDerivatives.fcloglog_deriv`
* `_cloglog_transform_deriv_c` (288-296): `Transforms.Clog_model`
* `_cloglog_transform_deriv_alpha` (299-341): `Transforms.dh_d_alpha`
* `create_calc_dh_dv` (344-371): `Transforms.Clog_model`, `Estimation.buffers`
* `create_calc_dh_d_alpha` (374-415): `Transforms.dh_d_alpha`
* `ClogEstimator.set_derivatives` (468-471): `Transforms.Clog_model`
* `ClogEstimator.check_length_of_initial_values` (473-508): `Transforms.assumed_param_dimensions`
* `MNCL.__init__` (574-610): `Construct.class_init`
* `MNCL.fit_mle` (612-764): `Estimation.clog_init`, `Estimation.fit_estimator`, `Session.early_check`

**conditional_logit.py**

* `split_param_vec` (44-81): `Transforms.split_param_vec`
* `_mnl_utility_transform` (84-100): `Transforms.mnl_transform`, `FloatTransforms.fkind`
* `_mnl_transform_deriv_c` (103-112): `Transforms.MNL_model`, `FloatTransforms.fkind`
* `_mnl_transform_deriv_alpha` (115-124): `Transforms.MNL_model`
* `MNLEstimator.set_derivatives` (177-189): `Transforms.MNL_model`, `Estimation.buffers`
* `MNLEstimator.check_length_of_initial_values` (191-218): `Transforms.assumed_param_dimensions`, `BootMle.options_of`
* `MNL.__init__` (269-303): `Construct.class_init`
* `MNL.fit_mle` (305-409): `Estimation.plain_init`, `Estimation.fit_estimator`, `BootMle.options_of`, `Session.early_check`

**construct_estimator.py**

* `create_estimation_obj` (55-120): `Estimation.create_estimation_obj`

**estimation.py**

* `ensure_positivity_and_length_of_weights` (19-32): `Estimation.ensure_positivity_and_length_of_weights`
* `EstimationObj.__init__` (87-145): `LongData.data_of`, `Estimation.default_weights`, `Estimation.estimation_checks`, `Session.data_with_choices`
* `EstimationObj.convenience_split_params` (147-169): `Estimation.blocks`
* `EstimationObj.convenience_calc_probs` (171-177): abstract
* `EstimationObj.convenience_calc_log_likelihood` (179-184): abstract
* `EstimationObj.convenience_calc_gradient` (186-191): abstract
* `EstimationObj.convenience_calc_hessian` (193-198): abstract
* `EstimationObj.convenience_calc_fisher_approx` (200-206): abstract
* `EstimationObj.calc_neg_log_likelihood_and_neg_gradient` (208-220): `Estimation.neg_ll_and_neg_gradient`, `MixedObjective.calc_neg_log_likelihood_and_neg_gradient`
* `EstimationObj.calc_neg_hessian` (222-227): `Estimation.calc_neg_hessian`
* `LogitTypeEstimator.__init__` (286-304): part of `Estimation.create_estimation_obj`
* `LogitTypeEstimator.convenience_calc_probs` (306-326): `Transforms.est_log_likelihood`, `Estimation.est_probs`
* `LogitTypeEstimator.convenience_calc_log_likelihood` (328-348): `Transforms.est_log_likelihood`, `Estimation.est_ll`
* `LogitTypeEstimator.convenience_calc_gradient` (350-371): `Transforms.est_log_likelihood`, `Estimation.est_grad`
* `LogitTypeEstimator.convenience_calc_hessian` (373-393): `Transforms.est_log_likelihood`, `Estimation.est_hess`
* `LogitTypeEstimator.convenience_calc_fisher_approx` (395-417): `Transforms.est_log_likelihood`, `Estimation.est_fish`
* `calc_individual_chi_squares` (420-447): `Estimation.calc_individual_chi_squares`
* `calc_rho_and_rho_bar_squared` (450-476): `Estimation.calc_rho_and_rho_bar_squared`, `FloatReport.frho`
* `calc_and_store_post_estimation_results` (479-579): `BaseModel.results`, `Estimation.post_estimation`
* `estimate` (582-709): `Estimation.estimate`

**mixed_logit.py**

* `split_param_vec` (51-79): `est_split` in Estimation.v (CoreMixed)
* `mnl_utility_transform` (82-103): `MixedCalcs.prob_array`
* `check_length_of_init_values` (106-132): `MixedCalcs.mixed_check_length`
* `add_mixl_specific_results_to_estimation_res` (135-168): the values are `MixedCalcs.sequence_probs` and `expanded_sequence_probs`; they are stored in a dictionary entry that nothing reads
* `MixedEstimator.__init__` (221-240): `MixedCalcs.mixed_check_length`, `Estimation.estimator_core`
* `MixedEstimator.convenience_split_params` (242-262): `MixedCalcs.mixed_check_length`, `Estimation.blocks`
* `MixedEstimator.check_length_of_initial_values` (264-268): `MixedCalcs.mixed_check_length`
* `MixedEstimator.convenience_calc_probs` (270-288): `MixedCalcs.mixed_check_length`, `Estimation.est_probs`
* `MixedEstimator.convenience_calc_log_likelihood` (290-308): `MixedCalcs.mixed_check_length`, `Estimation.est_ll`
* `MixedEstimator.convenience_calc_gradient` (310-325): `MixedCalcs.mixed_check_length`, `Estimation.est_grad`
* `MixedEstimator.convenience_calc_hessian` (327-356): `MixedCalcs.mixed_check_length`, `MixedCalcs.mixed_est_hessian`, `Estimation.est_hess`
* `MixedEstimator.convenience_calc_fisher_approx` (358-375): `MixedCalcs.mixed_check_length`, `MixedCalcs.mixed_est_fisher`, `Estimation.est_fish`
* `MixedLogit.__init__` (449-489): `Construct.class_init`
* `MixedLogit.fit_mle` (491-623): `MixedCalcs.mixed_data_of`, `Estimation.est_probs`, `Estimation.estimator_core`, `Estimation.plain_init`, `Estimation.fit_estimator`, `Estimation.fit_mle`, `BootMle.fit_point`, `Session.early_check`
* `MixedLogit.__filter_past_mappings` (625-679): `MixedCalcs.filter_mapping`
* `MixedLogit.panel_predict` (681-959): `MixedCalcs.equal_weights`, `MixedCalcs.old_repeat`, `MixedCalcs.panel_past_data`, `MixedCalcs.panel_weights`, `MixedCalcs.panel_compute`, `MixedCalcs.panel_predict`, `Generator.panel_request`

**mixed_logit_calcs.py**

* `get_normal_draws` (46-87): `MixedCalcs.get_normal_draws`, `Generator.draw_arrays`, `Generator.g_normal_draws`
* `convert_mixing_names_to_positions` (90-105): `MixedCalcs.convert_mixing_names_to_positions`
* `create_expanded_design_for_mixing` (108-177): `MixedCalcs.create_expanded_design_for_mixing`
* `calc_choice_sequence_probs` (180-240): `MixedCalcs.bc_cols`, `MixedCalcs.expanded_sequence_probs`, `FloatMixed.flog_sequence`, `FloatMixed.fsequence_prob`, `FloatMixed.fsimulated_prob`
* `calc_mixed_log_likelihood` (243-348): `MixedCalcs.weights_per_mixer`, `MixedCalcs.calc_mixed_log_likelihood`, `FloatMixed.fsequence_prob`, `FloatMixed.fmixed_objective`
* `calc_mixed_logit_gradient` (351-475): `MixedCalcs.bc_cols`, `MixedCalcs.scaled_error`, `MixedCalcs.calc_mixed_logit_gradient`, `FloatMixedGradient.fdraw_weight`, `FloatMixedGradient.fmixed_term`, `FloatMixedGradient.fmixed_gradient_entry`, `FloatMixedGradient.fmixed_gradient`
* `calc_neg_log_likelihood_and_neg_gradient` (478-585): `MixedObjective.calc_neg_log_likelihood_and_neg_gradient`
* `calc_bhhh_hessian_approximation_mixed_logit` (588-717): `MixedCalcs.bc_cols`, `MixedCalcs.weights_per_mixer`, `MixedCalcs.scaled_error`, `MixedCalcs.mixed_score_matrix`, `MixedCalcs.calc_bhhh_mixed`

**nested_choice_calcs.py**

* `calc_nested_probs` (22-263): `NestedCalcs.long_nest_coefs`, `NestedCalcs.ind_exp_sums_per_nest`, `NestedCalcs.long_exp_sums`, `NestedCalcs.ind_denom`, `NestedCalcs.long_numerators`, `NestedCalcs.nested_chosen_probs`, `NestedCalcs.prob_given_nest`, `NestedCalcs.calc_nested_probs`
* `calc_nested_log_likelihood` (266-350): `NestedCalcs.calc_nested_log_likelihood`, `FloatObjective.float_nested_params`
* `prep_vectors_for_gradient` (355-460): `NestedCalcs.scaled_y`
* `naturalize_nest_coefs` (466-496): `NestedCalcs.naturalize_nest_coefs`, `FloatNested.fnatural_nest`
* `calc_nested_gradient` (500-676): `NestedCalcs.log_exp_sums`, `NestedCalcs.half_deriv`, `NestedCalcs.calc_nested_gradient`
* `calc_bhhh_hessian_approximation` (682-870): `NestedCalcs.log_exp_sums`, `NestedCalcs.nested_score_matrix`, `NestedCalcs.calc_bhhh`

**nested_logit.py**

* `identify_degenerate_nests` (36-58): `NestedCalcs.identify_degenerate_nests`
* `split_param_vec` (63-106): `NestedCalcs.nested_split`
* `NestedEstimator.__init__` (159-175): part of `Estimation.create_estimation_obj`
* `NestedEstimator.check_length_of_initial_values` (177-195): `NestedCalcs.nested_check_length`
* `NestedEstimator.convenience_split_params` (197-236): `Estimation.blocks`
* `NestedEstimator.convenience_calc_probs` (238-256): `NestedCalcs.nested_est_probs`, `Estimation.est_probs`
* `NestedEstimator.convenience_calc_log_likelihood` (258-275): `NestedCalcs.nested_est_log_likelihood`, `Estimation.est_ll`
* `NestedEstimator.convenience_calc_gradient` (277-290): `NestedCalcs.nested_est_gradient`, `Estimation.est_grad`
* `NestedEstimator.convenience_calc_hessian` (292-319): `NestedCalcs.decouple`, `NestedCalcs.nested_est_hessian`, `Estimation.est_hess`
* `NestedEstimator.convenience_calc_fisher_approx` (321-336): `NestedCalcs.nested_est_fisher`, `Estimation.est_fish`
* `NestedLogit.__init__` (401-438): `Construct.class_init`
* `NestedLogit.fit_mle` (440-556): `Estimation.plain_init`, `Estimation.fit_constrained`, `Estimation.fit_estimator`, `Session.early_check`

**pylogit.py**

* `ensure_valid_model_type` (58-80): `Construct.lookup_model_type`, `Session.base_checks`
* `create_choice_model` (83-225): `Construct.lookup_model_type`, `Construct.model_args`, `Construct.create_choice_model`

**scobit.py**

* `split_param_vec` (52-108): `Transforms.num_shapes`, `Transforms.split_param_vec`
* `_scobit_utility_transform` (111-213): `Transforms.long_intercepts`, `Transforms.long_natural_shapes`, `Transforms.scobit_transform`, `Predict.place_intercepts`, `PredictNd.scatter`, `PredictNd.scobit_transform_nd`, `Construct.ref_pos`, `FloatTransforms.fnatural_shape`
* `_scobit_transform_deriv_v` (216-294): `Transforms.long_natural_shapes`, `Transforms.scobit_deriv_v`, `Estimation.call_dh_dv`, `FloatDerivatives.fscobit_deriv_v`
* `_scobit_transform_deriv_shape` (297-374): `Transforms.long_natural_shapes`, `Transforms.scobit_deriv_shape`, `Estimation.call_dh_d_shape`, `FloatDerivatives.fscobit_deriv_shape`
* `_scobit_transform_deriv_alpha` (377-419): `Transforms.dh_d_alpha`
* `create_calc_dh_dv` (422-449): `Transforms.Scobit_model`, `Estimation.buffers`
* `create_calc_dh_d_shape` (452-481): `Transforms.Scobit_model`, `Estimation.buffers`
* `create_calc_dh_d_alpha` (484-525): `Transforms.dh_d_alpha`
* `ScobitEstimator.set_derivatives` (578-581): `Transforms.Scobit_model`
* `ScobitEstimator.check_length_of_initial_values` (583-617): `Transforms.assumed_param_dimensions`
* `MNSL.__init__` (688-725): `Construct.class_init`
* `MNSL.fit_mle` (727-906): `Estimation.shaped_init`, `Estimation.fit_estimator`

**uneven_logit.py**

* `split_param_vec` (59-115): `Transforms.num_shapes`, `Transforms.split_param_vec`
* `_uneven_utility_transform` (118-238): `Transforms.skip`, `Transforms.long_intercepts`, `Transforms.long_natural_shapes`, `Transforms.uneven_transform`, `Predict.place_intercepts`, `PredictNd.scatter`, `PredictNd.uneven_transform_nd`, `Construct.ref_pos`
* `_uneven_transform_deriv_v` (241-304): `Transforms.long_natural_shapes`, `Transforms.uneven_deriv_v`, `Estimation.call_dh_dv`, `FloatDerivatives.funeven_deriv_v`
* `_uneven_transform_deriv_shape` (307-374): `Transforms.long_natural_shapes`, `Transforms.uneven_deriv_shape`, `Estimation.call_dh_d_shape`, `FloatDerivatives.funeven_deriv_shape`
* `_uneven_transform_deriv_alpha` (377-419): `Transforms.dh_d_alpha`
* `create_calc_dh_dv` (422-449): `Transforms.Uneven_model`, `Estimation.buffers`
* `create_calc_dh_d_shape` (452-481): `Transforms.Uneven_model`, `Estimation.buffers`
* `create_calc_dh_d_alpha` (484-525): `Transforms.skip`, `Transforms.dh_d_alpha`
* `UnevenEstimator.set_derivatives` (578-581): `Transforms.Uneven_model`
* `UnevenEstimator.check_length_of_initial_values` (583-617): `Transforms.assumed_param_dimensions`
* `MNUL.__init__` (691-725): `Construct.class_init`
* `MNUL.fit_mle` (727-907): `Estimation.shaped_init`, `Estimation.fit_estimator`
