{"id": "C01", "title": "Row-to-observation mapping is exact", "statement": "create_long_form_mappings(...)['rows_to_obs'] has one row per long-format row and one column per distinct observation id; entry (i,j) is 1 exactly when row i carries the j-th distinct observation id in order of first appearance, and 0 otherwise; hence every row has exactly one 1 and two rows share a column iff they carry the same observation id.", "quantifier": "every finite column of identifiers, of any length, order and multiplicity", "why_tests_cant": "the number of rows, of distinct ids and the interleaving of ids are unbounded; a test fixes a handful of small arrays", "anchors": ["src/pylogit/choice_tools.py:create_long_form_mappings", "src/pylogit/choice_tools.py:create_sparse_mapping", "src/pylogit/choice_tools.py:get_original_order_unique_ids"]}
{"id": "C02", "title": "Row-to-alternative mapping is exact and sorted", "statement": "['rows_to_alts'] has one column per distinct alternative id in increasing id order; entry (i,j) is 1 exactly when row i's alternative is the j-th smallest distinct id. The column an alternative gets does not depend on the order of the rows.", "quantifier": "every finite column of identifiers, of any length, order and multiplicity, and every permutation of the rows", "why_tests_cant": "quantifies over all permutations of all datasets", "anchors": ["src/pylogit/choice_tools.py:create_long_form_mappings"]}
{"id": "C03", "title": "Chosen-row mapping marks exactly the chosen rows", "statement": "With a 0/1 choice column, ['chosen_row_to_obs'] has a 1 at (i,j) exactly when row i was chosen and row i belongs to the j-th observation; if each observation has one chosen row then each column has exactly one 1.", "quantifier": "every dataset with a 0/1 choice column", "why_tests_cant": "unbounded datasets", "anchors": ["src/pylogit/choice_tools.py:create_long_form_mappings"]}
{"id": "C04", "title": "Row-to-nest mapping places each row in its alternative's nest", "statement": "When every alternative id in the data belongs to exactly one nest, ['rows_to_nests'] has one column per nest in nest_spec order and entry (i,j) is 1 exactly when row i's alternative is listed in the j-th nest; an alternative in no nest is an error, never a silently dropped row.", "quantifier": "every dataset and every nest specification", "why_tests_cant": "unbounded numbers of alternatives, nests and rows", "anchors": ["src/pylogit/choice_tools.py:create_long_form_mappings", "src/pylogit/base_multinomial_cm_v2.py:check_type_of_nest_spec_keys_and_values", "src/pylogit/base_multinomial_cm_v2.py:check_for_empty_nests_in_nest_spec", "src/pylogit/base_multinomial_cm_v2.py:ensure_alt_ids_in_nest_spec_are_ints", "src/pylogit/base_multinomial_cm_v2.py:ensure_alt_ids_are_only_in_one_nest", "src/pylogit/base_multinomial_cm_v2.py:ensure_all_alt_ids_have_a_nest", "src/pylogit/base_multinomial_cm_v2.py:ensure_nest_alts_are_valid_alts"]}
{"id": "C05", "title": "Contiguity check", "statement": "ensure_contiguity_in_observation_rows accepts only columns in which the rows of each observation form one contiguous block, so that estimation never sees a split observation; and it should accept every column whose observations are contiguous.", "quantifier": "every observation-id column", "why_tests_cant": "all id sequences of all lengths", "anchors": ["src/pylogit/choice_tools.py:ensure_contiguity_in_observation_rows", "src/pylogit/estimation.py:EstimationObj.__init__"]}
{"id": "C06", "title": "Accepted choice columns have one choice per observation", "statement": "A long-format dataset that passes ensure_num_chosen_alts_equals_num_obs has exactly one chosen row for every observation.", "quantifier": "every dataset with a 0/1 choice column that passes the constructor's checks", "why_tests_cant": "the check is on a total; distributing choices over observations is combinatorially unbounded", "anchors": ["src/pylogit/choice_tools.py:ensure_num_chosen_alts_equals_num_obs", "src/pylogit/base_multinomial_cm_v2.py:MNDC_Model.__init__"]}
{"id": "C07", "title": "Design matrix content", "statement": "create_design_matrix produces, in specification order, one raw column for 'all_same', one column per alternative in sorted order for 'all_diff', and one column per listed group for a list; each cell is the variable's value if the row's alternative is in that column's group and 0 otherwise. In particular the number of columns is determined by the specification and the set of alternatives.", "quantifier": "every dataset, specification and set of alternatives", "why_tests_cant": "specification dictionaries and data are unbounded", "anchors": ["src/pylogit/choice_tools.py:create_design_matrix"]}
{"id": "C08", "title": "Coefficient names line up with design columns", "statement": "When a names dictionary that passes validation is given, the k-th reported coefficient name is the user's name for the k-th design column.", "quantifier": "every specification / names pair accepted by check_keys_and_values_of_name_dictionary", "why_tests_cant": "depends on the key order of arbitrary dictionaries", "anchors": ["src/pylogit/choice_tools.py:create_design_matrix", "src/pylogit/choice_tools.py:check_keys_and_values_of_name_dictionary"]}
{"id": "C09", "title": "Specification validator is exact", "statement": "check_type_and_values_of_specification_dict accepts a specification iff every value is 'all_same', 'all_diff' or a list whose members are alternative ids present in the data or lists of such ids; otherwise it raises and names the kind of violation.", "quantifier": "every specification value tree", "why_tests_cant": "nested lists of arbitrary shape", "anchors": ["src/pylogit/choice_tools.py:check_type_and_values_of_specification_dict"]}
{"id": "C10", "title": "Wide to long conversion", "statement": "convert_wide_to_long yields, for each wide row in order, one long row per available alternative in increasing id order and no others; each long row carries that observation's id and individual variables, its alternative's specific variables (0 where the alternative has none) and a choice flag equal to 1 exactly for the chosen alternative.", "quantifier": "every wide dataset, availability dictionary and variable dictionaries accepted by the validators", "why_tests_cant": "unbounded numbers of observations, alternatives, variables, and all dictionary orders", "anchors": ["src/pylogit/choice_tools.py:convert_wide_to_long"]}
{"id": "C11", "title": "Long to wide conversion", "statement": "convert_long_to_wide yields one row per observation in order of first appearance whose choice cell is that observation's chosen alternative, whose availability cells say which alternatives had a row, and whose alternative-specific cells hold that observation/alternative's value or the null value when unavailable.", "quantifier": "every long dataset accepted by the validators", "why_tests_cant": "unbounded data and all row interleavings", "anchors": ["src/pylogit/choice_tools.py:convert_long_to_wide"]}
{"id": "C12", "title": "Wide-long round trip", "statement": "Converting a wide dataset to long and back to wide returns the original observation ids, individual variables, choices and availabilities.", "quantifier": "every wide dataset accepted by the validators with availability given in sorted order", "why_tests_cant": "round trips over unbounded data", "anchors": ["src/pylogit/choice_tools.py:convert_wide_to_long", "src/pylogit/choice_tools.py:convert_long_to_wide"]}
{"id": "C13", "title": "Accepted nest specifications partition the alternatives", "statement": "If the nest-specification checks accept, then every alternative in the data is in exactly one nest, no nest is empty and no nest lists a foreign alternative.", "quantifier": "every nest specification and alternative set", "why_tests_cant": "unbounded nests", "anchors": ["src/pylogit/base_multinomial_cm_v2.py:check_type_of_nest_spec_keys_and_values", "src/pylogit/base_multinomial_cm_v2.py:check_for_empty_nests_in_nest_spec", "src/pylogit/base_multinomial_cm_v2.py:ensure_alt_ids_in_nest_spec_are_ints", "src/pylogit/base_multinomial_cm_v2.py:ensure_alt_ids_are_only_in_one_nest", "src/pylogit/base_multinomial_cm_v2.py:ensure_all_alt_ids_have_a_nest", "src/pylogit/base_multinomial_cm_v2.py:ensure_nest_alts_are_valid_alts", "src/pylogit/base_multinomial_cm_v2.py:MNDC_Model.__init__"]}
{"id": "C14", "title": "Splitting a parameter vector loses nothing", "statement": "For every model, split_param_vec on a vector of the length the estimator's length check requires returns pieces whose concatenation (nest|shape|intercept|index) is the vector, of the lengths the model prescribes.", "quantifier": "every parameter vector accepted by check_length_of_initial_values, every number of alternatives and of index variables", "why_tests_cant": "unbounded sizes", "anchors": ["src/pylogit/asym_logit.py:split_param_vec", "src/pylogit/scobit.py:split_param_vec", "src/pylogit/uneven_logit.py:split_param_vec", "src/pylogit/clog_log.py:split_param_vec", "src/pylogit/nested_logit.py:split_param_vec", "src/pylogit/conditional_logit.py:split_param_vec"]}
{"id": "C15", "title": "Reported parameters are correctly named and ordered", "statement": "After fitting, the parameter table lists nest, shape, outside-intercept and index parameters in that order, each value next to its own name, and the bootstrap code's name list and parameter slicing use the same order.", "quantifier": "every model type and every combination of optional parameter blocks", "why_tests_cant": "all combinations of block sizes", "anchors": ["src/pylogit/base_multinomial_cm_v2.py:MNDC_Model._store_optional_parameters", "src/pylogit/base_multinomial_cm_v2.py:MNDC_Model.store_fit_results", "src/pylogit/bootstrap.py:get_param_names", "src/pylogit/bootstrap.py:get_param_list_for_prediction"]}
{"id": "C16", "title": "predict() returns what it promises", "statement": "predict(choice_col given, return_long_probs True) returns (chosen_probs, long_probs); with only one of them requested it returns that one; with neither it raises \u2014 for every model type.", "quantifier": "every model type and every combination of choice_col / return_long_probs", "why_tests_cant": "a contract over all model types, easy to miss a branch", "anchors": ["src/pylogit/base_multinomial_cm_v2.py:MNDC_Model.predict", "src/pylogit/choice_calcs.py:calc_probabilities", "src/pylogit/nested_choice_calcs.py:calc_nested_probs"]}
{"id": "C17", "title": "Choice probabilities sum to one", "statement": "For every logit-type model the long-format probabilities returned by calc_probabilities sum to 1 over the rows of each observation.", "quantifier": "every dataset, design matrix, coefficient vector, shape and intercept vector, including utilities beyond the +/-700 clipping range", "why_tests_cant": "real-valued inputs of unbounded dimension", "anchors": ["src/pylogit/choice_calcs.py:calc_probabilities"]}
{"id": "C18", "title": "Choice probabilities are strictly positive and at most one", "statement": "Every long-format probability is > 0 and <= 1, < 1 when the observation has another row; so the log-likelihood is always finite.", "quantifier": "as C17", "why_tests_cant": "as C17", "anchors": ["src/pylogit/choice_calcs.py:calc_probabilities"]}
{"id": "C19", "title": "Chosen probabilities agree with long probabilities", "statement": "When each observation has exactly one chosen row, chosen_probs[n] equals long_probs at the chosen row of observation n.", "quantifier": "every dataset with one choice per observation", "why_tests_cant": "as C17", "anchors": ["src/pylogit/choice_calcs.py:calc_probabilities", "src/pylogit/nested_choice_calcs.py:calc_nested_probs"]}
{"id": "C20", "title": "Only utility differences matter", "statement": "Adding one and the same constant to all utilities of an observation leaves every probability unchanged, and the odds of two alternatives of an observation depend only on their own utilities (IIA), as long as nothing is clipped.", "quantifier": "every dataset, utilities and shift within the unclipped range", "why_tests_cant": "continuous quantification", "anchors": ["src/pylogit/choice_calcs.py:calc_probabilities"]}
{"id": "C21", "title": "Probabilities do not depend on row order or on id values", "statement": "Permuting the rows of the dataset permutes the probabilities the same way and leaves the log-likelihood unchanged; so does renaming observation ids injectively.", "quantifier": "every dataset and every permutation of its rows / injective renaming", "why_tests_cant": "all permutations of all datasets", "anchors": ["src/pylogit/choice_calcs.py:calc_probabilities", "src/pylogit/choice_calcs.py:calc_log_likelihood", "src/pylogit/choice_tools.py:create_long_form_mappings"]}
{"id": "C22", "title": "Asymmetric models contain the MNL as a special case", "statement": "At zero shape parameters the scobit and uneven models give exactly the MNL probabilities, and the asymmetric logit gives the MNL probabilities for coefficients multiplied by ln(number of alternatives).", "quantifier": "every dataset and coefficient vector", "why_tests_cant": "continuous inputs", "anchors": ["src/pylogit/scobit.py:_scobit_utility_transform", "src/pylogit/uneven_logit.py:_uneven_utility_transform", "src/pylogit/asym_logit.py:_asym_utility_transform"]}
{"id": "C23", "title": "Asymmetric-logit shape parameters are a probability vector", "statement": "The natural shape parameters computed from any free shape vector are strictly positive and sum to one, with the reference in its position; the map is shift-invariant in the log-odds sense.", "quantifier": "every free shape vector and every reference position", "why_tests_cant": "continuous inputs", "anchors": ["src/pylogit/asym_logit.py:_convert_eta_to_c"]}
{"id": "C24", "title": "Log-likelihood is the weighted sum of log chosen probabilities", "statement": "calc_log_likelihood equals the sum over observations of weight times log of the probability of the chosen alternative, minus ridge times the sum of squares of all parameters; it is <= 0 for non-negative weights and ridge.", "quantifier": "every dataset with one choice per observation, all parameters, weights, ridge", "why_tests_cant": "continuous inputs, unbounded dimension", "anchors": ["src/pylogit/choice_calcs.py:calc_log_likelihood"]}
{"id": "C25", "title": "MNL gradient is the derivative of the log-likelihood", "statement": "Each component of calc_gradient for the MNL is the partial derivative of calc_log_likelihood with respect to that coefficient, with weights and ridge.", "quantifier": "every dataset with one choice per observation and per-observation weights, every coefficient vector in the unclipped range", "why_tests_cant": "numerical differentiation in a test can only sample points and tolerances", "anchors": ["src/pylogit/choice_calcs.py:calc_gradient", "src/pylogit/conditional_logit.py:MNLEstimator"]}
{"id": "C26", "title": "Clog-log gradient is the derivative of the log-likelihood", "statement": "As C25 for the clog-log model (intercept and index blocks), when every index is below 3.7, where the code switches to an approximation (C30 covers the rest).", "quantifier": "as C25", "why_tests_cant": "as C25", "anchors": ["src/pylogit/choice_calcs.py:calc_gradient", "src/pylogit/clog_log.py:_cloglog_utility_transform", "src/pylogit/clog_log.py:_cloglog_transform_deriv_v"]}
{"id": "C27", "title": "Scobit gradient is the derivative of the log-likelihood", "statement": "As C25 for the scobit model (shape, intercept and index blocks).", "quantifier": "as C25", "why_tests_cant": "as C25", "anchors": ["src/pylogit/choice_calcs.py:calc_gradient", "src/pylogit/scobit.py:_scobit_transform_deriv_v", "src/pylogit/scobit.py:_scobit_transform_deriv_shape"]}
{"id": "C28", "title": "Uneven-logit gradient is the derivative of the log-likelihood", "statement": "As C25 for the uneven logit (shape, intercept and index blocks).", "quantifier": "as C25", "why_tests_cant": "as C25", "anchors": ["src/pylogit/choice_calcs.py:calc_gradient", "src/pylogit/uneven_logit.py:_uneven_transform_deriv_v", "src/pylogit/uneven_logit.py:_uneven_transform_deriv_shape"]}
{"id": "C29", "title": "Asymmetric-logit gradient is the derivative of the log-likelihood", "statement": "As C25 for the asymmetric logit (shape, intercept and index blocks), when no index is exactly 0, where the transform has a kink (C30).", "quantifier": "as C25", "why_tests_cant": "as C25", "anchors": ["src/pylogit/choice_calcs.py:calc_gradient", "src/pylogit/asym_logit.py:_asym_transform_deriv_v", "src/pylogit/asym_logit.py:_asym_transform_deriv_shape"]}
{"id": "C30", "title": "The gradient handed to the optimizer always matches the objective", "statement": "For every parameter vector and every dataset the constructor accepts, the gradient is the derivative of the objective that is reported.", "quantifier": "every accepted dataset, every parameter vector including clipped utilities", "why_tests_cant": "the failing region is a corner of a continuous space", "anchors": ["src/pylogit/choice_calcs.py:calc_probabilities", "src/pylogit/choice_calcs.py:calc_gradient", "src/pylogit/estimation.py:EstimationObj.calc_neg_log_likelihood_and_neg_gradient"]}
{"id": "C31", "title": "MNL Hessian is the derivative of the gradient", "statement": "Each entry of calc_hessian for the MNL is the partial derivative of the corresponding gradient component.", "quantifier": "every dataset, weights, ridge, coefficient vector in the unclipped range", "why_tests_cant": "continuous inputs", "anchors": ["src/pylogit/choice_calcs.py:calc_hessian", "src/pylogit/choice_calcs.py:quadratic_prod_wrt_dp_ds"]}
{"id": "C32", "title": "Hessian is symmetric and negative semidefinite", "statement": "calc_hessian is symmetric, and for non-negative per-observation weights and ridge it is negative semidefinite, for every logit-type model.", "quantifier": "every dataset and parameter vector, every direction", "why_tests_cant": "all quadratic forms of unbounded dimension", "anchors": ["src/pylogit/choice_calcs.py:calc_hessian"]}
{"id": "C33", "title": "MNL log-likelihood is concave; a stationary point is the maximum", "statement": "Any coefficient vector with zero gradient maximises the MNL log-likelihood over the unclipped region; with a positive ridge it is the only maximiser.", "quantifier": "every dataset, weights >= 0, ridge >= 0, all pairs of coefficient vectors", "why_tests_cant": "global optimality can not be sampled", "anchors": ["src/pylogit/choice_calcs.py:calc_log_likelihood", "src/pylogit/choice_calcs.py:calc_gradient", "src/pylogit/estimation.py:estimate"]}
{"id": "C34", "title": "calc_hessian returns the second derivative for every model", "statement": "The Hessian used for standard errors is the derivative of the gradient also for models with a non-linear utility transform.", "quantifier": "every dataset and parameter vector of every logit-type model", "why_tests_cant": "continuous inputs", "anchors": ["src/pylogit/choice_calcs.py:calc_hessian", "src/pylogit/base_multinomial_cm_v2.py:MNDC_Model._store_generic_inference_results"]}
{"id": "C35", "title": "BHHH matrix is the sum of outer products of per-observation gradients", "statement": "calc_fisher_info_matrix without ridge equals the sum over observations of weight times outer product of that observation's gradient, is symmetric positive semidefinite, and those per-observation gradients add up to calc_gradient.", "quantifier": "every dataset and parameter vector with per-observation weights", "why_tests_cant": "continuous inputs", "anchors": ["src/pylogit/choice_calcs.py:calc_fisher_info_matrix"]}
{"id": "C36", "title": "Robust covariance is symmetric positive semidefinite", "statement": "calc_asymptotic_covariance(H, F) is symmetric and positive semidefinite whenever H is symmetric invertible and F is symmetric positive semidefinite.", "quantifier": "every dimension and every such pair of matrices", "why_tests_cant": "continuous inputs", "anchors": ["src/pylogit/choice_calcs.py:calc_asymptotic_covariance"]}
{"id": "C37", "title": "The null log-likelihood is the equal-shares log-likelihood", "statement": "At the zero vector the log-likelihood of every model equals minus the sum over observations of weight times the log of the number of available alternatives, so rho-squared compares with a pure-chance model.", "quantifier": "every dataset with one choice per observation, every model type", "why_tests_cant": "all datasets", "anchors": ["src/pylogit/estimation.py:estimate", "src/pylogit/estimation.py:calc_rho_and_rho_bar_squared"]}
{"id": "C38", "title": "Frequency weights", "statement": "Multiplying all weights by c multiplies log-likelihood and gradient by c, and giving an observation weight 2 is the same as listing it twice with weight 1: log-likelihood, gradient, Hessian and BHHH matrix agree, for the logit types and the nested logit, and for the mixed logit with whole units copied; an observation (unit) of weight zero can be left out.", "quantifier": "every dataset, weights, parameter vector", "why_tests_cant": "continuous and structural quantification", "anchors": ["src/pylogit/choice_calcs.py:calc_log_likelihood", "src/pylogit/choice_calcs.py:calc_gradient"]}
{"id": "C39", "title": "Nested probabilities sum to one and are positive", "statement": "calc_nested_probs long probabilities are positive and sum to 1 over each observation's rows.", "quantifier": "every dataset, nest structure, positive nest coefficients, index coefficients", "why_tests_cant": "continuous inputs", "anchors": ["src/pylogit/nested_choice_calcs.py:calc_nested_probs"]}
{"id": "C40", "title": "Nested probability factors into nest and within-nest probability", "statement": "long_probs = nest_choice_probs(of the row's nest) * prob_given_nest; prob_given_nest sums to 1 over an observation's rows in a nest; nest probabilities sum to 1 over the nests.", "quantifier": "as C39", "why_tests_cant": "as C39", "anchors": ["src/pylogit/nested_choice_calcs.py:calc_nested_probs"]}
{"id": "C41", "title": "Nested logit with all nest coefficients 1 is the MNL", "statement": "With every (natural) nest coefficient equal to 1 the nested probabilities equal the MNL probabilities.", "quantifier": "every dataset, nest structure and index coefficients", "why_tests_cant": "continuous inputs", "anchors": ["src/pylogit/nested_choice_calcs.py:calc_nested_probs"]}
{"id": "C42", "title": "Nest coefficients stay in the unit interval", "statement": "naturalize_nest_coefs maps every real vector into (0,1), strictly increasingly and invertibly (logit).", "quantifier": "every real vector", "why_tests_cant": "continuous inputs", "anchors": ["src/pylogit/nested_choice_calcs.py:naturalize_nest_coefs"]}
{"id": "C43", "title": "Nested-logit gradient is the derivative of the log-likelihood", "statement": "calc_nested_gradient is the gradient of calc_nested_log_likelihood with respect to the logit nest parameters and index coefficients.", "quantifier": "every accepted dataset and parameter vector, with and without ridge", "why_tests_cant": "continuous inputs; the failing datasets have observations lacking a whole nest", "anchors": ["src/pylogit/nested_choice_calcs.py:calc_nested_gradient"]}
{"id": "C44", "title": "Nested BHHH and constrained positions", "statement": "The nested (and mixed) Hessian approximation is symmetric negative semidefinite and constrained positions are decoupled (row and column zero, -1 on the diagonal), so its inverse keeps the other block unchanged.", "quantifier": "every dataset, parameter vector and set of constrained positions", "why_tests_cant": "continuous inputs", "anchors": ["src/pylogit/nested_choice_calcs.py:calc_bhhh_hessian_approximation", "src/pylogit/nested_logit.py:NestedEstimator.convenience_calc_hessian", "src/pylogit/mixed_logit.py:MixedEstimator.convenience_calc_hessian"]}
{"id": "C45", "title": "Mixed-logit design uses each unit's own draws", "statement": "For every row and draw, the utility computed from the expanded 3-D design equals x.beta plus sum over mixed variables of sigma times that row's mixing unit's draw times the variable; all rows of a mixing unit share the same draws.", "quantifier": "every dataset, draws and positions", "why_tests_cant": "unbounded dimensions", "anchors": ["src/pylogit/mixed_logit_calcs.py:create_expanded_design_for_mixing"]}
{"id": "C46", "title": "Mixed-logit probabilities are averages of logit probabilities", "statement": "Predicted mixed-logit probabilities are positive, sum to 1 over each observation, and with all sigmas zero equal the MNL probabilities, whatever the draws.", "quantifier": "every dataset, number of draws >= 1, draws and parameters", "why_tests_cant": "continuous inputs", "anchors": ["src/pylogit/base_multinomial_cm_v2.py:MNDC_Model.predict", "src/pylogit/mixed_logit_calcs.py:calc_choice_sequence_probs"]}
{"id": "C47", "title": "Simulated log-likelihood", "statement": "calc_mixed_log_likelihood is the sum over mixing units of weight times log of the average over draws of the product over that unit's choice situations of the chosen probability.", "quantifier": "every panel dataset, draws and parameters", "why_tests_cant": "continuous inputs", "anchors": ["src/pylogit/mixed_logit_calcs.py:calc_choice_sequence_probs", "src/pylogit/mixed_logit_calcs.py:calc_mixed_log_likelihood"]}
{"id": "C48", "title": "Mixed-logit gradient is the derivative of the simulated log-likelihood", "statement": "calc_mixed_logit_gradient is the gradient of calc_mixed_log_likelihood, with weights and ridge.", "quantifier": "every panel dataset, draws, parameters in the unclipped range", "why_tests_cant": "continuous inputs", "anchors": ["src/pylogit/mixed_logit_calcs.py:calc_mixed_logit_gradient"]}
{"id": "C49", "title": "Panel prediction uses each person's own posterior", "statement": "panel_predict averages each person's probabilities with weights proportional to the probability of their own past choices under their own draws; the weights are a probability vector, equal weights for persons without a past; predicted probabilities sum to 1.", "quantifier": "every old and new panel dataset, every order of persons in either", "why_tests_cant": "all orders of identifiers in two datasets", "anchors": ["src/pylogit/mixed_logit.py:MixedLogit.panel_predict"]}
{"id": "C50", "title": "Constrained parameters do not move", "statement": "Parameters listed in constrained_pos keep their initial values under any optimizer whose iterates stay in the span of the gradients it is given (gradient descent, BFGS, CG).", "quantifier": "every objective, every number of iterations, every step-size history", "why_tests_cant": "unbounded histories of optimizer steps", "anchors": ["src/pylogit/estimation.py:EstimationObj.calc_neg_log_likelihood_and_neg_gradient"]}
{"id": "C51", "title": "Constrained parameters are blanked in inference output, and only those", "statement": "Standard errors, t-stats, p-values of exactly the constrained parameters are NaN.", "quantifier": "every set of constrained positions and parameter names", "why_tests_cant": "all name lists", "anchors": ["src/pylogit/base_multinomial_cm_v2.py:MNDC_Model._adjust_inferential_results_for_parameter_constraints"]}
{"id": "C52", "title": "Fit statistics", "statement": "AIC = 2k - 2LL, BIC = k ln n - 2LL, df_resid = n - k, rho-squared is at most 1 and non-negative when the fit is at least as good as the null model, rho-bar-squared is below rho-squared by k/|LL0|.", "quantifier": "all log-likelihoods, sample sizes and parameter counts", "why_tests_cant": "continuous inputs", "anchors": ["src/pylogit/base_multinomial_cm_v2.py:compute_aic", "src/pylogit/base_multinomial_cm_v2.py:compute_bic", "src/pylogit/estimation.py:calc_rho_and_rho_bar_squared"]}
{"id": "C53", "title": "The weights a user passes are used", "statement": "Weights passed to fit_mle (as the ABC interval code does) change the objective that is optimised accordingly.", "quantifier": "every model type and weight vector", "why_tests_cant": "the keyword is silently swallowed; only reasoning about all call paths shows it never arrives", "anchors": ["src/pylogit/conditional_logit.py:MNL.fit_mle", "src/pylogit/bootstrap_abc.py:calc_finite_diff_terms_for_abc"]}
{"id": "C54", "title": "Derivative evaluation is history independent", "statement": "The reused derivative buffers never leak state: the gradient returned for a parameter vector is the same whatever sequence of parameter vectors was evaluated before.", "quantifier": "every finite history of evaluations", "why_tests_cant": "unbounded histories", "anchors": ["src/pylogit/uneven_logit.py:create_calc_dh_dv", "src/pylogit/scobit.py:create_calc_dh_d_shape", "src/pylogit/asym_logit.py:create_calc_dh_d_shape"]}
{"id": "C55", "title": "Bootstrap samples preserve the strata", "statement": "Each bootstrap sample contains, for every alternative, exactly as many observation slots as there are observations that chose it, each filled with an observation that chose it; sample size equals the number of observations when each has one choice.", "quantifier": "every dataset and every sequence of random draws", "why_tests_cant": "all outcomes of the random generator", "anchors": ["src/pylogit/bootstrap_sampler.py:create_cross_sectional_bootstrap_samples", "src/pylogit/bootstrap_sampler.py:relate_obs_ids_to_chosen_alts"]}
{"id": "C56", "title": "Bootstrap dataframe is a valid choice dataset", "statement": "create_bootstrap_dataframe concatenates, for the k-th resampled id, a copy of exactly that observation's rows labelled k, so bootstrap ids are contiguous, distinct per slot and one-choice-per-observation is inherited; ids not in the data raise.", "quantifier": "every dataset and resample list", "why_tests_cant": "all multisets of resampled ids", "anchors": ["src/pylogit/bootstrap_sampler.py:create_bootstrap_dataframe", "src/pylogit/bootstrap_sampler.py:create_deepcopied_groupby_dict"]}
{"id": "C57", "title": "Percentile intervals", "statement": "Endpoints are values observed in the replicates, lower <= upper, a higher confidence level gives a containing interval, and at least conf_percentage % of the replicates lie in the interval.", "quantifier": "every replicate array and every confidence percentage in (0,100)", "why_tests_cant": "continuous inputs, unbounded replicate counts", "anchors": ["src/pylogit/bootstrap_calcs.py:calc_percentile_interval"]}
{"id": "C58", "title": "BCa constants", "statement": "The acceleration is at most 1/6 in absolute value, is invariant under location and positive scale changes of the replicates and is zero for symmetric replicates; with zero bias correction and zero acceleration the BCa interval is the percentile interval; for acceleration*z below 1 the lower percentile does not exceed the upper.", "quantifier": "every jackknife array", "why_tests_cant": "continuous inputs", "anchors": ["src/pylogit/bootstrap_calcs.py:calc_acceleration_bca", "src/pylogit/bootstrap_calcs.py:calc_bca_interval"]}
{"id": "C59", "title": "ABC weights", "statement": "The perturbed weights used in the ABC finite differences sum to one and each long row gets its own observation's weight; with non-negative epsilon <= 1 the plus-weights are non-negative.", "quantifier": "every dataset and epsilon", "why_tests_cant": "continuous inputs", "anchors": ["src/pylogit/bootstrap_abc.py:create_long_form_weights", "src/pylogit/bootstrap_abc.py:calc_finite_diff_terms_for_abc"]}
{"id": "C60", "title": "Bootstrap starting values reproduce the MNL", "statement": "Default starting values built from the MNL estimate give the asymmetric, scobit, uneven and mixed models exactly the MNL's probabilities.", "quantifier": "every dataset and MNL estimate", "why_tests_cant": "continuous inputs", "anchors": ["src/pylogit/bootstrap_mle.py:extract_default_init_vals"]}
{"id": "C61", "title": "Bootstrap re-estimation uses the requested estimation options", "statement": "The ridge, constrained_pos and method passed to generate_bootstrap_replicates are the ones used in each re-estimation.", "quantifier": "every model type and option combination", "why_tests_cant": "only visible by tracing every call path", "anchors": ["src/pylogit/bootstrap_mle.py:retrieve_point_est", "src/pylogit/bootstrap_mle.py:get_mnl_point_est", "src/pylogit/bootstrap.py:Boot.generate_bootstrap_replicates"]}
{"id": "C62", "title": "Confidence intervals from standard errors", "statement": "conf_int returns, for every parameter, an interval centred at the estimate that contains it; a smaller alpha gives a containing interval; constrained parameters get NaN.", "quantifier": "every parameter table, alpha in (0,1) and increasing normal quantile function", "why_tests_cant": "continuous inputs", "anchors": ["src/pylogit/base_multinomial_cm_v2.py:MNDC_Model.conf_int"]}
{"id": "C63", "title": "Parameter lists accepted by predict", "statement": "predict accepts a param_list exactly when it has four entries, the first an array and the others arrays or None, all 1-D or all 2-D with equally many columns, with as many rows as the model has parameters of that kind.", "quantifier": "every list of arrays / None / other objects", "why_tests_cant": "all shapes", "anchors": ["src/pylogit/base_multinomial_cm_v2.py:MNDC_Model.check_param_list_validity"]}
{"id": "C64", "title": "Accepted shape/intercept names match the alternatives", "statement": "A model with shape or intercept names is constructed only if the reference position is a valid alternative position (and given, for intercepts) and there is exactly one name per non-reference alternative.", "quantifier": "every list of names, reference argument and number of alternatives", "why_tests_cant": "all lengths and positions", "anchors": ["src/pylogit/base_multinomial_cm_v2.py:ensure_ref_position_is_valid", "src/pylogit/base_multinomial_cm_v2.py:check_length_of_shape_or_intercept_names"]}
{"id": "C65", "title": "A single-alternative nest's coefficient does not matter", "statement": "Two nest-coefficient vectors that differ only on nests containing one alternative (the ones fit_mle holds fixed) give the same nested probabilities.", "quantifier": "every dataset whose rows have distinct (observation, alternative) pairs, nest specification, positive nest coefficients and index coefficients", "why_tests_cant": "real parameters, arbitrary datasets", "anchors": ["src/pylogit/nested_logit.py:identify_degenerate_nests", "src/pylogit/nested_choice_calcs.py:calc_nested_probs"]}
{"id": "C66", "title": "Robust standard errors are real numbers", "statement": "The diagonal of the robust covariance matrix stored by fit_mle is non-negative, so that the robust standard errors are real.", "quantifier": "every model type, dataset and estimate with an invertible Hessian", "why_tests_cant": "real matrices of every size", "anchors": ["src/pylogit/choice_calcs.py:calc_asymptotic_covariance", "src/pylogit/nested_logit.py:NestedEstimator.convenience_calc_fisher_approx"]}
{"id": "C67", "title": "Residuals and individual chi-squares", "statement": "After fit_mle, the residuals of each observation sum to zero, the residual of the chosen row is one minus the stored chosen probability, and the stored individual chi-square of the observation equals (1-P)/P for its chosen probability P (for the nested, mixed and logit-type models alike, per draw-averaged or per column).", "quantifier": "every model, dataset with one choice per observation, optimizer and successful fit", "why_tests_cant": "all datasets and fits", "anchors": ["src/pylogit/estimation.py:calc_individual_chi_squares", "src/pylogit/estimation.py:EstimationObj", "src/pylogit/base_multinomial_cm_v2.py:MNDC_Model.store_fit_results"]}
{"id": "C68", "title": "A fitted model with a full set of constants reproduces the sample shares", "statement": "If the estimation stopped at a point with zero derivative for an alternative-specific constant and there is no ridge penalty, the predicted number of choices of that alternative over the sample equals the observed number.", "quantifier": "every logit-type dataset, optimizer, and alternative with a constant (in the index for MNL, outside it for the others)", "why_tests_cant": "needs the first-order conditions at every possible estimate", "anchors": ["src/pylogit/conditional_logit.py:MNL.fit_mle", "src/pylogit/estimation.py:EstimationObj", "src/pylogit/choice_calcs.py:calc_gradient"]}
{"id": "C69", "title": "Starting values reach the parameters they are meant for", "statement": "Separate init_shapes / init_intercepts / init_coefs are the shape, intercept and index values the optimiser starts from; a full init_vals vector is used unchanged; vectors of the wrong length and missing or inconsistent starting values are refused with an exception.", "quantifier": "every model type and combination of starting-value arguments", "why_tests_cant": "all argument combinations and lengths", "anchors": ["src/pylogit/asym_logit.py:MNAL.fit_mle", "src/pylogit/scobit.py:MNSL.fit_mle", "src/pylogit/uneven_logit.py:MNUL.fit_mle", "src/pylogit/base_multinomial_cm_v2.py:MNDC_Model"]}
{"id": "C70", "title": "Degenerate nests are held fixed by nested fit_mle", "statement": "Nested fit_mle constrains exactly the nests with a single alternative plus the positions the user listed, each once and sorted, and (for gradient-based optimisers) those nest coefficients keep their starting values.", "quantifier": "every nest specification, constrained_pos list and dataset", "why_tests_cant": "all nest specifications and optimiser histories", "anchors": ["src/pylogit/nested_logit.py:identify_degenerate_nests", "src/pylogit/nested_logit.py:NestedLogit.fit_mle"]}
{"id": "C71", "title": "Accepted weights", "statement": "Weights are accepted exactly when they are None or an array with one non-negative entry per long row; every rejection is a ValueError.", "quantifier": "every weights argument", "why_tests_cant": "all arrays", "anchors": ["src/pylogit/estimation.py:ensure_positivity_and_length_of_weights"]}
{"id": "C72", "title": "just_point returns the same optimum", "statement": "fit_mle(just_point=True) returns the optimiser's result and nothing else; with just_point=False the same optimum is stored; it fails whenever the just_point call fails.", "quantifier": "every model, dataset and option combination", "why_tests_cant": "all call paths", "anchors": ["src/pylogit/conditional_logit.py:MNL.fit_mle", "src/pylogit/estimation.py:estimate"]}
{"id": "C73", "title": "The reported log-likelihood and parameters are those of the reported optimum", "statement": "The stored log-likelihood is the objective's value at the reported parameters, the null log-likelihood the value at zero, rho-squared and rho-bar-squared are computed from those two, an optimiser that never worsens its start gives a log-likelihood at least as good as the start's, and the params series lists the optimiser's final vector in order.", "quantifier": "every model, dataset and optimiser that reports the objective's value", "why_tests_cant": "all fits", "anchors": ["src/pylogit/estimation.py:estimate", "src/pylogit/base_multinomial_cm_v2.py:MNDC_Model.store_fit_results"]}
{"id": "C74", "title": "Predicting on the estimation data reproduces the fitted probabilities", "statement": "After a successful fit, predict() on the estimation table with the stored parameters returns exactly the fitted probabilities stored by fit_mle (for mixed logit: their mean over the draws, when the same draws are used).", "quantifier": "every model type, table, optimiser and successful fit", "why_tests_cant": "all datasets, estimates and draws", "anchors": ["src/pylogit/base_multinomial_cm_v2.py:MNDC_Model.predict", "src/pylogit/estimation.py:EstimationObj", "src/pylogit/base_multinomial_cm_v2.py:MNDC_Model.store_fit_results"]}
{"id": "C75", "title": "An observation's prediction depends only on its own rows", "statement": "If two tables contain the same rows for an observation (same alternatives, same values of the model's variables, possibly another observation id and row order), predict() gives those rows the same probabilities whatever else the two tables contain.", "quantifier": "every fitted model, pair of tables and observation", "why_tests_cant": "all pairs of datasets", "anchors": ["src/pylogit/base_multinomial_cm_v2.py:MNDC_Model.predict", "src/pylogit/choice_tools.py:create_design_matrix", "src/pylogit/choice_tools.py:create_long_form_mappings"]}
{"id": "C76", "title": "Predictions are probability distributions", "statement": "Whenever predict() returns long_probs, every entry is in (0,1] and the entries of each observation sum to one; when it returns chosen_probs, the n-th entry is the long probability of the row chosen by the n-th observation in order of first appearance.", "quantifier": "every model type, table, parameter list, number of draws", "why_tests_cant": "all datasets and parameters", "anchors": ["src/pylogit/base_multinomial_cm_v2.py:MNDC_Model.predict"]}
{"id": "C77", "title": "ABC intervals reflect sampling variation", "statement": "The ABC confidence interval of a parameter is not a single point when the observations differ.", "quantifier": "every model, dataset, optimizer, confidence level and epsilon", "why_tests_cant": "depends on whether the weights reach the estimator on every call path", "anchors": ["src/pylogit/bootstrap_abc.py:calc_abc_interval"]}
{"id": "C78", "title": "ABC intervals of a weighted mean are Efron's", "statement": "If refitting with observation weights returns a weighted mean of values attached to the observations, the ABC interval is mean + se*(a+z)/(1-a(a+z))^2 at the two normal quantiles, with a the usual acceleration and se the plug-in standard error; if it returns the square of a (positive) weighted mean, the interval is the square of that interval.", "quantifier": "every number of observations and parameters, all values, epsilon and confidence level", "why_tests_cant": "continuous inputs and unbounded sample sizes", "anchors": ["src/pylogit/bootstrap_abc.py:calc_abc_interval", "src/pylogit/bootstrap_abc.py:efron_endpoint_from_percentile_abc"]}
{"id": "C79", "title": "A model is created exactly when its arguments are acceptable", "statement": "create_choice_model succeeds exactly when the model type is known, the type's mandatory arguments are there, the specification uses columns of the table (or 'intercept') and alternatives of the table, and all names fit; a missing id or choice column is a ValueError; the created model holds the table's columns unchanged (plus at most a column 'intercept' of ones) and the design columns and coefficient names the specification asks for.", "quantifier": "every table and combination of arguments", "why_tests_cant": "all argument combinations", "anchors": ["src/pylogit/pylogit.py:create_choice_model", "src/pylogit/base_multinomial_cm_v2.py:MNDC_Model.__init__"]}
{"id": "C80", "title": "The random coefficients are those of mixing_vars", "statement": "In a mixed logit the coefficients that vary over draws are those of the variables listed in mixing_vars.", "quantifier": "every table, specification, name dictionary and list of mixing variables", "why_tests_cant": "all dictionaries and orders", "anchors": ["src/pylogit/base_multinomial_cm_v2.py:convert_mixing_names_to_positions", "src/pylogit/pylogit.py:create_choice_model"]}
{"id": "C81", "title": "A model can be rebuilt from its own settings", "statement": "Building a model again from its stored table and its stored settings, as the bootstrap does for every resampled table, gives the same model.", "quantifier": "every accepted table and every combination of model type and arguments", "why_tests_cant": "all model types and argument combinations", "anchors": ["src/pylogit/bootstrap_mle.py:get_model_creation_kwargs", "src/pylogit/bootstrap_mle.py:get_model_abbrev", "src/pylogit/bootstrap_mle.py:retrieve_point_est", "src/pylogit/pylogit.py:create_choice_model"]}
{"id": "C82", "title": "Jackknife replicates leave out exactly one observation", "statement": "The k-th jackknife replicate is the estimate on the original rows, in order, without exactly the rows of the k-th smallest observation id, under the options of C61.", "quantifier": "every table, model type and optimizer", "why_tests_cant": "unbounded tables; the optimizer is arbitrary", "anchors": ["src/pylogit/bootstrap.py:Boot.generate_jackknife_replicates", "src/pylogit/bootstrap_sampler.py:create_deepcopied_groupby_dict"]}
{"id": "C83", "title": "Bootstrap replicates are estimates on the resampled tables", "statement": "The r-th bootstrap replicate is the estimate obtained on the table made of the rows of the r-th sampled observations, with new consecutive observation ids, under the options of C61.", "quantifier": "every table, sample, model type and optimizer", "why_tests_cant": "unbounded tables; the optimizer is arbitrary", "anchors": ["src/pylogit/bootstrap.py:Boot.generate_bootstrap_replicates", "src/pylogit/bootstrap_sampler.py:create_bootstrap_dataframe"]}
{"id": "C84", "title": "Inference tables", "statement": "Without constrained parameters, the stored covariance matrix is minus the inverse of the Hessian; each parameter's standard error is the square root of its diagonal entry, its t-statistic the estimate over the standard error, its p-value the probability that a standard normal is at least as far from zero; the robust columns are the same for the sandwich covariance; every row carries the parameter's own name.", "quantifier": "every fit: all parameter blocks, names, Hessians and Fisher matrices of every size", "why_tests_cant": "real matrices of every size and all name lists", "anchors": ["src/pylogit/base_multinomial_cm_v2.py:MNDC_Model._store_generic_inference_results", "src/pylogit/base_multinomial_cm_v2.py:MNDC_Model.store_fit_results"]}
{"id": "C85", "title": "What the optimizer is asked to minimise", "statement": "fit_mle hands the optimizer, with the starting values, minus the (ridge-penalised) log-likelihood and its gradient, the entries of the constrained parameters replaced by zero.", "quantifier": "every table, model type, optimizer, parameter vector and set of constrained positions", "why_tests_cant": "continuous inputs; the optimizer is arbitrary", "anchors": ["src/pylogit/estimation.py:EstimationObj.calc_neg_log_likelihood_and_neg_gradient", "src/pylogit/estimation.py:estimate"]}
{"id": "C86", "title": "Predicting with several parameter vectors at once", "statement": "predict with two-dimensional param_list arrays returns one column per parameter vector, the column being the prediction made with that vector alone; with one-dimensional arrays or None it is the ordinary prediction.", "quantifier": "every table, fitted model of the five logit-type classes, number of vectors and combination of options", "why_tests_cant": "unbounded tables and numbers of vectors; the broadcasts depend on the shapes", "anchors": ["src/pylogit/base_multinomial_cm_v2.py:MNDC_Model.predict", "src/pylogit/choice_calcs.py:calc_probabilities", "src/pylogit/scobit.py:_scobit_utility_transform", "src/pylogit/asym_logit.py:_asym_utility_transform"]}
{"id": "C87", "title": "Log-likelihoods of the replicates", "statement": "Boot.calc_log_likes_for_replicates reports, for each bootstrap or jackknife replicate, the value at that replicate of the log-likelihood of the model on its own table, i.e. of the function fit_mle maximises.", "quantifier": "every model type, table, number of replicates and parameter values", "why_tests_cant": "unbounded tables and numbers of replicates; continuous parameters", "anchors": ["src/pylogit/bootstrap.py:Boot.calc_log_likes_for_replicates", "src/pylogit/bootstrap.py:get_param_list_for_prediction", "src/pylogit/base_multinomial_cm_v2.py:MNDC_Model.predict"]}
{"id": "C88", "title": "Gradient norms of the replicates", "statement": "Boot.calc_gradient_norm_for_replicates reports, for each replicate, the Euclidean norm of the derivatives of the (weighted, ridge-penalised) log-likelihood in the parameters that were free to move, so that it is 0 exactly at stationary points.", "quantifier": "every model type, table, weights, ridge penalty, constrained positions and replicates", "why_tests_cant": "continuous parameters, all tables", "anchors": ["src/pylogit/bootstrap.py:Boot.calc_gradient_norm_for_replicates", "src/pylogit/estimation.py:LogitTypeEstimator.convenience_calc_gradient"]}
{"id": "C89", "title": "Stored bootstrap intervals", "statement": "Asking a bootstrap object for intervals of one type stores one table, labelled with the parameter names and the two percentages, with one row per parameter, and changes nothing else; 'all' stores the three tables and a combined table whose columns are theirs side by side; an unknown type raises ValueError and changes nothing; a failing call never overwrites the combined table. Whatever calls were made before, the percentile table on the object is the one of the last call that could make one, computed from the replicates stored at that moment, and every stored table carries the parameter names.", "quantifier": "every bootstrap object, confidence level, interval type and history of calls, and every re-estimation procedure", "why_tests_cant": "unbounded histories, replicates and parameters", "anchors": ["src/pylogit/bootstrap.py:Boot.calc_conf_intervals", "src/pylogit/bootstrap.py:Boot.calc_percentile_interval", "src/pylogit/bootstrap.py:Boot.calc_bca_interval", "src/pylogit/bootstrap.py:Boot.calc_abc_interval"]}
{"id": "C90", "title": "Column names of the wide table", "statement": "convert_long_to_wide names its columns: the observation id, the choice, 'availability_<alternative>' in increasing id order, the individual variables, and '<variable>_<alternative>' for each alternative-specific variable, where <alternative> is the id or the name alt_name_dict gives it; every column can be read back by its name; a dictionary is accepted exactly when it names the alternatives of the data, each of them.", "quantifier": "all long tables, variable lists, subset dictionaries, alternative ids (any integers) and alt_name_dict arguments", "why_tests_cant": "names are built by string formatting from arbitrary user names and ids; whether two of them can coincide is a statement about all strings", "anchors": ["src/pylogit/choice_tools.py:convert_long_to_wide", "src/pylogit/choice_tools.py:check_type_and_values_of_alt_name_dict"]}
{"id": "C91", "title": "Estimation does not depend on history", "statement": "If the same model is created from equal tables in two sessions, then whatever calls are made in between (other models, earlier fits of this model, failed fits, predictions), as long as the user does not change its table, the same fit_mle call returns the same value or raises the same exception in both, and if it stores results every attribute of the model object is the same.", "quantifier": "every pair of histories of calls, model type, table, optimizer and argument combination", "why_tests_cant": "unbounded call histories", "anchors": ["src/pylogit/base_multinomial_cm_v2.py:MNDC_Model.store_fit_results", "src/pylogit/base_multinomial_cm_v2.py:MNDC_Model._add_mixing_variable_names", "src/pylogit/conditional_logit.py:MNL.fit_mle"]}
{"id": "C92", "title": "What estimation leaves on the model object", "statement": "After fit_mle every documented result attribute (coefs, intercepts, shapes, nests, params, gradient, hessian, cov, standard errors, t- and p-values, robust versions, probabilities, residuals, chi-squares, log-likelihoods, rho-squares, df, AIC, BIC, success flag and message) holds the quantity of this fit; with just_point nothing but the settings of the call changes.", "quantifier": "every history of calls before the fit, model type, table and optimizer", "why_tests_cant": "unbounded histories; attributes are set one by one by many helpers", "anchors": ["src/pylogit/base_multinomial_cm_v2.py:MNDC_Model.store_fit_results", "src/pylogit/base_multinomial_cm_v2.py:MNDC_Model._store_basic_estimation_results", "src/pylogit/base_multinomial_cm_v2.py:MNDC_Model._store_generic_inference_results"]}
{"id": "C93", "title": "A fit that fails changes no results", "statement": "If fit_mle raises, the results of the previous fit are still on the object, all of them.", "quantifier": "every history, model, table, optimizer and failure point", "why_tests_cant": "failures can happen between any two assignments", "anchors": ["src/pylogit/base_multinomial_cm_v2.py:MNDC_Model.store_fit_results", "src/pylogit/conditional_logit.py:MNL.fit_mle"]}
{"id": "C94", "title": "What happens to the caller's tables", "statement": "No call of the library changes a table except by appending one column 'intercept' of ones when a specification asks for an intercept and the table has none; creating and predicting touch only the table they are given, estimation touches none.", "quantifier": "every history of calls on any number of tables and models", "why_tests_cant": "unbounded histories, aliasing between tables and models", "anchors": ["src/pylogit/base_multinomial_cm_v2.py:add_intercept_to_dataframe", "src/pylogit/choice_tools.py:get_dataframe_from_data", "src/pylogit/base_multinomial_cm_v2.py:MNDC_Model.predict", "src/pylogit/pylogit.py:create_choice_model"]}
{"id": "C95", "title": "Parameters, covariance and standard errors belong to the same fit", "statement": "At any moment the params, cov and standard_errors on a model object are all unset or all come from one and the same call of fit_mle on it, also after fits that failed.", "quantifier": "every history of calls, including failing ones", "why_tests_cant": "unbounded histories and failure points", "anchors": ["src/pylogit/base_multinomial_cm_v2.py:MNDC_Model._store_generic_inference_results", "src/pylogit/base_multinomial_cm_v2.py:MNDC_Model._adjust_inferential_results_for_parameter_constraints"]}
{"id": "C96", "title": "Predictions with explicit parameters need no estimation", "statement": "predict(data, param_list=...) gives the same probabilities before estimation, after it, and whatever else has been called.", "quantifier": "every pair of histories, model type, table and parameter list", "why_tests_cant": "unbounded histories", "anchors": ["src/pylogit/base_multinomial_cm_v2.py:MNDC_Model.predict", "src/pylogit/base_multinomial_cm_v2.py:check_param_list_validity", "src/pylogit/base_multinomial_cm_v2.py:MNDC_Model._add_mixing_variable_names"]}
{"id": "C97", "title": "Changing the table after creating a model does not change the model", "statement": "Once a model has been created, what the user does to the table no longer affects its estimation.", "quantifier": "every history of calls and table changes, model type and optimizer", "why_tests_cant": "aliasing; unbounded histories", "anchors": ["src/pylogit/base_multinomial_cm_v2.py:MNDC_Model.__init__", "src/pylogit/conditional_logit.py:MNL.fit_mle", "src/pylogit/choice_tools.py:create_long_form_mappings"]}
{"id": "C98", "title": "An estimated model keeps its results and predicts with them", "statement": "After a successful fit_mle every attribute keeps its value until fit_mle is called on that object again, whatever else is called; in particular predict on the estimation table returns the stored fitted probabilities (for mixed logit their mean over the same draws).", "quantifier": "every history of calls before and after the fit", "why_tests_cant": "unbounded histories", "anchors": ["src/pylogit/base_multinomial_cm_v2.py:MNDC_Model.predict", "src/pylogit/base_multinomial_cm_v2.py:MNDC_Model.store_fit_results"]}
{"id": "C99", "title": "Estimates of an identified multinomial logit are unique", "statement": "If the zero vector is the only combination of the variables that is constant within every observation of non-zero weight, then a parameter vector at which the gradient vanishes has a strictly higher log-likelihood than every other one, so any two runs that end at a stationary point report the same estimates. If another combination is constant within every observation and there is no ridge penalty, adding it to the parameters never changes the log-likelihood.", "quantifier": "every table with one choice per observation, design, non-negative weights, ridge and pair of parameter vectors (utilities not clipped)", "why_tests_cant": "uniqueness over all of R^K", "anchors": ["src/pylogit/conditional_logit.py:MNL.fit_mle", "src/pylogit/choice_calcs.py:calc_log_likelihood", "src/pylogit/choice_calcs.py:calc_gradient"]}
{"id": "C100", "title": "Standard errors of an identified multinomial logit are positive numbers", "statement": "For an identified multinomial logit, or with a positive ridge penalty, the Hessian reported at any parameter vector is negative definite and invertible, so whatever point the optimizer stops at, fit_mle completes (given that matrix inversion works) and every standard error is a positive number, every t-statistic finite and every p-value between 0 and 1. For a model that is not identified, without penalty, the Hessian has no inverse anywhere and fit_mle cannot complete.", "quantifier": "every table, design, ridge, optimizer and starting point", "why_tests_cant": "all designs of all sizes; exact linear algebra", "anchors": ["src/pylogit/choice_calcs.py:calc_hessian", "src/pylogit/base_multinomial_cm_v2.py:MNDC_Model._store_generic_inference_results", "src/pylogit/conditional_logit.py:MNL.fit_mle"]}
{"id": "C101", "title": "Change of units and recombination of variables", "statement": "Replacing the design matrix by invertible or non-invertible linear combinations of its columns gives the same model in other coordinates: with corresponding parameter vectors, utilities, probabilities and (without ridge) log-likelihood coincide, and gradient and Hessian are related by the chain rule. In particular, multiplying variables by non-zero constants divides their coefficients and standard errors by the same constants and changes nothing else, and estimates of an identified multinomial logit change exactly so.", "quantifier": "every table, logit type, design, recombination and parameter vector", "why_tests_cant": "all matrices and vectors of all sizes; a test uses one dataset and compares up to tolerance", "anchors": ["src/pylogit/choice_calcs.py:calc_probabilities", "src/pylogit/choice_calcs.py:calc_log_likelihood", "src/pylogit/choice_calcs.py:calc_gradient", "src/pylogit/choice_calcs.py:calc_hessian"]}
{"id": "C102", "title": "The reference alternative does not matter", "statement": "For the models with outside intercepts or (asymmetric logit) relative shape parameters, choosing another alternative as reference gives the same model: every parameter vector has a counterpart with the same differences between alternatives, and counterparts have utilities that differ by one common constant, hence the same probabilities and (without ridge) the same log-likelihood, as long as no utility is clipped.", "quantifier": "every table, model type, pair of reference positions and parameter vector", "why_tests_cant": "all positions and all numbers of alternatives", "anchors": ["src/pylogit/uneven_logit.py:_uneven_utility_transform", "src/pylogit/scobit.py:_scobit_utility_transform", "src/pylogit/clog_log.py:_cloglog_utility_transform", "src/pylogit/asym_logit.py:_convert_eta_to_c", "src/pylogit/asym_logit.py:_asym_utility_transform"]}
{"id": "C103", "title": "Pooling two tables", "statement": "If two tables with the same alternatives and without common observations are put on top of each other, each row keeps its probability, and (without ridge) log-likelihood, gradient, Hessian and BHHH matrix of the pooled table are the sums of those of the two tables.", "quantifier": "every pair of tables, logit type, design, weights and parameter vector", "why_tests_cant": "all pairs of tables of all sizes", "anchors": ["src/pylogit/choice_calcs.py:calc_probabilities", "src/pylogit/choice_calcs.py:calc_log_likelihood", "src/pylogit/choice_calcs.py:calc_gradient", "src/pylogit/choice_calcs.py:calc_hessian", "src/pylogit/choice_calcs.py:calc_fisher_info_matrix", "src/pylogit/choice_tools.py:create_long_form_mappings"]}
{"id": "C104", "title": "Improving an alternative makes it more likely", "statement": "If only one row of the design matrix changes and the index of that row grows (for instance because a variable with a positive coefficient is raised), the probability of that row never falls, those of the other rows of the same observation never rise and those of other observations stay; unless the utility is clipped, the row strictly gains and every rival strictly loses. The same holds in the nested logit for nest coefficients in (0, 1], and in the mixed logit when the utility of the row grows at every draw.", "quantifier": "every table, logit type, shape and intercept parameters, design, row and size of the change", "why_tests_cant": "a monotonicity statement over all reals; tests compare a few points", "anchors": ["src/pylogit/choice_calcs.py:calc_probabilities", "src/pylogit/clog_log.py:_cloglog_utility_transform", "src/pylogit/scobit.py:_scobit_utility_transform", "src/pylogit/uneven_logit.py:_uneven_utility_transform", "src/pylogit/asym_logit.py:_asym_utility_transform", "src/pylogit/nested_choice_calcs.py:calc_nested_probs"]}
{"id": "C105", "title": "A richer model never fits worse", "statement": "Take any data, model type and parameter vector. Adding columns to the design and giving them zero coefficients leaves every probability and the log-likelihood as they are, so a best vector for the larger design fits at least as well. In the same sense the scobit and uneven logit fit at least as well as the multinomial logit with the same constants, with or without ridge penalty, and so does the asymmetric logit without penalty while no utility is clipped.", "quantifier": "every table, weights, design, extra columns and parameter vector", "why_tests_cant": "an inequality between two optima over all real parameter vectors; a test compares two particular fits", "anchors": ["src/pylogit/choice_calcs.py:calc_log_likelihood", "src/pylogit/scobit.py:_scobit_utility_transform", "src/pylogit/uneven_logit.py:_uneven_utility_transform", "src/pylogit/asym_logit.py:_asym_utility_transform", "src/pylogit/estimation.py:LogitTypeEstimator.convenience_calc_log_likelihood"]}
{"id": "C106", "title": "A larger ridge penalty shrinks the estimates", "statement": "If two vectors are best for the same data under penalties r1 < r2, the sum of squares of the second is no larger than that of the first; when r1 >= 0, its unpenalised fit and its penalised log-likelihood are no higher. The same comparison holds between a positive penalty and none.", "quantifier": "every logit type, table, weights, pair of penalties and pair of maximisers", "why_tests_cant": "quantifies over all maximisers and all penalties", "anchors": ["src/pylogit/choice_calcs.py:calc_log_likelihood", "src/pylogit/estimation.py:LogitTypeEstimator.convenience_calc_log_likelihood"]}
{"id": "C107", "title": "The reported rho-squared of a fit is at most 1, and between 0 and 1 at a stationary multinomial logit", "statement": "For a completed fit of any logit model on data with one choice per observation, in which some observation has more than one alternative, and with a penalty that is not negative: the reported null log-likelihood is negative, the reported log-likelihood at most zero, rho-squared at most 1, and at least 0 exactly when the fit is no worse than equal shares. For a multinomial logit whose reported gradient is zero it lies in [0, 1].", "quantifier": "every model, data, optimizer outcome and start", "why_tests_cant": "relates three reported numbers for every optimizer outcome; a test looks at one fit", "anchors": ["src/pylogit/estimation.py:calc_rho_and_rho_bar_squared", "src/pylogit/estimation.py:calc_and_store_post_estimation_results", "src/pylogit/base_multinomial_cm_v2.py:store_fit_results"]}
{"id": "C108", "title": "The order of the simulation draws is irrelevant", "statement": "Take the draws of a mixed logit in any other order, the same for all units and variables: log-likelihood, gradient, the Hessian behind the standard errors and both kinds of predictions are unchanged, for every parameter vector.", "quantifier": "every table, mixing specification, number of draws, draws, order, weights, penalty and parameter vector", "why_tests_cant": "quantifies over all permutations of all draws; a test fixes a seed", "anchors": ["src/pylogit/mixed_logit_calcs.py:create_expanded_design_for_mixing", "src/pylogit/mixed_logit_calcs.py:calc_choice_sequence_probs", "src/pylogit/mixed_logit_calcs.py:calc_mixed_log_likelihood", "src/pylogit/mixed_logit_calcs.py:calc_mixed_logit_gradient", "src/pylogit/mixed_logit_calcs.py:calc_bhhh_hessian_approximation_mixed_logit"]}
{"id": "C109", "title": "The sign of a standard deviation in a mixed logit", "statement": "Changing the sign of some standard deviation parameters is the same as changing the sign of the draws of those variables: log-likelihood and predictions agree, the gradient changes sign in those positions and the Hessian in those rows and columns. If the draws come in opposite pairs for these variables, the log-likelihood and the predictions are the same at sigma and at -sigma.", "quantifier": "every table, mixing specification, draws, set of signs, weights, penalty and parameter vector", "why_tests_cant": "a symmetry over all real parameter vectors and draws", "anchors": ["src/pylogit/mixed_logit_calcs.py:create_expanded_design_for_mixing", "src/pylogit/mixed_logit_calcs.py:calc_mixed_log_likelihood", "src/pylogit/mixed_logit_calcs.py:calc_mixed_logit_gradient", "src/pylogit/mixed_logit_calcs.py:calc_bhhh_hessian_approximation_mixed_logit"]}
{"id": "C110", "title": "The order of the nests is irrelevant", "statement": "List the nests of a nested logit in another order, under other names, or the alternatives of a nest in another order: with the nest parameters moved accordingly, probabilities and log-likelihood are the same, and gradient and Hessian are the same up to the corresponding move of their positions.", "quantifier": "every table, pair of accepted nest specifications with the same nests, weights, penalty and parameter vector", "why_tests_cant": "quantifies over all nest specifications and permutations", "anchors": ["src/pylogit/choice_tools.py:create_long_form_mappings", "src/pylogit/nested_choice_calcs.py:calc_nested_probs", "src/pylogit/nested_choice_calcs.py:calc_nested_log_likelihood", "src/pylogit/nested_choice_calcs.py:calc_nested_gradient", "src/pylogit/nested_choice_calcs.py:calc_bhhh_hessian_approximation", "src/pylogit/nested_logit.py:split_param_vec"]}
{"id": "C111", "title": "A bootstrap table is the original table with draw counts as weights", "statement": "Build a bootstrap table from any drawn observations that together still offer every alternative: its design matrix exists, has the same column names and consists of copies of the original rows; and for every logit type, the nested logit and every parameter vector its log-likelihood, gradient, Hessian and BHHH matrix are those of the original table in which each observation is weighted by the number of times it was drawn.", "quantifier": "every table, resample (any length), specification, logit type, weights, penalty and parameter vector", "why_tests_cant": "quantifies over all resamples and parameter vectors", "anchors": ["src/pylogit/bootstrap_sampler.py:create_bootstrap_dataframe", "src/pylogit/bootstrap_sampler.py:create_deepcopied_groupby_dict", "src/pylogit/choice_tools.py:create_design_matrix", "src/pylogit/choice_calcs.py:calc_log_likelihood", "src/pylogit/choice_calcs.py:calc_gradient"]}
{"id": "C112", "title": "Sorting the table changes no estimation result", "statement": "Reorder the rows of a table in any way (rows of an observation need not stay together), renaming observation ids injectively: every logit type and the nested logit give the same log-likelihood, gradient, Hessian and BHHH matrix, hence the same steps of the optimizer and the same standard errors, at every parameter vector. So does the mixed logit provided every unit keeps its draws, in particular with the same seed when the units first appear in the same order; otherwise the same seed gives another log-likelihood.", "quantifier": "every table, permutation of its rows, renaming, weights, penalty and parameter vector", "why_tests_cant": "all permutations of all tables", "anchors": ["src/pylogit/choice_calcs.py:calc_hessian", "src/pylogit/choice_calcs.py:calc_fisher_info_matrix", "src/pylogit/nested_choice_calcs.py:calc_nested_gradient", "src/pylogit/nested_choice_calcs.py:calc_bhhh_hessian_approximation", "src/pylogit/choice_tools.py:create_long_form_mappings"]}
{"id": "C113", "title": "Substitution between alternatives", "statement": "In a nested logit the odds of two alternatives of the same nest are exp of the utility difference divided by the nest coefficient, whatever else is offered; the odds of two alternatives of different nests depend only on what is offered in those two nests, so adding, removing or changing alternatives of other nests moves all alternatives of untouched nests in the same proportion. In a mixed logit the odds of two alternatives do depend on the others.", "quantifier": "every pair of tables, nest specifications, designs, parameter vectors and rows", "why_tests_cant": "relates the predictions of all pairs of tables", "anchors": ["src/pylogit/nested_choice_calcs.py:calc_nested_probs", "src/pylogit/mixed_logit_calcs.py:calc_choice_sequence_probs", "src/pylogit/base_multinomial_cm_v2.py:MNDC_Model.predict"]}
{"id": "C114", "title": "Summaries show one completed estimation", "statement": "print_summaries raises NotImplementedError for an object of which no fit_mle call has run to its end, and otherwise prints the fit statistics and the parameter table of the last one that did, whatever was called since, including fits of the same object that raise half-way or only return a point estimate. get_statsmodels_summary reports one and the same fit as well.", "quantifier": "every history of calls on any number of models and tables, and every object", "why_tests_cant": "all histories, including exceptions at any point of a fit", "anchors": ["src/pylogit/base_multinomial_cm_v2.py:MNDC_Model.print_summaries", "src/pylogit/base_multinomial_cm_v2.py:MNDC_Model.get_statsmodels_summary", "src/pylogit/base_multinomial_cm_v2.py:MNDC_Model.store_fit_results", "src/pylogit/base_multinomial_cm_v2.py:MNDC_Model._create_results_summary", "src/pylogit/base_multinomial_cm_v2.py:MNDC_Model._create_fit_summary"]}
{"id": "C115", "title": "Pickle file names", "statement": "to_pickle writes to the given path if it ends in .pkl and to the path with .pkl appended otherwise; passing the name of the file written writes the same file; two paths lead to the same file only if they are equal or differ by one .pkl.", "quantifier": "every string", "why_tests_cant": "all strings", "anchors": ["src/pylogit/base_multinomial_cm_v2.py:MNDC_Model.to_pickle"]}
{"id": "C116", "title": "Only finite numbers enter an estimation", "statement": "A model is constructed only if every column named in its specification holds integers, or floating point numbers none of which is NaN or infinite; any other existing column (also one of booleans) raises ValueError. The design matrix of a constructed model therefore holds finite numbers only, and it is the design matrix of the table of numbers.", "quantifier": "every table with integer, float (with NaN and infinities), boolean or other columns, every specification and names", "why_tests_cant": "all contents of all columns", "anchors": ["src/pylogit/base_multinomial_cm_v2.py:ensure_valid_nums_in_specification_cols", "src/pylogit/choice_tools.py:create_design_matrix"]}
{"id": "C117", "title": "A missing value in a prediction table affects its own observation only", "statement": "predict accepts tables with missing or infinite values. Every observation whose rows hold finite values of the variables gets exactly the probabilities it would get if the gaps elsewhere were filled with any numbers. A NaN in a variable of the specification makes all probabilities of its own observation NaN, even if the variable does not enter the utility of that row's alternative; so does an infinite value in a row whose alternative the variable is to leave out. An observation with infinite utilities but none that is NaN gets the logit shares, an infinite utility counting as 700 or -700.", "quantifier": "every prediction table with NaN and infinite values anywhere, every specification, every coefficient vector of a conditional logit", "why_tests_cant": "all positions of gaps and all ways of filling them", "anchors": ["src/pylogit/base_multinomial_cm_v2.py:MNDC_Model.predict", "src/pylogit/choice_tools.py:create_design_matrix", "src/pylogit/choice_calcs.py:calc_probabilities"]}
{"id": "C118", "title": "A seed fixes all random numbers from then on", "statement": "A call of fit_mle (mixed logit), predict, panel_predict or the bootstrap sampler with a seed gives the same result whatever was seeded or drawn before. It acts on numpy's global generator: the call is the same as np.random.seed(seed) followed by the call without a seed, for its own result and for every later draw of the program. A refused seed (not an int, not positive for the mixed logit, refused by numpy) raises an error and leaves the generator as it was.", "quantifier": "every program of library calls, np.random.seed calls and draws of the user, in every order; every generator", "why_tests_cant": "all histories before and after the call", "anchors": ["src/pylogit/mixed_logit_calcs.py:get_normal_draws", "src/pylogit/mixed_logit.py:MixedLogit.fit_mle", "src/pylogit/mixed_logit.py:MixedLogit.panel_predict", "src/pylogit/base_multinomial_cm_v2.py:MNDC_Model.predict", "src/pylogit/bootstrap_sampler.py:create_cross_sectional_bootstrap_samples"]}
{"id": "C119", "title": "With a seed, a person's simulated probabilities do not depend on the other people", "statement": "Two prediction tables that agree on the rows of an observation give its rows the same simulated probabilities when predict is called with the same seed and number of draws. (True with one random coefficient or equally many people; false with several random coefficients and more people, even when they are appended at the end.)", "quantifier": "every mixed logit, every pair of tables, every generator and seed", "why_tests_cant": "all tables and numbers of people", "anchors": ["src/pylogit/mixed_logit_calcs.py:get_normal_draws", "src/pylogit/base_multinomial_cm_v2.py:MNDC_Model.predict"]}
{"id": "C120", "title": "Choices predicted perfectly have no maximum likelihood estimate", "statement": "If some combination of the variables of a multinomial logit is, in every observation that counts, at least as high on the chosen row as on the others, and in one observation strictly higher, then without penalty no parameter vector is a stationary point or a maximum of the log-likelihood: it strictly increases along that combination, and whatever the optimizer returns the stored gradient has a non-zero entry.", "quantifier": "every table and design matrix, every separating combination, every parameter vector (for the gradient even where utilities are clipped), every optimizer", "why_tests_cant": "A test shows that one optimizer stops somewhere on one table; that no vector is a maximum is a claim about all parameter vectors", "anchors": ["src/pylogit/choice_calcs.py:calc_log_likelihood", "src/pylogit/choice_calcs.py:calc_gradient", "src/pylogit/conditional_logit.py:MNL.fit_mle", "src/pylogit/estimation.py:estimate"]}
{"id": "C121", "title": "A penalty keeps the estimates bounded", "statement": "With a ridge penalty r, the sum of squares of the reported parameters of a logit-type model, times r, is at most minus the null log-likelihood whenever the reported log-likelihood is no lower than the null one; at a maximum it is at most the sum over observations of weight times the logarithm of the number of available alternatives. This holds also when the model is not identified or the choices are predicted perfectly. Mixed logit parameters obey the same bound, and for the nested logit the penalised sum does.", "quantifier": "every table, design matrix, weights, penalty, model type, parameter vector and optimizer", "why_tests_cant": "A test shows the estimates for a few penalties; the bound is over all data and all penalties", "anchors": ["src/pylogit/choice_calcs.py:calc_log_likelihood", "src/pylogit/estimation.py:estimate", "src/pylogit/base_multinomial_cm_v2.py:_store_fit_results"]}
{"id": "C122", "title": "Computed probabilities are numbers between 0 and 1 and accurate", "statement": "In double precision: for an observation with at most 4095 available rows and no undefined utility (infinite ones are allowed), every computed probability is a number greater than 0 and at most 1, whatever the utilities and the order in which numpy adds. It differs from the logit formula (with utilities limited to [-700, 700]) by a relative error proportional to the number of rows, plus 2e-300, and the probabilities of the observation add up to one up to the same error. If the computed utilities are within eta of the exact ones, the probability is within a factor e^(2 eta) of the exact model's, up to rounding.", "quantifier": "every observation, utilities, order of summation and exponential function of bounded relative error", "why_tests_cant": "A test sees a few tables on one machine; rounding, overflow and the order of summation depend on the data and the library", "anchors": ["src/pylogit/choice_calcs.py:calc_probabilities"]}
{"id": "C123", "title": "Computed probabilities rank alternatives by utility", "statement": "In double precision, within an observation an alternative whose utility is at least that of another gets a computed probability that is at least the other's, and raising an alternative's utility does not lower its computed probability.", "quantifier": "every observation, utilities, order of summation and exponential function of bounded relative error", "why_tests_cant": "The failures are at utilities far apart, where the ratio underflows; tests use moderate utilities", "anchors": ["src/pylogit/choice_calcs.py:calc_probabilities"]}
{"id": "C124", "title": "The computed log-likelihood is a finite number", "statement": "In double precision, with no undefined utility, at most 4095 rows per observation and no weights, the computed log-likelihood is a finite number that is not positive; its relative error with respect to the sum of the logarithms of the computed probabilities is that of the logarithm plus one rounding per row.", "quantifier": "every table, utilities (infinite ones included), choices, orders of summation and exponential and logarithm functions of bounded relative error", "why_tests_cant": "An infinite or undefined value would stop the optimizer; tests cannot try all data and parameter values", "anchors": ["src/pylogit/choice_calcs.py:calc_log_likelihood", "src/pylogit/choice_calcs.py:calc_probabilities"]}
{"id": "C125", "title": "Finite data and parameters give a finite computed log-likelihood for every logit type", "statement": "In double precision: with finite systematic utilities, shape parameters and intercepts, no transformed utility of the multinomial, clog-log, scobit, uneven or asymmetric logit is NaN, however large the inputs are and however often intermediate results overflow, underflow or become logarithms of zero; so every computed log-likelihood is a finite number that is not positive.", "quantifier": "every model type, finite double utility, shape and intercept, every sensible implementation of exp, log, log1p and power, every order of summation", "why_tests_cant": "2^64 inputs per argument; chains of overflow guards", "anchors": ["src/pylogit/clog_log.py:_cloglog_utility_transform", "src/pylogit/scobit.py:_scobit_utility_transform", "src/pylogit/uneven_logit.py:_uneven_utility_transform", "src/pylogit/asym_logit.py:_asym_utility_transform", "src/pylogit/choice_calcs.py:calc_probabilities"]}
{"id": "C126", "title": "Computed transformed utilities follow the transformation", "statement": "In double precision the clog-log and scobit models give different computed probabilities to two alternatives of an observation whose transformed utilities differ by more than rounding.", "quantifier": "every observation and utilities", "why_tests_cant": "all doubles; the failure region is far from usual test values", "anchors": ["src/pylogit/clog_log.py:_cloglog_utility_transform", "src/pylogit/scobit.py:_scobit_utility_transform"]}
{"id": "C127", "title": "A multinomial logit computed from data and parameters is accurate", "statement": "In double precision, for a multinomial logit with at most 100 parameters whose utility terms add up to at most 1000 in absolute value in every row, a million rows, and exponentials and logarithms within one unit in the last place: every computed probability is within a relative error of 1e-10 (plus 2e-300) of the exact one at the same design matrix and parameters, and the computed log-likelihood within 1e-9 of itself plus 1e-9 per row, whatever the order of all sums and with or without fused multiply-add (given that no chosen row is less likely than 1e-280).", "quantifier": "every design matrix, parameter vector, grouping of rows, choices, order of summation within the limits", "why_tests_cant": "all doubles and all evaluation orders of a linear algebra library", "anchors": ["src/pylogit/choice_calcs.py:calc_probabilities", "src/pylogit/choice_calcs.py:calc_log_likelihood"]}
{"id": "C128", "title": "The asymmetric models in double precision, from the data to the probabilities", "statement": "Given data, coefficients, shape parameters and intercepts of ordinary size, the probability computed in double precision by a clog-log, scobit, uneven or asymmetric logit model is the model's probability up to a small relative error, whatever the order of summation and whether or not products are fused; with utilities up to 6, shapes up to 1 and functions accurate to one unit in the last place the error is below 10^-7. The log-likelihood follows.", "quantifier": "every data set, coefficient vector, shape vector, intercept vector, summation order and elementary-function implementation within the stated bounds", "why_tests_cant": "error propagation over all inputs; tests compare a few values to a tolerance", "anchors": ["src/pylogit/choice_calcs.py:calc_probabilities", "src/pylogit/clog_log.py:_cloglog_utility_transform", "src/pylogit/scobit.py:_scobit_utility_transform", "src/pylogit/uneven_logit.py:_uneven_utility_transform", "src/pylogit/asym_logit.py:_asym_utility_transform", "src/pylogit/asym_logit.py:_convert_eta_to_c"]}
{"id": "C129", "title": "Nested logit probabilities in double precision, from the data", "statement": "Given data, coefficients and nest parameters of ordinary size, the nested logit probability computed in double precision, with all the guards against overflow and underflow, is the model's probability up to a small relative error, whatever the order of summation: below 10^-9 when utilities are at most 10, nest coefficients at least 1/50 and the functions accurate to two units in the last place. It is always a positive number, the probabilities of an observation add up to one up to that error, and alternatives of a nest are ranked as their utilities.", "quantifier": "every data set, coefficient vector, nest parameter vector, nest membership, summation order and implementation of np.exp and np.power", "why_tests_cant": "overflow, underflow and rounding occur at arguments a test does not visit; error propagation over all inputs", "anchors": ["src/pylogit/nested_choice_calcs.py:calc_nested_probs", "src/pylogit/nested_choice_calcs.py:naturalize_nest_coefs"]}
{"id": "C130", "title": "The function that estimation maximises, in double precision, from the data", "statement": "With weights and a ridge penalty, for every logit-type model and the nested logit, the objective computed in double precision from data of ordinary size is a number, and it is the model's weighted log-likelihood minus penalty up to an error that is a small multiple of the total weight, the weighted logarithms and the penalty, whatever the order of summation in the inner products. For the nested logit this includes the rounding of the nest coefficients that are penalised.", "quantifier": "every data set, weight vector, ridge factor, coefficient vector and summation order of ordinary size, and every implementation of np.exp, np.log, np.log1p and np.power of given accuracy", "why_tests_cant": "error propagation over all inputs, weights and summation orders", "anchors": ["src/pylogit/choice_calcs.py:calc_log_likelihood", "src/pylogit/nested_choice_calcs.py:calc_nested_log_likelihood"]}
{"id": "C131", "title": "The gradient handed to the optimiser, in double precision", "statement": "Every entry of the gradient computed in double precision from data of ordinary size is a number close to the entry of the model's gradient: weights, computed probabilities, the column of derivatives of the transformed utilities and the ridge term are all rounded, and the inner product may be summed in any order. For a multinomial logit the number the optimiser receives is within a small multiple of the column's weighted size of the partial derivative of the log-likelihood; the same holds for the intercepts outside the index of every logit-type model.", "quantifier": "every data set, weight vector, ridge factor, coefficient vector and summation order of ordinary size, and every implementation of np.exp, np.log, np.log1p and np.power of given accuracy", "why_tests_cant": "error propagation over all inputs and summation orders, compared with a derivative", "anchors": ["src/pylogit/choice_calcs.py:calc_gradient", "src/pylogit/conditional_logit.py:_mnl_utility_transform"]}
{"id": "C132", "title": "The derivatives of the transformed utilities, and the gradient of every logit-type model, in double precision", "statement": "For ordinary sizes (systematic utilities up to 6 and shape parameters up to 1 in absolute value) the derivatives of the transformed utilities that the clog-log, scobit, uneven and asymmetric models compute in double precision, in the utility and in the shape parameters, are numbers close to the exact derivatives, in spite of the cancelling differences in their denominators; and the gradient the optimiser receives for any logit-type model is within 2e-7 times the weighted size of the column (plus the rounding of the penalty) of the partial derivatives of the log-likelihood. Outside that range the guards can return a derivative that is far from the exact one.", "quantifier": "every model type, data set, weight vector, ridge factor, parameter vector and summation order of ordinary size, and every implementation of np.exp, np.log, np.log1p and np.power of given accuracy", "why_tests_cant": "error propagation through cancelling subtractions for all inputs, compared with a derivative", "anchors": ["src/pylogit/clog_log.py:_cloglog_transform_deriv_v", "src/pylogit/scobit.py:_scobit_transform_deriv_v", "src/pylogit/scobit.py:_scobit_transform_deriv_shape", "src/pylogit/uneven_logit.py:_uneven_transform_deriv_v", "src/pylogit/uneven_logit.py:_uneven_transform_deriv_shape", "src/pylogit/asym_logit.py:_asym_transform_deriv_v", "src/pylogit/asym_logit.py:_asym_transform_deriv_shape", "src/pylogit/choice_calcs.py:calc_gradient"]}
{"id": "C133", "title": "Guards of the derivatives for every finite utility and shape", "statement": "For every finite utility and every finite shape parameter, also at the ends of the range of doubles where intermediate terms overflow or vanish, the derivative of the transformed utility in the utility that each logit-type model computes is a finite number, and the derivative in the shape parameters is never undefined, so that the optimiser never receives an undefined gradient from finite parameters.", "quantifier": "every model type, every finite double utility and shape parameter, every np.exp, np.log and np.power with finite positive values where the exact value is in range", "why_tests_cant": "the guards meet every combination of overflowing, vanishing and saturated intermediate terms over the whole range of doubles", "anchors": ["src/pylogit/clog_log.py:_cloglog_transform_deriv_v", "src/pylogit/scobit.py:_scobit_transform_deriv_v", "src/pylogit/scobit.py:_scobit_transform_deriv_shape", "src/pylogit/uneven_logit.py:_uneven_transform_deriv_v", "src/pylogit/uneven_logit.py:_uneven_transform_deriv_shape", "src/pylogit/asym_logit.py:_asym_transform_deriv_v", "src/pylogit/asym_logit.py:_asym_transform_deriv_shape", "src/pylogit/choice_calcs.py:calc_gradient"]}
{"id": "C134", "title": "Derivatives of the transformed utilities far from zero", "statement": "For utilities 40 or more from zero, up to the end of the range of doubles, the guards return the limits the exact derivatives tend to: the derivative in the utility of the clog-log model for low utilities and of the scobit model for large utilities is 1, of the scobit model for utilities whose exponential overflows the natural shape, of the uneven model and of the clog-log model for large utilities the exact derivative, all right to twelve digits; the shape derivative of the scobit model for large utilities is -1, right to twelve digits.", "quantifier": "every finite double utility in the stated ranges and every double shape parameter in the stated range", "why_tests_cant": "the guards and limits have to agree over unbounded ranges of utilities", "anchors": ["src/pylogit/clog_log.py:_cloglog_transform_deriv_v", "src/pylogit/scobit.py:_scobit_transform_deriv_v", "src/pylogit/scobit.py:_scobit_transform_deriv_shape", "src/pylogit/uneven_logit.py:_uneven_transform_deriv_v", "src/pylogit/uneven_logit.py:_uneven_transform_deriv_shape"]}
{"id": "C135", "title": "Reported statistics in double precision", "statement": "With rounding and overflow: the AIC is the exact value rounded once; a model with no lower log-likelihood and no more parameters gets no larger AIC or BIC; rho-squared does not fall when the log-likelihood rises, is between 0 and 1 for a log-likelihood between the null log-likelihood and zero, and is never below rho-bar-squared; standard errors are not negative and grow with the variance, a negative variance gives nan; the t-statistic has the sign of the estimate, and is nan only if estimate and standard error are zero; p-values are between 0 and 1 and do not grow with the distance of the t-statistic from zero; a confidence interval contains the estimate and the intervals of lower confidence, and agrees with the t-statistic on significance up to ties.", "quantifier": "every double log-likelihood, null log-likelihood, number of parameters, estimate, variance, standard error and critical value", "why_tests_cant": "order and bounds have to survive rounding and overflow for all doubles", "anchors": ["src/pylogit/base_multinomial_cm_v2.py:compute_aic", "src/pylogit/base_multinomial_cm_v2.py:compute_bic", "src/pylogit/estimation.py:calc_rho_and_rho_bar_squared", "src/pylogit/base_multinomial_cm_v2.py:MNDC_Model._store_generic_inference_results", "src/pylogit/base_multinomial_cm_v2.py:MNDC_Model.conf_int"]}
{"id": "C136", "title": "Mixed logit: simulated log-likelihood in double precision", "statement": "With rounding, underflow and any order of summation: the simulated probability of a decision maker's choices is always a number in (0, 1] with a finite logarithm; if no draw makes the choices of a decision maker less likely than exp(-690), the computed penalised log-likelihood is within an explicit bound of the weighted sum of the logarithms of the means over the draws of the products of the chosen probabilities, minus the ridge penalty.", "quantifier": "every array of double probabilities in (0, 1], choices, decision makers with up to 2^20 rows, up to 2^20 draws, weights, ridge penalty and order of summation", "why_tests_cant": "the errors of long sums, exponentials and means add up; underflow only happens for long sequences", "anchors": ["src/pylogit/mixed_logit_calcs.py:calc_choice_sequence_probs", "src/pylogit/mixed_logit_calcs.py:calc_mixed_log_likelihood"]}
{"id": "C137", "title": "Accuracy of the reported statistics", "statement": "The computed BIC, rho-squared, rho-bar-squared, standard errors, t-statistics and ends of confidence intervals are numbers within a few roundings of their definitions; the p-value is exactly twice the computed tail probability.", "quantifier": "every double log-likelihood, null log-likelihood, number of observations and parameters, estimate, variance, standard error and critical value in wide ranges (up to 2^500 or more)", "why_tests_cant": "the bounds have to hold for all magnitudes, not for the few models of the tests", "anchors": ["src/pylogit/base_multinomial_cm_v2.py:compute_bic", "src/pylogit/estimation.py:calc_rho_and_rho_bar_squared", "src/pylogit/base_multinomial_cm_v2.py:MNDC_Model._store_generic_inference_results", "src/pylogit/base_multinomial_cm_v2.py:MNDC_Model.conf_int"]}
{"id": "C138", "title": "Mixed logit: gradient in double precision", "statement": "With rounding, underflow and any order of summation: the weight that each draw gets in the gradient is always a number between 0 and twice the number of draws; if no draw makes the choices of a decision maker less likely than exp(-690), the computed entry of the gradient is within an explicit bound of the mean over the draws of the weighted residuals times the regressor, minus twice the ridge penalty times the parameter.", "quantifier": "every array of double probabilities in (0, 1], choices, assignment of rows to decision makers, design and weights of at most 2^100, up to 2^20 rows and draws and order of summation", "why_tests_cant": "the errors of the weights of the draws and of the sums over rows and draws add up; underflow only happens for long sequences", "anchors": ["src/pylogit/mixed_logit_calcs.py:calc_mixed_logit_gradient"]}
{"id": "C139", "title": "What is accepted as data", "statement": "A data frame is used as it is; a path that ends in '.csv' is read and the result or exception of the reader is passed on; any other path raises ValueError without being read, and any other argument TypeError. A model made from a path has the design matrix of the model made from the table in the file.", "quantifier": "every argument, every path and every behaviour of the reader", "why_tests_cant": "all strings and all behaviours of the reader", "anchors": ["src/pylogit/choice_tools.py:get_dataframe_from_data", "src/pylogit/base_multinomial_cm_v2.py:MNDC_Model.__init__"]}
