{
 "claims": [
  {
   "property": "C01",
   "status": "proved",
   "theorems": [
    "C01_one_hot_aligned",
    "C01_one_hot_lossless",
    "C01_one_hot_rejects"
   ],
   "note": "Alignment, losslessness (a decoder written independently recovers the data) and error branches of one_hot_encode_test_data."
  },
  {
   "property": "C02",
   "status": "proved",
   "theorems": [
    "C02_missing_mask_exact",
    "C02_dataset_keeps_data_and_mask",
    "C02_imputed_dataset_keeps_data_and_mask"
   ],
   "note": "Pointwise characterisation of get_missing_mask, and of the dataset built from it."
  },
  {
   "property": "C03",
   "status": "partial",
   "theorems": [
    "C03_impute_zero",
    "C03_impute_mean",
    "C03_impute_random_incorrect",
    "C03_single_respondent_refuted",
    "C03_impute_rejects",
    "C03_short_lists",
    "C03_caller_unchanged"
   ],
   "note": "Holds for zero, mean and (two or more respondents) random incorrect. Finding: for a single respondent the squeeze in impute_missing_internal drops a dimension and random incorrect imputation fails."
  },
  {
   "property": "C04",
   "status": "partial",
   "theorems": [
    "C04_one_hot_caller_unchanged_iff",
    "C04_one_hot_effect_on_caller",
    "C04_dataset_effect_on_caller",
    "C04_imputed_dataset_caller_unchanged",
    "C04_caller_unchanged_refuted"
   ],
   "note": "Refuted: one_hot_encode_test_data writes -1 for NaN into the caller's tensor. The exact effect and the exact condition under which the caller is unchanged are proved."
  },
  {
   "property": "C05",
   "status": "partial",
   "theorems": [
    "C05_constructor_categories_cover",
    "C05_get_item_categories_complete_data",
    "C05_get_item_categories_refuted",
    "C05_get_item_categories_no_complete_row"
   ],
   "note": "The constructors' inference covers the data; get_item_categories drops items' categories when rows contain NaN (refuted)."
  },
  {
   "property": "C06",
   "status": "partial",
   "theorems": [
    "C06_random_incorrect_without_model",
    "C06_prior_expected",
    "C06_random_incorrect_with_model_refuted",
    "C06_multiple_choice_model_rejected",
    "C06_prior_expected_rejects"
   ],
   "note": "Refuted with a model: impute_missing never obtains the answer key from the model. The cases without a model are proved."
  },
  {
   "property": "C07",
   "status": "partial",
   "theorems": [
    "C07_multiple_choice",
    "C07_no_key",
    "C07_default_refuted",
    "C07_binary_key_refuted"
   ],
   "note": "Proved for items with at least three categories and for the no-key case; refuted twice: leaving out the probabilities always raises ValueError (the default branch is unreachable, _internal_utils.py:110-123), and a two-category item ignores the key (C07_binary_key_refuted)."
  },
  {
   "property": "C08",
   "status": "proved",
   "theorems": [
    "C08_split_partitions"
   ],
   "note": "For every permutation and ratio in [0,1]; the product n*ratio is exact rational arithmetic."
  },
  {
   "property": "C09",
   "status": "proved",
   "theorems": [
    "C09_folds_partition",
    "C09_every_fold_fitted_and_scored",
    "C09_runs_with_two_folds",
    "C09_average_of_fold_scores"
   ],
   "note": "Fold partition; every fold is fitted and scored; averages."
  },
  {
   "property": "C10",
   "status": "partial",
   "theorems": [
    "C10_fold_count_and_sizes",
    "C10_requested_fold_count_refuted",
    "C10_too_few_folds"
   ],
   "note": "Refuted in general (torch.chunk may give fewer folds); exact count and sizes proved, including that k | n gives exactly k."
  },
  {
   "property": "C11",
   "status": "proved",
   "theorems": [
    "C11_grid_is_full_product"
   ],
   "note": "Full lexicographic product with fixed keyword arguments taking precedence."
  },
  {
   "property": "C12",
   "status": "partial",
   "theorems": [
    "C12_first_fold_clean_partial",
    "C12_held_out_refuted"
   ],
   "note": "Refuted for every fold but the first: the model object is not reset between folds, so from the second fold on it has been trained on all held-out respondents."
  },
  {
   "property": "C13",
   "status": "proved",
   "theorems": [
    "C13_softmax_distribution",
    "C13_gpc",
    "C13_nrm",
    "C13_binary"
   ],
   "note": "For any logit table with finite logits on the item's categories and -inf padding, and for 2PL, GPC, NRM from their parameters. Positivity is over the reals (floats can underflow to 0)."
  },
  {
   "property": "C14",
   "status": "proved",
   "theorems": [
    "C14_opl",
    "C14_opl_increasing",
    "C14_tpl",
    "C14_tpl_monotone",
    "C14_tpl_constructed"
   ],
   "note": "Closed form per item and strict monotonicity for the actual tensor layout; constructors establish the shape invariant."
  },
  {
   "property": "C15",
   "status": "partial",
   "theorems": [
    "C15_opl",
    "C15_tpl",
    "C15_tpl_traditional",
    "C15_refused",
    "C15_thpl_refused",
    "C15_thpl_traditional",
    "C15_grm_traditional",
    "C15_gpc_reported",
    "C15_gpc_irt_format",
    "C15_gpc_documented_refuted",
    "C15_gpc_not_refused_refuted"
   ],
   "note": "1PL, 2PL, 3PL and GRM parameters reproduce the model. Refuted for GPC: its documentation cumulates d_1..d_x, the forward pass and item_parameters do not, so for items with three or more categories the documented formula gives other probabilities; and GPC/GRM do not refuse the traditional format for several latent variables. Division by a zero slope is excluded by hypothesis."
  },
  {
   "property": "C16",
   "status": "proved",
   "theorems": [
    "C16_thpl",
    "C16_thpl_monotone",
    "C16_new"
   ],
   "note": "Closed form, bounds, sum and strict monotonicity."
  },
  {
   "property": "C17",
   "status": "proved",
   "theorems": [
    "C17_adjacent_odds",
    "C17_own_parameters",
    "C17_expected_score_monotone"
   ],
   "note": "Adjacent log-odds, locality of parameters, and monotone expected score by a likelihood-ratio ordering argument."
  },
  {
   "property": "C18",
   "status": "proved",
   "theorems": [
    "C18_telescope",
    "C18_fresh_model_valid",
    "C18_expected_score"
   ],
   "note": "Telescoping, exact condition for validity, strictly decreasing starting intercepts, increasing expected score."
  },
  {
   "property": "C19",
   "status": "proved",
   "theorems": [
    "C19_identified",
    "C19_reported_reproduce"
   ],
   "note": "Reported slopes and intercepts sum to zero and reproduce the probabilities."
  },
  {
   "property": "C20",
   "status": "proved",
   "theorems": [
    "C20_categories",
    "C20_forward_distribution",
    "C20_key_refused"
   ],
   "note": "Correct/incorrect sub-models enter as their probability outputs (for nominal these are shown valid in C13). Items with a single category are excluded: their incorrect model has zero categories and the softmax is NaN."
  },
  {
   "property": "C21",
   "status": "proved",
   "theorems": [
    "C21_splines",
    "C21_distribution",
    "C21_upper_tail",
    "C21_forward",
    "C21_expected_score_monotone"
   ],
   "note": "B-spline basis values come from the external package splinetorch and are an input of the model; nonnegativity / growing upper tails of the basis are hypotheses where used."
  },
  {
   "property": "C22",
   "status": "proved",
   "theorems": [
    "C22_shape",
    "C22_gradient",
    "C22_kink"
   ],
   "note": "Full statement, plus: bounds are tight and for alpha<>1 no derivative exists at the joins."
  },
  {
   "property": "C23",
   "status": "proved",
   "theorems": [
    "C23_layer",
    "C23_layer_built",
    "C23_groups",
    "C23_groups_connected",
    "C23_even_groups",
    "C23_groups_refused",
    "C23_stack",
    "C23_split_activation",
    "C23_hidden_refused",
    "C23_expected_score_monotone",
    "C23_key_probability_monotone",
    "C23_reported_direction"
   ],
   "note": "Layer, stack, separated groups and the end-to-end expected score / keyed probability for every constructed architecture and parameter values."
  },
  {
   "property": "C24",
   "status": "partial",
   "theorems": [
    "C24_degree",
    "C24_model_degree_refused",
    "C24_monotone",
    "C24_forward_monotone",
    "C24_derivative",
    "C24_expected_score_monotone",
    "C24_reported_coefficients_refuted",
    "C24_reported_coefficients_linear"
   ],
   "note": "Monotonicity, degree check and end-to-end expected score proved. FINDING: get_polynomial_coefficients (monotone_polynomial.py:97-126) reports a different polynomial than forward for every degree >= 3 (refuted for all parameters); correct for degree 1."
  },
  {
   "property": "C25",
   "status": "proved",
   "theorems": [
    "C25_range",
    "C25_multiple_choice",
    "C25_total",
    "C25_monotone"
   ],
   "note": "Range, multiple-choice score, totals, and monotonicity for any logit table."
  },
  {
   "property": "C26",
   "status": "proved",
   "theorems": [
    "C26_base",
    "C26_prob",
    "C26_base_cells",
    "C26_prob_cells",
    "C26_opl",
    "C26_tpl",
    "C26_thpl",
    "C26_gpc",
    "C26_nrm",
    "C26_grm",
    "C26_missing_irrelevant_base",
    "C26_missing_irrelevant_prob",
    "C26_base_mean",
    "C26_reduction_refused",
    "C26_unmasked_code"
   ],
   "note": "General theorems for both implementations and end-to-end for 1PL, 2PL, 3PL, GPC, nominal and graded response; missing cells irrelevant for every reduction; 'mean' (base class). Note: without a mask the code -1 is silently scored as the last category by table-indexing models."
  },
  {
   "property": "C27",
   "status": "proved",
   "theorems": [
    "C27_total_is_sum_of_parts",
    "C27_probabilities_padded",
    "C27_parts_honest",
    "C27_made",
    "C27_differing_refused",
    "C27_mean_refused"
   ],
   "note": "Sum of parts and padded probabilities for mixes of sub-models with two-dimensional outputs (GPC, nominal, 2PL, GRM shown to qualify); 'mean' raises NotImplementedError."
  },
  {
   "property": "C28",
   "status": "partial",
   "theorems": [
    "C28_layout",
    "C28_order_single",
    "C28_refuted"
   ],
   "note": "FINDING: model_mix.py:176-183 concatenates the per-cell log-likelihoods sub-model by sub-model, so the respondents x items view used by evaluator, MML, EAP and start values mixes respondents; refuted for all two-part mixes with two or more respondents. Holds for a single respondent or a single sub-model."
  },
  {
   "property": "C29",
   "status": "partial",
   "theorems": [
    "C29_split_returns_own_output",
    "C29_refuted"
   ],
   "note": "FINDING: split sizes assume max_item_responses columns per item; any mix containing a 3PL, nested logit or surprisal spline raises RuntimeError. Proved for the other sub-models."
  },
  {
   "property": "C30",
   "status": "partial",
   "theorems": [
    "C30_marginal_likelihood",
    "C30_any_model",
    "C30_mix_refuted"
   ],
   "note": "Proved for every library class (1PL, 2PL, 3PL, GPC, GRM, nominal) and any model with C26 log-likelihoods; refuted for ModelMix, whose 'none' cells are ordered sub-model first, so the reshape mixes respondents (C30_mix_refuted)."
  },
  {
   "property": "C31",
   "status": "proved",
   "theorems": [
    "C31_grid_size",
    "C31_total_weight",
    "C31_points_and_weights_aligned"
   ],
   "note": "Product grid, total weight, alignment of points with weights for any one-dimensional rule."
  },
  {
   "property": "C32",
   "status": "partial",
   "theorems": [
    "C32_most_likely_partial",
    "C32_subset_partial",
    "C32_table_refuted",
    "C32_large_refuted"
   ],
   "note": "Proved up to 10^6 respondent/score combinations and, among a random subset, up to 500000 respondents; refuted for models with a three-dimensional output (silently zeros) and for larger data (median for everybody)."
  },
  {
   "property": "C33",
   "status": "proved",
   "theorems": [
    "C33_posterior_mean",
    "C33_any_model",
    "C33_sample_covariance"
   ],
   "note": "For every library class; the normal log density is a parameter (torch.distributions). Range: the score range of the training scores widened by a quarter on each side."
  },
  {
   "property": "C34",
   "status": "partial",
   "theorems": [
    "C34_after_mml_refuted",
    "C34_many_latent_refused",
    "C34_unfitted_partial"
   ],
   "note": "Refuted: MML instances always carry training_theta_scores = None, so EAP raises ValueError after every MML fit. The limit of four latent variables and the unfitted case are proved."
  },
  {
   "property": "C35",
   "status": "partial",
   "theorems": [
    "C35_annealing",
    "C35_kl",
    "C35_elbo",
    "C35_importance_bound",
    "C35_mix_refuted"
   ],
   "note": "Annealing factor, KL term, one-sample and importance-weighted losses proved for every library class; refuted for ModelMix with several samples (C35_mix_refuted). The encoder is a parameter (its finite means and log variances are inputs)."
  },
  {
   "property": "C36",
   "status": "partial",
   "theorems": [
    "C36_single_partial",
    "C36_commuting_partial",
    "C36_order_refuted",
    "C36_reverse_order_partial",
    "C36_attached_partial"
   ],
   "note": "Refuted for two scales: inverse_transform_theta applies the inverses in the same order as the transformations, so the round trip holds exactly when the scales commute (C36_order_refuted is an equivalence). Proved for one scale, commuting scales, and for the reversed order."
  },
  {
   "property": "C37",
   "status": "proved",
   "theorems": [
    "C37_chain_rule",
    "C37_entries",
    "C37_unique"
   ],
   "note": "Scales are arbitrary objects whose reported Jacobian is the derivative of their transformation."
  },
  {
   "property": "C38",
   "status": "proved",
   "theorems": [
    "C38_reverse_transform",
    "C38_reverse_own_inverse",
    "C38_reverse_jacobian",
    "C38_rotate",
    "C38_rotate_dimensions"
   ],
   "note": "torch.inverse is a parameter specified to return an inverse matrix."
  },
  {
   "property": "C39",
   "status": "partial",
   "theorems": [
    "C39_not_inverted_partial",
    "C39_inverted_refuted",
    "C39_construction_partial",
    "C39_linking_spline_partial"
   ],
   "note": "Refuted: with invert=True the inverse is the negated spline inverse, correct iff the spline is odd on the points in question (C39_inverted_refuted). Proved without inversion, together with the constructor's checks. C39_linking_spline_partial instantiates the round trip with the rational-quadratic spline itself."
  },
  {
   "property": "C40",
   "status": "partial",
   "theorems": [
    "C40_flow_partial",
    "C40_bins_partial",
    "C40_total_partial",
    "C40_increasing_partial",
    "C40_continuous_partial",
    "C40_interval_partial",
    "C40_inverse_partial",
    "C40_derivative_partial",
    "C40_inverse_derivative_partial",
    "C40_unit_slope_partial",
    "C40_too_many_bins_partial",
    "C40_free_endpoints_refuted"
   ],
   "note": "Proved for any bin count and any parameter values with output bounds in order; refuted for free_endpoints, whose output bounds are unconstrained and may cross (C40_free_endpoints_refuted). The derivative report is proved on the open interval, and everywhere for unit tail slope; outside see C41. One variable and one input at a time (the code broadcasts)."
  },
  {
   "property": "C41",
   "status": "partial",
   "theorems": [
    "C41_outside_refuted",
    "C41_inverse_outside_refuted",
    "C41_flow_default_refuted",
    "C41_unit_partial",
    "C41_density_inside_partial"
   ],
   "note": "Refuted: the report outside the interval is 0, which is the log of the tail slope iff the slope is 1 (C41_outside_refuted); the flow's default slope is 6/11 (C41_flow_default_refuted). Holds for unit slope and inside the interval."
  },
  {
   "property": "C42",
   "status": "partial",
   "theorems": [
    "C42_score",
    "C42_order",
    "C42_difference",
    "C42_transform",
    "C42_one_dimensional",
    "C42_one_dimensional_start",
    "C42_one_dimensional_exact",
    "C42_single_point_refuted",
    "C42_batch_refuted",
    "C42_batch"
   ],
   "note": "Refuted in two ways: beyond the end of the grid the scores of the other respondents of the batch are the only points in between, so a respondent's bit score depends on the batch (C42_batch_refuted, for every grid size; C42_batch gives the difference); and a single grid point, which the constructor accepts, makes every one-dimensional score zero (C42_single_point_refuted). The rest is proved for every entropy function."
  },
  {
   "property": "C43",
   "status": "proved",
   "theorems": [
    "C43_interpolation",
    "C43_monotone",
    "C43_order"
   ],
   "note": "Distinct x values, at least two; also beyond the outermost points. Ties: see C74."
  },
  {
   "property": "C44",
   "status": "proved",
   "theorems": [
    "C44_fraction",
    "C44_order",
    "C44_transform",
    "C44_distributions"
   ],
   "note": "Of two equally near training values the smaller one decides. The quantile function of the distribution is an argument."
  },
  {
   "property": "C45",
   "status": "partial",
   "theorems": [
    "C45_factor",
    "C45_nan_refuted",
    "C45_limits",
    "C45_outliers",
    "C45_errors",
    "C45_few_outliers"
   ],
   "note": "Refuted only in that NaN is accepted as a factor (C45_nan_refuted). The limits are finite for every nonempty sample."
  },
  {
   "property": "C46",
   "status": "proved",
   "theorems": [
    "C46_score_distribution",
    "C46_is_distribution",
    "C46_population",
    "C46_number_correct"
   ],
   "note": "Equal to the sum over all response patterns; also proved for the population distribution (sum_score_probabilities), with and without an answer key."
  },
  {
   "property": "C47",
   "status": "proved",
   "theorems": [
    "C47_collapse",
    "C47_bad_key"
   ],
   "note": "Item rows summing to one; a key outside the columns raises IndexError."
  },
  {
   "property": "C48",
   "status": "partial",
   "theorems": [
    "C48_multiple_choice_sum_score",
    "C48_sum_score_complete_data",
    "C48_missing_counts_zero_refuted"
   ],
   "note": "Proved for multiple choice and for complete data; refuted for missing data without a key: NaN is not treated as zero."
  },
  {
   "property": "C49",
   "status": "proved",
   "theorems": [
    "C49_entropy",
    "C49_refusal",
    "C49_uniform"
   ],
   "note": "Over the reals; in float32 the constant 1e-10 vanishes next to probabilities of ordinary size."
  },
  {
   "property": "C50",
   "status": "partial",
   "theorems": [
    "C50_symmetric_partial",
    "C50_complete_partial",
    "C50_constant_column_refuted",
    "C50_missing_partial",
    "C50_pairwise_refuted"
   ],
   "note": "Refuted in two ways: a constant column gives NaN on the diagonal (C50_constant_column_refuted); with any missing cell the code centres by the mean of all observed values but divides by pairwise standard deviations, so entries are not pairwise correlations and can exceed one (C50_pairwise_refuted; C50_missing_partial says exactly when they agree). Complete data without constant columns proved."
  },
  {
   "property": "C51",
   "status": "proved",
   "theorems": [
    "C51_matrix",
    "C51_items",
    "C51_direction",
    "C51_angles_refused",
    "C51_score_products",
    "C51_change_of_scale",
    "C51_one_variable"
   ],
   "note": "Categories have positive probability or are padding (zero probability, zero gradient). C51_one_variable: with one latent variable the angle is checked but then ignored."
  },
  {
   "property": "C52",
   "status": "proved",
   "theorems": [
    "C52_range",
    "C52_right_of_root"
   ],
   "note": "Every iteration count and every log-likelihood, infinite ones included; NaN exactly for NaN inputs."
  },
  {
   "property": "C53",
   "status": "proved",
   "theorems": [
    "C53_accuracy",
    "C53_predictions",
    "C53_unit_interval",
    "C53_perfect",
    "C53_missing"
   ],
   "note": "Ties in the most probable category go to the first one. The unit interval for the weighted scores and weighted recall = accuracy need answers among the item's categories."
  },
  {
   "property": "C54",
   "status": "proved",
   "theorems": [
    "C54_residuals"
   ],
   "note": "The probability table is given as an input; for multiple choice the key is not used by the code, only the probability of the chosen option."
  },
  {
   "property": "C55",
   "status": "partial",
   "theorems": [
    "C55_slices",
    "C55_group_probabilities",
    "C55_number_of_groups_refuted"
   ],
   "note": "Holds for the slices of group_fit_log_likelihood and for the chunks of latent_group_probabilities; the latter may return fewer groups than requested (C55_number_of_groups_refuted)."
  },
  {
   "property": "C56",
   "status": "partial",
   "theorems": [
    "C56_complete_data",
    "C56_missing_data_refuted",
    "C56_missing_data_models_refuted"
   ],
   "note": "Proved for complete data. With any missing answer the call fails or some group gets NaN, for every library model (C56_missing_data_refuted, C56_missing_data_models_refuted): the mask is not reordered with the respondents and NaN cells are summed."
  },
  {
   "property": "C57",
   "status": "proved",
   "theorems": [
    "C57_amid",
    "C57_q3"
   ],
   "note": "At least one simulated sample; the diagonal is NaN."
  },
  {
   "property": "C58",
   "status": "proved",
   "theorems": [
    "C58_refusals",
    "C58_weights",
    "C58_responsibilities",
    "C58_iteration",
    "C58_range",
    "C58_covariances",
    "C58_one_feature_density",
    "C58_one_feature_total",
    "C58_pdf"
   ],
   "note": "Holds for every reachable mixture: after any number of completed EM iterations. torch's MultivariateNormal is written out via its Cholesky factorisation; iterations that raise (a covariance that is not positive definite) are characterised for one feature."
  },
  {
   "property": "C59",
   "status": "partial",
   "theorems": [
    "C59_joint_run",
    "C59_marginal_run",
    "C59_limit_below_one",
    "C59_number_of_iterations",
    "C59_plateau_stops",
    "C59_bounded_stops",
    "C59_patience_in_epochs_refuted",
    "C59_negative_loss_refuted",
    "C59_small_rate_refuted"
   ],
   "note": "The runs of JML and MML are characterised completely, NaN and infinite losses included, with lower and upper bounds on their length. Refuted in three ways: JML counts the patience in batches, documented as epochs (C59_patience_in_epochs_refuted); a negative loss that stays the same counts as an improvement for ever (C59_negative_loss_refuted); reductions of 1e-8 or less are not counted, so a small rate never stops early (C59_small_rate_refuted). torch's ReduceLROnPlateau is modelled; loss and optimizer step are arbitrary functions."
  },
  {
   "property": "C60",
   "status": "partial",
   "theorems": [
    "C60_joint_final",
    "C60_marginal_final",
    "C60_best_parameters_refuted",
    "C60_batches_refuted"
   ],
   "note": "Refuted: the state is stored after the optimizer step, so the parameters kept are those after the update that follows the lowest loss (C60_best_parameters_refuted), and JML in batches compares losses of different respondents (C60_batches_refuted). What is kept is characterised exactly."
  },
  {
   "property": "C61",
   "status": "proved",
   "theorems": [
    "C61_threads_restored",
    "C61_fallback_to_sequential"
   ],
   "note": "Every outcome of start method, copying, pool and sequential run."
  },
  {
   "property": "C62",
   "status": "partial",
   "theorems": [
    "C62_standard_encoder",
    "C62_respondents_separately",
    "C62_variational_encoder",
    "C62_bounded_encoder",
    "C62_batch_normalisation_refuted",
    "C62_layers_normalised_refuted",
    "C62_wrong_width",
    "C62_no_hidden_layers",
    "C62_single_row_in_training",
    "C62_autoencoder_scores",
    "C62_variational_scores"
   ],
   "note": "Finding: VariationalEncoder and BoundedEncoder name every normalisation layer after the first 'batchnorm0', so it replaces the first one: a single layer is normalised, and construction with different first and last hidden sizes gives a network which always fails. StandardEncoder is right."
  },
  {
   "property": "C63",
   "status": "partial",
   "theorems": [
    "C63_key_check",
    "C63_legal_key",
    "C63_no_key",
    "C63_too_large",
    "C63_illegal_keys_refuted",
    "C63_unreachable_key_refuted",
    "C63_nested_logit"
   ],
   "note": "Finding: the base constructor compares with <= the number of categories, does not look below 0 and zips the lists, so entries equal to the number of categories, negative entries and keys of the wrong length are accepted. NestedLogit checks properly, except for surplus entries."
  },
  {
   "property": "C64",
   "status": "partial",
   "theorems": [
    "C64_round_trip",
    "C64_refused",
    "C64_old_files",
    "C64_unusable_files",
    "C64_refused_overwrites_refuted"
   ],
   "note": "save_model/load_model with torch.load/torch.save taken as identity on the dictionary and load_state_dict(strict) modelled entry by entry (missing, unexpected, shape). Round trip proved for every object of the same configuration, names and shapes. Finding: a refused file has already overwritten every entry whose name and shape agree (C64_refused_overwrites_refuted). Files without 'algorithm'/'scales' keep the model's own."
  },
  {
   "property": "C65",
   "status": "partial",
   "theorems": [
    "C65_parameters_unchanged",
    "C65_trainable",
    "C65_iteration_error",
    "C65_frozen_refuted",
    "C65_failed_start_refuted",
    "C65_error_masked_refuted",
    "C65_map_without_prior"
   ],
   "note": "Finding: all flags are set rather than put back (frozen parameters become trainable); a failure before the starting values are cloned leaves every parameter frozen; failures before the first iteration are reported as UnboundLocalError."
  },
  {
   "property": "C66",
   "status": "partial",
   "theorems": [
    "C66_refused",
    "C66_answered",
    "C66_complete_data",
    "C66_autoencoder_input",
    "C66_imputed_input",
    "C66_mean_codes",
    "C66_random_incorrect_refuted",
    "C66_variational_refused_refuted",
    "C66_variational_input_refuted",
    "C66_new_respondent_refuted"
   ],
   "note": "Refused requests (unknown method, standard errors for other methods than ML and NN, NN without encoder) and the answers to accepted ones proved for every algorithm, data and engine; the input of the encoder is the training input code by code for AE models (zero, mean, prior, None imputation). Findings: models trained with 'random incorrect' imputation cannot score missing data, the VAE does not store its imputation method and refuses or codes differently, mean imputation uses the means of the scored batch so one new respondent with a missing answer gets NaN."
  },
  {
   "property": "C67",
   "status": "partial",
   "theorems": [
    "C67_data_accumulate",
    "C67_other_width",
    "C67_first_fit",
    "C67_correspondence_refuted",
    "C67_failed_fit_refuted",
    "C67_joint_starting_values",
    "C67_marginal",
    "C67_joint_pairs"
   ],
   "note": "Finding: data accumulate over fits but scores are replaced, so after a second fit they no longer correspond; a failed fit has appended its data."
  },
  {
   "property": "C68",
   "status": "partial",
   "theorems": [
    "C68_reported_parameter_is_the_tried_value",
    "C68_non_numeric_parameter_refuted"
   ],
   "note": "Numeric parameter values are reported unchanged; non-numeric values make the whole cross-validation fail after all fits (refuted)."
  },
  {
   "property": "C69",
   "status": "proved",
   "theorems": [
    "C69_rescaled_gradient"
   ],
   "note": "torch.linalg.solve is a parameter specified to return the solution."
  },
  {
   "property": "C70",
   "status": "partial",
   "theorems": [
    "C70_spline_partial",
    "C70_flow_partial",
    "C70_flow_round_trip_partial",
    "C70_flow_unfitted_partial",
    "C70_neuralnet_refuted",
    "C70_neuralnet_width_partial",
    "C70_flow_spline_partial"
   ],
   "note": "Spline and flow methods proved; refuted for the neural network method, whose Jacobian ignores the activation (C70_neuralnet_refuted). C70_flow_spline_partial instantiates the flow's round trip with the rational-quadratic spline itself."
  },
  {
   "property": "C71",
   "status": "proved",
   "theorems": [
    "C71_sign",
    "C71_positive_means_better",
    "C71_nan"
   ],
   "note": "Every pair of log-likelihoods and every iteration count (tangent-line argument; no convergence assumed)."
  },
  {
   "property": "C72",
   "status": "partial",
   "theorems": [
    "C72_joint_entropy",
    "C72_too_few_pairs",
    "C72_data_partial",
    "C72_expected",
    "C72_missing_refuted"
   ],
   "note": "Complete data proved; refuted with missing answers, where marginal and joint entropies come from different respondents and the value can be below -0.2 bits (C72_missing_refuted). Model-implied values proved."
  },
  {
   "property": "C73",
   "status": "partial",
   "theorems": [
    "C73_derivative",
    "C73_items_refuted",
    "C73_single_item_refuted"
   ],
   "note": "Proved when all items are selected; otherwise the code multiplies probabilities of all items with gradients of the selected ones: RuntimeError in general (C73_items_refuted), a wrong value for a single item (C73_single_item_refuted)."
  },
  {
   "property": "C74",
   "status": "partial",
   "theorems": [
    "C74_quantiles",
    "C74_order",
    "C74_training_point",
    "C74_ties_refuted"
   ],
   "note": "Proved without ties; tied scores get different transformed values and a tie at the smallest score sends every smaller query to minus infinity (C74_ties_refuted). The multivariate normal itself is external."
  },
  {
   "property": "C75",
   "status": "partial",
   "theorems": [
    "C75_answers_kept",
    "C75_data_unchanged_refuted"
   ],
   "note": "Refuted: NaN in the caller's tensor is overwritten by -1 (C75_data_unchanged_refuted); the answers and the pattern of missing cells are kept (C75_answers_kept)."
  },
  {
   "property": "C76",
   "status": "partial",
   "theorems": [
    "C76_raw",
    "C76_standardised",
    "C76_default_call_refuted",
    "C76_missing_counted_refuted"
   ],
   "note": "Raw and standardised residuals proved; the default call (data=None, standardize=True) raises TypeError (C76_default_call_refuted) and respondents who did not answer are counted in the standard error (C76_missing_counted_refuted)."
  },
  {
   "property": "C77",
   "status": "partial",
   "theorems": [
    "C77_sum",
    "C77_mean",
    "C77_none",
    "C77_unknown_reduction_refuted"
   ],
   "note": "Sums, means and single values proved for every model with category probabilities; unknown reductions are not refused and substrings of 'mean' average (C77_unknown_reduction_refuted)."
  },
  {
   "property": "C78",
   "status": "proved",
   "theorems": [
    "C78_infit_outfit",
    "C78_expected_square",
    "C78_level"
   ],
   "note": "For a multiple-choice key the probabilities of an item must sum to one and the key must name existing categories."
  },
  {
   "property": "C79",
   "status": "partial",
   "theorems": [
    "C79_best",
    "C79_one_candidate",
    "C79_small_samples_refuted",
    "C79_one_feature_total"
   ],
   "note": "Violated for one respondent (RuntimeError, nothing left to train on) and two respondents (ValueError, zero covariance): C79_small_samples_refuted. Proved when the fits succeed; they do for one latent variable when every training part has two different scores."
  },
  {
   "property": "C80",
   "status": "partial",
   "theorems": [
    "C80_weights",
    "C80_data",
    "C80_grid",
    "C80_one_feature_total",
    "C80_sum_scores",
    "C80_encoder_sampling_refuted",
    "C80_stale_density_refuted",
    "C80_unfitted_refuted",
    "C80_unbound_refuted"
   ],
   "note": "Finding: 'encoder sampling' always raises TypeError (required argument missing); a density of the requested kind is reused after a refit; a failed quantile fit leaves an unfitted density behind; no training scores and not MML raises UnboundLocalError. The weights theorem holds after any sequence of calls; for the quantile method the weights are NaN when its density is 0 at every grid point."
  },
  {
   "property": "C81",
   "status": "proved",
   "theorems": [
    "C81_ascent"
   ],
   "note": "EM ascent for mixtures of multivariate normals of any dimension, through Jensen's inequality and the optimality of the weighted normal estimates."
  },
  {
   "property": "C82",
   "status": "partial",
   "theorems": [
    "C82_autoencoder_run",
    "C82_stops_no_earlier",
    "C82_plateau_stops",
    "C82_interval_zero",
    "C82_small_batches_refuted"
   ],
   "note": "No loss is minus infinity and every epoch has a batch. Refuted: with batch normalisation batches of fewer than four respondents are skipped, so a small data set is not trained on at all, silently (C82_small_batches_refuted)."
  },
  {
   "property": "C83",
   "status": "proved",
   "theorems": [
    "C83_transformation_run",
    "C83_nan_loss"
   ],
   "note": "C82_stops_no_earlier and C82_plateau_stops speak about the same kind of run and apply here as well."
  },
  {
   "property": "C84",
   "status": "partial",
   "theorems": [
    "C84_completed",
    "C84_rows",
    "C84_surprisal",
    "C84_failed_fit_refuted",
    "C84_recovers",
    "C84_parameters",
    "C84_nested_failed_fit_refuted",
    "C84_nested_completed",
    "C84_other_parameters"
   ],
   "note": "Histories of marginal fits (completed or not), other fits and loads. Proved for all completed histories; the surprisal model never keeps a basis. Finding: after a marginal fit that raises or is interrupted, MonotoneBSpline answers the same for all scores, also after load_model, and NestedLogit with splines refuses batches (RuntimeError), until a marginal fit completes. splinetorch is external: its basis is the Cox-de Boor recursion (M_BSpl.bbasis)."
  },
  {
   "property": "C85",
   "status": "partial",
   "theorems": [
    "C85_unchanged",
    "C85_overwritten_refuted"
   ],
   "note": "The caller's data are unchanged except when a one-hot encoder trained without imputation scores: then NaN cells become -1 in the caller's tensor (finding)."
  },
  {
   "property": "C86",
   "status": "partial",
   "theorems": [
    "C86_logits",
    "C86_distribution",
    "C86_monotone",
    "C86_directions",
    "C86_several_latent_variables_refuted",
    "C86_unordered_knots_refuted",
    "C86_new_model",
    "C86_empty_batch"
   ],
   "note": "Proved for separate='items' with any number of latent variables and for separate splines with one latent variable, knots in order, every degree; strict for degree >= 1. Findings: separate splines with several latent variables raise IndexError in every forward pass; knots out of order are accepted and give a decreasing item (C86_unordered_knots_refuted). splinetorch's basis is modelled as the Cox-de Boor recursion."
  },
  {
   "property": "C87",
   "status": "partial",
   "theorems": [
    "C87_reported",
    "C87_asymptotic",
    "C87_too_small_refuted",
    "C87_delta_method",
    "C87_change_of_scale"
   ],
   "note": "Reported errors characterised for all information matrices; for one latent variable they are the asymptotic ones, and the delta method holds on any scale. Finding: for several latent variables the code takes 1/sqrt of the diagonal of the information, not the diagonal of its inverse; for a positive definite matrix with correlation the reported error is too small."
  },
  {
   "property": "C88",
   "status": "partial",
   "theorems": [
    "C88_one_parameter",
    "C88_two_parameter",
    "C88_three_parameter",
    "C88_gpc",
    "C88_graded",
    "C88_network",
    "C88_unrelated_network_refuted",
    "C88_unrelated_polynomial_refuted",
    "C88_regression",
    "C88_regression_one_variable",
    "C88_equal_scores",
    "C88_nominal_without_scores",
    "C88_nominal_refuted"
   ],
   "note": "1PL, 2PL, 3PL, GPC and GRM: exact agreement for all parameters; monotone networks: never contradicted (MonotonePolynomial: C24_expected_score_monotone). Regression-based directions (NRM, splines, ModelMix): signs of the least squares solution, right for one latent variable. torch.inverse is an input of the model, assumed to return the inverse when there is one. Findings: networks and polynomials without negative relationships report 1 for unrelated pairs; with several latent variables the regression reports directions for latent variables the item does not depend on (C88_nominal_refuted)."
  },
  {
   "property": "C89",
   "status": "partial",
   "theorems": [
    "C89_samples",
    "C89_reachable",
    "C89_softmax",
    "C89_two_parameter",
    "C89_refused",
    "C89_graded_refuted"
   ],
   "note": "torch.multinomial is modelled as the exponential race it implements, the exponential numbers are inputs; that the race draws with the stated probabilities is not proved. Finding: a graded response model with crossing intercepts cannot be sampled from (ValueError)."
  },
  {
   "property": "C90",
   "status": "partial",
   "theorems": [
    "C90_difficulty",
    "C90_abler_population",
    "C90_discrimination",
    "C90_shift",
    "C90_discrimination_sign",
    "C90_two_parameter",
    "C90_single_category_refuted"
   ],
   "note": "For any model answering row by row; autograd is an input assumed to return derivatives (autograd_exact). 2PL closed form as instance. Without scales. Finding: items with one category and no key give NaN."
  },
  {
   "property": "C91",
   "status": "partial",
   "theorems": [
    "C91_interval",
    "C91_nested",
    "C91_alpha_refuted",
    "C91_samples",
    "C91_no_respondents",
    "C91_input_as_trained",
    "C91_imputation_refuted",
    "C91_data_overwritten_refuted"
   ],
   "note": "torch.erfinv is an input assumed to invert an odd increasing function. Findings: alpha is not checked (crossed bounds between 1 and 2); the imputation method used in training is not kept, so sampling feeds the encoder raw missing codes; sampling with one-hot encoding overwrites NaN by -1 in the data passed, by default the stored training data."
  },
  {
   "property": "C92",
   "status": "partial",
   "theorems": [
    "C92_line",
    "C92_original_scale",
    "C92_transformed_scale",
    "C92_probabilities",
    "C92_surface",
    "C92_reversed_scale_refuted",
    "C92_one_step_refuted",
    "C92_scale_transformations"
   ],
   "note": "A figure is its list of points; titles and colours are not modelled. On the original scale, and on the transformed scale of invertible scales with stored scores, all points proved. Findings: the trimming of repeated lowest scores drops the lowest score on a decreasing scale and everything on a constant one (C92_reversed_scale_refuted); one step raises IndexError (C92_one_step_refuted)."
  },
  {
   "property": "C93",
   "status": "partial",
   "theorems": [
    "C93_training_defaults",
    "C93_without_training",
    "C93_transformed_range",
    "C93_range_scale_refuted",
    "C93_probability_medians_refuted",
    "C93_refused",
    "C93_zero_variable_refuted",
    "C93_second_range_refuted",
    "C93_fixed_values"
   ],
   "note": "Findings: without stored scores a range is one of original scores although every scale is invertible (C93_range_scale_refuted); item_probabilities takes the medians of the untransformed scores for transformed ones (C93_probability_medians_refuted); variable 0 and negative ones wrap round; the length of the second range is checked when it is not used and not when it is."
  },
  {
   "property": "C94",
   "status": "partial",
   "theorems": [
    "C94_line",
    "C94_surface",
    "C94_scaled_refuted",
    "C94_two_variables_refuted",
    "C94_direction",
    "C94_items",
    "C94_repeated_items_refuted"
   ],
   "note": "Findings: with a scale attached, no information figure along one variable of a multidimensional model is ever drawn (C94_scaled_refuted); along two variables the axes are always the first two (C94_two_variables_refuted); expected_sum_score counts an item named twice twice, information once (C94_repeated_items_refuted)."
  },
  {
   "property": "C95",
   "status": "partial",
   "theorems": [
    "C95_line",
    "C95_expected_axis",
    "C95_surface",
    "C95_missing_refuted",
    "C95_expected_surface_refuted",
    "C95_observed_mark",
    "C95_observed_score_refuted"
   ],
   "note": "Proved for every model with category probabilities when the chosen items are answered. Findings: one missing answer makes every point NaN (C95_missing_refuted); the expected sum score axis with two variables never gives a figure (C95_expected_surface_refuted); the mark is the sum of the codes, not the score under an answer key, and counts -1 for missing (C95_observed_score_refuted)."
  },
  {
   "property": "C96",
   "status": "partial",
   "theorems": [
    "C96_history",
    "C96_history_refused",
    "C96_distribution",
    "C96_distribution_refused",
    "C96_distribution_refuted"
   ],
   "note": "Findings: a variable beyond the model raises IndexError (the check of the number of variables is written twice), zero and negative ones wrap round, the scores of a single respondent are refused (C96_distribution_refuted)."
  },
  {
   "property": "C97",
   "status": "proved",
   "theorems": [
    "C97_gradients",
    "C97_gradients_cancel",
    "C97_two_parameter",
    "C97_one_parameter",
    "C97_three_parameter",
    "C97_gpc",
    "C97_nominal",
    "C97_graded",
    "C97_two_parameter_peak",
    "C97_guessing",
    "C97_gpc_bound",
    "C97_two_parameter_direction",
    "C97_angles",
    "C97_rescaled",
    "C97_rescaled_one",
    "C97_reversed"
   ],
   "note": "Autograd is assumed to return derivatives where they exist and the linear solver to solve invertible systems; both are hypotheses, met by examples. Graded response: for decreasing intercepts; otherwise probabilities can be negative."
  },
  {
   "property": "C98",
   "status": "partial",
   "theorems": [
    "C98_loss",
    "C98_models",
    "C98_close",
    "C98_minimum",
    "C98_linear_link",
    "C98_linear_unique",
    "C98_construction",
    "C98_unknown_item",
    "C98_widths_refuted"
   ],
   "note": "The inequalities hold for the real-number loss; in single precision the added 1e-10 is lost next to probabilities above about 1e-3. Finding: models whose largest numbers of categories differ can never be linked, whatever the common items (C98_widths_refuted). The common items' categories are stored but never compared; items unknown to the target model are noticed only by fit (C98_unknown_item)."
  },
  {
   "property": "C99",
   "status": "partial",
   "theorems": [
    "C99_key",
    "C99_sat",
    "C99_binary",
    "C99_documented_key_refuted",
    "C99_big_five",
    "C99_big_five_range",
    "C99_cache",
    "C99_failed_download",
    "C99_interrupted_refuted"
   ],
   "note": "Findings: the documentation of swedish_sat, swedish_sat_verbal and swedish_sat_quantitative says the correct responses start from one, they start from zero (C99_documented_key_refuted); big_five interrupted while writing its cache fails from then on (C99_interrupted_refuted). Missing response times pass the filter; unanswered SAT items count as incorrect (both part of the positive theorems). Digits: ASCII. Arithmetic over the reals."
  },
  {
   "property": "C100",
   "status": "proved",
   "theorems": [
    "C100_basis",
    "C100_backward",
    "C100_cancel",
    "C100_slope",
    "C100_gradients",
    "C100_information",
    "C100_shared",
    "C100_corner"
   ],
   "note": "b_spline_basis_derivative of splinetorch is outside the repository and taken to be the usual recursion; C100_basis shows that this recursion gives the derivatives. With degree one the derivative does not exist at a knot (C100_corner) and the value returned there is one-sided."
  },
  {
   "property": "C101",
   "status": "proved",
   "theorems": [
    "C101_one_parameter",
    "C101_two_categories",
    "C101_two_nominal",
    "C101_nominal_credit",
    "C101_three_parameter",
    "C101_new_models"
   ],
   "note": "Tables of probabilities are compared as a whole, over the reals. The graded model's table is compared after marking its entries as defined numbers (some3), as the softmax models' tables may contain NaN in the model."
  },
  {
   "property": "C102",
   "status": "proved",
   "theorems": [
    "C102_one_parameter",
    "C102_two_parameter",
    "C102_three_parameter",
    "C102_generalized_credit",
    "C102_graded",
    "C102_nominal",
    "C102_conditions_needed"
   ],
   "note": "Item parameters without irt_format. Divisions and float rounding are not involved; arithmetic over the reals."
  },
  {
   "property": "C103",
   "status": "partial",
   "theorems": [
    "C103_columns",
    "C103_default",
    "C103_two_categories_refuted",
    "C103_refused",
    "C103_items_refuted",
    "C103_order_refuted",
    "C103_median",
    "C103_set",
    "C103_constructor"
   ],
   "note": "Violations: a proper selection of items makes data with fewer columns than the model has items, for which the log-likelihood raises (C103_items_refuted); a reordering of items feeds answers to the wrong items (C103_order_refuted); for two categories with correct category 0 the wrong answer gets the guessing probability (C103_two_categories_refuted). Draws and latent_scores are arguments."
  },
  {
   "property": "C104",
   "status": "partial",
   "theorems": [
    "C104_loss",
    "C104_tangents",
    "C104_ml",
    "C104_map",
    "C104_guessing_refuted",
    "C104_loop"
   ],
   "note": "Holds for the five models without guessing (C104_ml, C104_map with C104_tangents). Violation: in the 3PL model a stationary point need not be a maximum (C104_guessing_refuted), so a converged optimisation may return a score that is not the ML score. The steps of LBFGS are an argument of the loop; existence of a maximum is the subject of C105. The prior is the zero-mean normal whatever the mean of the training scores."
  },
  {
   "property": "C105",
   "status": "partial",
   "theorems": [
    "C105_none",
    "C105_exists",
    "C105_iff",
    "C105_one",
    "C105_extreme",
    "C105_map",
    "C105_ml_scores",
    "C105_ml_no_scores",
    "C105_ml_iff",
    "C105_map_scores",
    "C105_guessing_refuted"
   ],
   "note": "The existence claims hold for the models without guessing (C105_exists, C105_iff, C105_ml_iff, C105_one, C105_none, C105_extreme) and the MAP claim for all models (C105_map). Violation: with guessing (3PL) a right and a wrong answer may have no ML score although both slopes are positive (C105_guessing_refuted). latent_scores with ML does not warn in these cases and returns where the optimiser stopped. The model is that of C104 (M_Opt)."
  },
  {
   "property": "C106",
   "status": "proved",
   "theorems": [
    "C106_sufficient",
    "C106_order",
    "C106_better",
    "C106_sufficient_max",
    "C106_better_max",
    "C106_paradox"
   ],
   "note": "EAP statements are about the scores returned by the modelled function, for any algorithm state for which it succeeds; ML and MAP statements are about the maxima of likelihood or likelihood times density (C104 relates them to the loss). grid_spread excludes grids with a single value. C106_paradox shows that one latent variable is needed."
  },
  {
   "property": "C107",
   "status": "proved",
   "theorems": [
    "C107_gradient",
    "C107_ml",
    "C107_map",
    "C107_order",
    "C107_sum_score"
   ],
   "note": "About the maxima of the likelihood and of the posterior density; C104 relates them to points where the loss is stationary and C105 says when they exist. The zero-mean normal prior is the one the code uses. The statements exclude the graded and 3PL models, whose likelihood has no sum score."
  },
  {
   "property": "C108",
   "status": "proved",
   "theorems": [
    "C108_jml",
    "C108_jml_counts",
    "C108_jml_slopes",
    "C108_mml",
    "C108_mml_counts",
    "C108_mml_slopes"
   ],
   "note": "About parameters with the lowest loss; whether the optimiser reaches them is not claimed (C104 treats the stopping rule for scores). For MML only the necessary equations hold, since the marginal loss is not convex. The JML statements take the scores of the batch as given, which is the loss as a function of the item parameters; the score equations are C107. The quadrature weights are positive, as mml.py's are."
  },
  {
   "property": "C109",
   "status": "partial",
   "theorems": [
    "C109_area_unique",
    "C109_inside",
    "C109_tails_refuted",
    "C109_total_refuted",
    "C109_flow_default_refuted"
   ],
   "note": "The log-determinant outside the bounds is 0 instead of ln slope (C41), so the loss of Flow.fit is not the likelihood of a probability density: C109_total_refuted gives the exact mass and C109_flow_default_refuted the excess for the default bounds. C109_inside is the positive part. Integrals are the standard library's antiderivatives; the base density is any positive density with a distribution function."
  },
  {
   "property": "C110",
   "status": "proved",
   "theorems": [
    "C110_respondents",
    "C110_items",
    "C110_joint_scale",
    "C110_sign_rule",
    "C110_sign_default",
    "C110_normal_even",
    "C110_sign_scores"
   ],
   "note": "Holds. The order of the rows matters to training only through the batches of JML. A consequence for users: signs are arbitrary under MML and origin, unit and sign are arbitrary under JML (only the initial values and, for JML, the random start pick them), so parameters of two fits are comparable only after aligning them."
  },
  {
   "property": "C111",
   "status": "partial",
   "theorems": [
    "C111_alone",
    "C111_batches",
    "C111_shared_refuted",
    "C111_failure",
    "C111_empty_refuted",
    "C111_device_refuted"
   ],
   "note": "Finding: Pool.starmap pickles chunks of ceil(n / (4 p)) calls together, and all calls hold the same kwargs, so with more than four models per process the models of a chunk share one algorithm object (C111_shared_refuted, C111_batches is the exact outcome). Also ValueError for no models (C111_empty_refuted) and TypeError when device is passed (C111_device_refuted). Positive: C111_alone, C111_failure. Random numbers are not modelled: fit is a function of model, algorithm and data."
  },
  {
   "property": "C112",
   "status": "partial",
   "theorems": [
    "C112_cellwise",
    "C112_round_trip",
    "C112_batch",
    "C112_too_many",
    "C112_nan_refuted",
    "C112_columns_refuted",
    "C112_constant_refuted",
    "C112_plot"
   ],
   "note": "Findings: a NaN falls into bin -1, which gather refuses, so one NaN cell fails the call for everyone (C112_nan_refuted) and Flow.fit on a constant column or a single row raises RuntimeError instead of warning (C112_constant_refuted); a wrong number of columns passes silently when every cell is beyond the bounds (C112_columns_refuted). Positive: C112_cellwise, C112_round_trip, C112_batch, C112_too_many, C112_plot. Infinite inputs are not modelled; real numbers for floats."
  },
  {
   "property": "C113",
   "status": "partial",
   "theorems": [
    "C113_normal_moments",
    "C113_exact",
    "C113_moments",
    "C113_accepted",
    "C113_asymmetric_refuted",
    "C113_single_point",
    "C113_loss",
    "C113_weight_scale",
    "C113_quasi_mc_refuted"
   ],
   "note": "Findings: gauss_hermite reads the lower triangle of the covariance only, so an asymmetric matrix is silently replaced where the default method raises ValueError (C113_asymmetric_refuted); the weights of the default method are not normalised, so its loss is not minus a log-likelihood and is negative for respondents without answers (C113_quasi_mc_refuted; C113_weight_scale: the minimisers are unaffected). Positive: C113_exact, C113_moments, C113_accepted, C113_single_point, C113_loss. The expectation is any linear functional with the normal moments (C113_normal_moments justifies their recursion); numpy's one-dimensional rule is a parameter."
  },
  {
   "property": "C114",
   "status": "partial",
   "theorems": [
    "C114_alike",
    "C114_gradient",
    "C114_items",
    "C114_latent",
    "C114_dimensions_refuted",
    "C114_runs"
   ],
   "note": "Finding: MML with the starting values of the 2PL, 3PL and GPC models can never separate latent variables with the same relationships; a multidimensional exploratory fit is one-dimensional (C114_dimensions_refuted, for all data and settings; C114_latent for covariances that treat the two alike). Positive: C114_items (identically answered items get identical parameters), C114_alike (the general statement for the three training loops), C114_gradient and C114_runs (the hypotheses hold for every model, legal data and the default settings). Exact arithmetic: rounding may break the tie in floats. GRM and nominal response models are not covered (the GRM formula needs ordered intercepts, which the optimizer does not keep)."
  },
  {
   "property": "C115",
   "status": "partial",
   "theorems": [
    "C115_parameters",
    "C115_gradient",
    "C115_copies",
    "C115_width_refuted",
    "C115_width_plain_refuted",
    "C115_could_differ"
   ],
   "note": "Finding: the layers of MonotoneNN start at zero, so units of the same item or category with the same activation function stay copies for every loss and training loop, and hidden_dim beyond [3, ..., 3] ([2, ..., 2] unbounded) adds nothing: C115_width_refuted (negation layer, the default: exactly the small network) and C115_width_plain_refuted (a fixed multiple otherwise). Positive: C115_copies (the general statement), C115_parameters (the parameter list is the network's), C115_gradient (the losses of joint and marginal maximum likelihood have gradients, so the hypotheses can be met), C115_could_differ (the architecture itself allows different units). Exact arithmetic: rounding may break the tie at rounding size."
  },
  {
   "property": "C116",
   "status": "proved",
   "theorems": [
    "C116_bound",
    "C116_samples",
    "C116_tight",
    "C116_marginal"
   ],
   "note": "The noise average is any positive, normalised linear functional on functions of one noise row, iterated over independent rows (finite rules are instances, over_averaging); for one sample the closed-form divergence needs mean 0 and variance 1 of the noise. C116_marginal identifies the average weight with the marginal likelihood: the change of variables for any number of latent variables, the integral over the line for one. Gaussian integrals over several dimensions are not formalised."
  },
  {
   "property": "C117",
   "status": "partial",
   "theorems": [
    "C117_shortfall",
    "C117_kept_refuted",
    "C117_afterwards"
   ],
   "note": "Finding: interval averages of losses annealed to different degrees are compared with each other, so the first interval can win although every later state is better: C117_kept_refuted with default interval and annealing, a respondent without answers and exact gradient descent (the code uses Adam; the training loop takes any update). Positive: C117_shortfall (its exact size with one sample), C117_afterwards."
  },
  {
   "property": "C118",
   "status": "partial",
   "theorems": [
    "C118_below",
    "C118_close",
    "C118_transform",
    "C118_logistic",
    "C118_outside_refuted",
    "C118_default_start_refuted"
   ],
   "note": "Finding: outside the range of the grid ([-7, 7] without population scores) the scores of the batch are the only points, so the score can miss the documented integral by an amount no number of grid points reduces (C118_outside_refuted; C118_default_start_refuted for the default start -10000). Positive: C118_below (never above the integral), C118_close and C118_transform (convergence inside the range, uniform in start and batch), C118_logistic (logistic items satisfy the hypotheses). Not modelled: rounding."
  },
  {
   "property": "C119",
   "status": "partial",
   "theorems": [
    "C119_jml",
    "C119_mml",
    "C119_unused",
    "C119_joint",
    "C119_joint_alike",
    "C119_rasch",
    "C119_slopes_refuted"
   ],
   "note": "Finding: with slopes a lowest loss need not exist although every category was chosen (C119_slopes_refuted; the slopes go to infinity and training stops where the epochs or the tolerance end it, without a warning). Positive: C119_rasch, C119_joint, C119_jml are equivalences; C119_mml and C119_unused give the absence of a lowest loss for all families without guessing other than the graded response model, which is not covered. The losses are those of C30 and C108 (M_Est, M_Jml)."
  },
  {
   "property": "C120",
   "status": "partial",
   "theorems": [
    "C120_mml",
    "C120_rules",
    "C120_rasch",
    "C120_exact",
    "C120_jml",
    "C120_joint_refuted"
   ],
   "note": "Finding: joint estimation of scores and intercepts (JML) is inconsistent; with two items of a one-parameter model and answers in the exact proportions of the truth, best estimates exist and the difference of the intercepts is twice the true one, for every number of respondents (C120_joint_refuted). Nothing in the documentation warns of it. Positive: C120_mml, C120_rasch, C120_exact, C120_jml. The truth is any model covered by library_model in S_Est with a finite rule as distribution of the scores; random tables with a growing number of respondents are the subject of C121."
  },
  {
   "property": "C121",
   "status": "partial",
   "theorems": [
    "C121_fit",
    "C121_rasch",
    "C121_joint_refuted"
   ],
   "note": "Finding: when scores and intercepts of a one-parameter model are estimated together (JML), the probability that nothing has the lowest loss goes to 1 as respondents are added, because somebody answers everything right (C121_joint_refuted). Positive: C121_fit (consistency of every fit at least as good as the truth, all library models) and C121_rasch (existence and consistency of the intercepts). That the optimiser reaches a loss as low as that of the truth is a hypothesis of C121_fit, not proved; identification of the parameters from the row probabilities is proved for the 1PL only."
  },
  {
   "property": "C122",
   "status": "partial",
   "theorems": [
    "C122_scores",
    "C122_bounded",
    "C122_eap",
    "C122_eap_bounded",
    "C122_eap_refuted"
   ],
   "note": "Finding: the EAP grid ends a quarter of the range beyond the training scores, so for true scores further out EAP scores never get closer than the distance to the grid, however many items are answered (C122_eap_refuted); within the range they get within one grid step (C122_eap, C122_eap_bounded), which is not nearer than the grid allows. ML and MAP: C122_scores, C122_bounded. Scores are minima of the loss (best_score); that LBFGS reaches the minimum is not proved. GPC and nominal items enter through the hypothesis that expected weighted item scores rise by kappa; only for 1PL and 2PL is it derived from parameter bounds."
  },
  {
   "property": "C123",
   "status": "partial",
   "theorems": [
    "C123_logits",
    "C123_two_parameter",
    "C123_graded_refuted",
    "C123_graded_binary",
    "C123_three_parameter_refuted",
    "C123_respondent"
   ],
   "note": "Finding: graded_response.py and three_parameter_logistic.py form probabilities first and take their logarithm without a clamp. In single precision the sigmoid is exactly 1 from 18 on, so 1 - 1 = 0 and the log-likelihood of a possible answer is -inf (C123_graded_refuted, C123_three_parameter_refuted), as is that of the whole response pattern (C123_respondent). The failure is one-sided: at -80 the right answer is still fine (C123_graded_binary). Positive: cross-entropy models, with an error bound (C123_logits, C123_two_parameter)."
  },
  {
   "property": "C124",
   "status": "partial",
   "theorems": [
    "C124_eap_refuted",
    "C124_long_test_refuted",
    "C124_eap",
    "C124_mml"
   ],
   "note": "Finding: EAP scoring exponentiates the log posterior without subtracting its maximum (base_irt_model.py 926-935). In double precision exp is 0 below -745.2, so a respondent whose log posterior is lower than that on the whole grid gets 0/0 = NaN scores (C124_eap_refuted); a one-parameter test of 1200 items suffices whatever its difficulties and the grid (C124_long_test_refuted). Positive: C124_eap when some log posterior is above -600 (between -746 and -600 nothing is claimed); C124_mml, where the maximum is subtracted. Only the exponential is rounded here; sums, products and the logarithms are exact (for single precision see C123)."
  },
  {
   "property": "C125",
   "status": "partial",
   "theorems": [
    "C125_units",
    "C125_population_order",
    "C125_range",
    "C125_scores",
    "C125_no_population_refuted",
    "C125_start_refuted"
   ],
   "note": "The model here covers the constructor's directions, _get_grid_boundaries, the medians and both transforms with a population (M_BitPop). C125_units, C125_population_order, C125_range and C125_scores hold as stated; the hypothesis on the expected total is what makes the direction found at -1 and 1 the same on every scale. Findings: without population_theta the grid always runs from -7 to 7 (bit.py 161-164), so the scores depend on the unit and origin of theta (C125_no_population_refuted); _get_grid_boundaries tests any(start_is_outlier) over all variables (bit.py 535-540), so moving the start of one variable changes the grid and the scores of another (C125_start_refuted, two items measuring one variable each)."
  },
  {
   "property": "C126",
   "status": "partial",
   "theorems": [
    "C126_value",
    "C126_matched",
    "C126_homogeneous",
    "C126_converse_refuted"
   ],
   "note": "C126_value, C126_matched and C126_homogeneous hold as stated for complete data (with missing answers see C72_missing_refuted). Finding: the converse fails, mutual information does not see the direction of a dependence, so a model implying the opposite dependence gets a difference of zero (C126_converse_refuted). C126_homogeneous also shows that the diagonal of the returned matrix, which the data frame contains, is not about fit."
  },
  {
   "property": "C127",
   "status": "partial",
   "theorems": [
    "C127_weights",
    "C127_root",
    "C127_value",
    "C127_categories_refuted"
   ],
   "note": "C127_weights, C127_root and C127_value are proved for every number of iterations from 24 (each Newton step from the right divides height times slope by four). Finding: the coin has no weight for a mean log-likelihood below -ln 2; _imv_newton_raphson clamps the weight to 0.500001, so for items with three or more categories, where such values are normal, imv is exactly 0 and does not show an improvement (C127_categories_refuted; utils.py 437-457 has no check of the number of categories)."
  },
  {
   "property": "C128",
   "status": "partial",
   "theorems": [
    "C128_rate",
    "C128_below_refuted"
   ],
   "note": "Finding: for scores below the start the bit scores are constantly 0 while the reported Jacobian is positive (C128_below_refuted), so standard errors and information on the bit scale are wrong there. Above the start and within the range of the grid without population scores ([-7, 7]) proved in full, all items selected (selections fail, see C73); items given by their probabilities and derivatives as functions."
  },
  {
   "property": "C129",
   "status": "partial",
   "theorems": [
    "C129_infit_outfit",
    "C129_residuals",
    "C129_accuracy",
    "C129_groups",
    "C129_standardized",
    "C129_groups_refuted"
   ],
   "note": "C129_infit_outfit, C129_residuals, C129_accuracy and C129_standardized hold as stated; C129_groups gives the average of a group residual in general. Finding: with missing answers the residual of a group is not 0 on average although the model is right (C129_groups_refuted), because the observed share is over the members who answered the item and the model share over all members, so an item skipped more often by weaker respondents of the group looks misfitting."
  },
  {
   "property": "C130",
   "status": "proved",
   "theorems": [
    "C130_closer",
    "C130_tighter",
    "C130_between",
    "C130_no_answers"
   ],
   "note": "All four theorems are about tables of scores with the least value of the loss of _ml_map_theta_scores (least_loss); that LBFGS reaches it is not claimed, existence is C105. The prior is a normal density with mean zero and any precision matrix, as lines 788-797 build it. Strictness and C130_between assume log_concave, which holds for every model without guessing (C104_tangents)."
  },
  {
   "property": "C131",
   "status": "partial",
   "theorems": [
    "C131_cells",
    "C131_given",
    "C131_two_parameter",
    "C131_three_parameter",
    "C131_partial_credit",
    "C131_graded",
    "C131_no_scores",
    "C131_unfitted_refuted",
    "C131_height_refuted"
   ],
   "note": "The cells are proved in full for models without scale transformations (C131_cells, C131_two_parameter, C131_three_parameter, C131_graded, C131_partial_credit). Findings: a model which was never fitted fails with AttributeError instead of the ValueError of line 479 (C131_unfitted_refuted); the height of the figure is 1800 pixels for any number of items, line 500 multiplies by 80 instead of the number of items (C131_height_refuted)."
  },
  {
   "property": "C132",
   "status": "partial",
   "theorems": [
    "C132_score",
    "C132_bound",
    "C132_standard_error",
    "C132_missing_refuted",
    "C132_inverse",
    "C132_attained",
    "C132_models"
   ],
   "note": "C132_score, C132_bound, C132_standard_error, C132_inverse and C132_attained hold for every model with positive differentiable probabilities, without scale transformations (C132_models: the two and three parameter logistic, partial credit, graded response and nominal models; linear log-odds for the first, third and last). Finding: the last sentence fails. latent_scores calls information(theta, item=False) without the data (lines 641-647), so the standard error of a respondent with missing answers is that of the full test and is smaller than the standard deviation of every locally unbiased score of theirs as soon as a skipped item is informative (C132_missing_refuted)."
  },
  {
   "property": "C133",
   "status": "partial",
   "theorems": [
    "C133_fitted",
    "C133_unfitted",
    "C133_centre_refuted"
   ],
   "note": "All sentences but the last are proved for fitted and unfitted models (C133_fitted, C133_unfitted). Finding: lines 892-911 estimate the covariance from the centred training scores but leave the mean of the prior at zero, while the grid follows the training scores; with training scores away from zero a respondent without answers (and, through the prior, everybody) is pulled below the middle of the training scores (C133_centre_refuted)."
  },
  {
   "property": "C134",
   "status": "partial",
   "theorems": [
    "C134_q3",
    "C134_amid_values",
    "C134_amid",
    "C134_zero_refuted",
    "C134_alike_refuted",
    "C134_ties_refuted",
    "C134_simulated"
   ],
   "note": "The level up to the number of samples and ties is proved for both tests (C134_q3, C134_amid; C134_amid_values says what the second statistic is), by exchangeability of the data and the simulated data sets; C134_simulated shows that the data sets q3 simulates are complete tables of answers of the model (their distribution, that of torch.multinomial, is trusted). Findings: the observed statistic is not counted among the simulated ones, so p-values of 0 occur in every right model with probability at least 1 / (samples + 1) (C134_zero_refuted); ties count against the hypothesis, and a NaN statistic gives p-value 0 instead of NaN (C134_alike_refuted; with two respondents and fair coins p = 0 has probability at least one half, C134_ties_refuted). Data with missing answers, which are compared with complete simulated data, are not covered. Rounding to three decimals is not modelled."
  },
  {
   "property": "C135",
   "status": "proved",
   "theorems": [
    "C135_probabilities",
    "C135_answers",
    "C135_information",
    "C135_credit_items"
   ],
   "note": "C135_probabilities, C135_answers and C135_information for all graded response models and ways of merging; C135_credit_items shows by an example that the partial credit family is not closed under merging. The information is that of the unscaled latent space (rescale=False or no scale)."
  },
  {
   "property": "C136",
   "status": "partial",
   "theorems": [
    "C136_curves",
    "C136_surfaces",
    "C136_scale_lines",
    "C136_gray",
    "C136_palette_refuted",
    "C136_single_refuted",
    "C136_numbers_refuted"
   ],
   "note": "Everything before the last sentence is proved for any earlier figures (C136_curves, C136_surfaces, C136_scale_lines, C136_gray). Findings: plotter.py:1185 uses += on px.colors.qualitative.Plotly and so changes plotly's palette for the whole process (C136_palette_refuted; harmless for the colours drawn by this library because the palette is repeated whole, which C136_curves and C136_surfaces cover); grayscale with one category divides by zero (C136_single_refuted); options are counted from 1 in curves and from 0 in surfaces (C136_numbers_refuted)."
  },
  {
   "property": "C137",
   "status": "proved",
   "theorems": [
    "C137_dominates",
    "C137_sum_scores",
    "C137_eap_scores",
    "C137_max_scores",
    "C137_associated",
    "C137_positive_slopes_needed"
   ],
   "note": "C137_dominates for every score that better answers never lower, C137_sum_scores for the function that computes sum score distributions, C137_eap_scores and C137_max_scores for theta scores (those on the unscaled latent space), C137_associated for populations; C137_positive_slopes_needed is an example with slopes 1 and -1. The nominal model, models with several latent variables and neural models are outside the statement."
  },
  {
   "property": "C138",
   "status": "partial",
   "theorems": [
    "C138_figure",
    "C138_everybody",
    "C138_exchange",
    "C138_order",
    "C138_units",
    "C138_default_bins",
    "C138_sturges_refuted",
    "C138_nobody"
   ],
   "note": "Proved: C138_figure (shape, axes, share of respondents per cell), C138_everybody (one cell each, volume 1), C138_exchange, C138_order, C138_units (variables that are not constant), C138_nobody. The last sentence is false: plotter.py:1295 rounds log2 down (C138_default_bins), so there is one bin less than documented on each axis unless the number of respondents is a power of two (C138_sturges_refuted, for every such number)."
  },
  {
   "property": "C139",
   "status": "proved",
   "theorems": [
    "C139_conditional",
    "C139_populations",
    "C139_joint",
    "C139_sum_scores",
    "C139_comparison",
    "C139_slopes",
    "C139_guessing"
   ],
   "note": "C139_conditional (conditional means, any population given as weighted latent variables), C139_populations (marginal loss), C139_joint (joint loss), C139_sum_scores (the function computing sum score distributions, one latent variable, all items answered), C139_comparison, C139_slopes and C139_guessing (the probabilities the models return)."
  },
  {
   "property": "C140",
   "status": "proved",
   "theorems": [
    "C140_reversed",
    "C140_attainable",
    "C140_one_parameter",
    "C140_one_direction"
   ],
   "note": "C140_reversed (probabilities, marginal loss, joint loss, EAP scores for the 2PL, generalized partial credit, graded response and nominal models), C140_attainable (the same losses can be attained), C140_one_parameter, C140_one_direction. The graded response model has decreasing intercepts, as its parametrisation intends."
  },
  {
   "property": "C141",
   "status": "partial",
   "theorems": [
    "C141_from_data",
    "C141_forward",
    "C141_arguments",
    "C141_dichotomous",
    "C141_answers_ignored_refuted",
    "C141_nobody_refuted",
    "C141_nobody_graded",
    "C141_minus_one_refuted"
   ],
   "note": "Proved where every item has an answer: C141_from_data, C141_forward, C141_arguments, C141_dichotomous. Findings: (1) the 1PL, 2PL and 3PL constructors never look at the answers; data with answers of 2 or more are taken and the first log-likelihood raises IndexError (C141_answers_ignored_refuted); (2) an item with NaN only makes the generalized partial credit and nominal constructors fail with RuntimeError (C141_nobody_refuted), while the graded response model is built with probability one for answer 0 (C141_nobody_graded); (3) an item coded -1 throughout gets zero categories, and the generalized partial credit model then holds too few intercepts: construction fails, or every forward pass fails, or a single intercept is silently shared by all items (C141_minus_one_refuted, which says when). The conversion of -inf to a 32 bit integer is taken as -2^31; data are exact integers."
  },
  {
   "property": "C142",
   "status": "proved",
   "theorems": [
    "C142_losses",
    "C142_average",
    "C142_flexible_losses",
    "C142_flexible_average"
   ],
   "note": "C142_losses (marginal and joint loss of a respondent), C142_average (EAP scores as a weighted average, and between the extremes) for the parametric models with positive probabilities (1PL, 2PL, 3PL, generalized partial credit, graded response, nominal) through the library_model relation; C142_flexible_losses and C142_flexible_average for any model with the conclusions of C144, C145 and C146 (MonotoneNN, MonotonePolynomial, MonotoneBSpline, SurprisalSpline, NestedLogit), EAP there after a fit."
  },
  {
   "property": "C143",
   "status": "proved",
   "theorems": [
    "C143_short_form",
    "C143_halves"
   ],
   "note": "C143_short_form (probabilities, marginal loss, joint loss, ML/MAP loss, EAP scores), C143_halves (division into two forms). Real arithmetic; the selection has no item twice; the graded response model has decreasing intercepts, as its parametrisation intends."
  },
  {
   "property": "C144",
   "status": "proved",
   "theorems": [
    "C144_network",
    "C144_polynomial"
   ],
   "note": "C144_network, C144_polynomial: reports (item_probabilities), distributions, scored_by (marginal loss, joint loss, MAP loss, EAP scores) for parameters of any value; the networks and polynomials are those of C22-C24. Real arithmetic; a key has to name a category of its item."
  },
  {
   "property": "C145",
   "status": "proved",
   "theorems": [
    "C145_monotone",
    "C145_surprisal"
   ],
   "note": "C145_monotone, C145_surprisal: reports, distributions, scored_by (as in C144) for models without a stored basis; an MML fit stores the basis of its quadrature points for its duration, which is C84. Real arithmetic. The output of MonotoneBSpline is kept with items and categories in one dimension, as the base log-likelihood reshapes it."
  },
  {
   "property": "C146",
   "status": "proved",
   "theorems": [
    "C146_parts",
    "C146_shares",
    "C146_nominal",
    "C146_splines"
   ],
   "note": "C146_parts: reports, distributions, scored_by (as in C144) for any two parts that report probabilities, with the numbers written out (nested_chances); C146_shares: what they mean among wrong answers; C146_nominal: the 2PL with a nominal model; C146_splines: any right-answer model with splines, without a stored basis (the basis an MML fit stores is C84). Real arithmetic."
  },
  {
   "property": "C147",
   "status": "proved",
   "theorems": [
    "C147_answers",
    "C147_between",
    "C147_library"
   ],
   "note": "C147_answers, C147_between for any model estimated_by probabilities (distributions and scored_by of C144); C147_library: the parametric models are; C144-C146 give the same of the networks, polynomials, splines and nested models. The weights need not sum to one (the default rule's do not, C113), so the sum appears in the bounds. Real arithmetic."
  },
  {
   "property": "C148",
   "status": "proved",
   "theorems": [
    "C148_losses",
    "C148_scores",
    "C148_unfitted",
    "C148_library"
   ],
   "note": "C148_losses, C148_scores, C148_unfitted, and C148_library without the hypothesis for parametric models; for any model estimated_by probabilities (C147; parametric models by C147_library, the others by C144-C146); scored_by gives one grid for all data. EAP scores after a fit and before any; ML and MAP scores minimise a loss that adds up, but their optimiser works on the whole batch (C104). Real arithmetic."
  },
  {
   "property": "C149",
   "status": "proved",
   "theorems": [
    "C149_joint",
    "C149_sum",
    "C149_distributions",
    "C149_parametric",
    "C149_network",
    "C149_polynomial",
    "C149_monotone"
   ],
   "note": "C149_joint, C149_sum for parts that are models estimated_by probabilities (C147) with max_item_responses output columns per item; C149_distributions: the joined probabilities are distributions; C149_parametric, C149_network, C149_polynomial, C149_monotone: these models are such parts. 3PL, SurprisalSpline and NestedLogit cannot be parts (finding C29); marginal estimation and EAP scores of a mix use the per-answer log-likelihoods, which are in the wrong order (findings C28, C30). Real arithmetic."
  },
  {
   "property": "C150",
   "status": "proved",
   "theorems": [
    "C150_marginal",
    "C150_exact",
    "C150_joint",
    "C150_classes",
    "C150_network"
   ],
   "note": "C150_marginal, C150_joint, C150_exact (data in which the rows occur in proportion to their probabilities): any two models that are estimated by probabilities (estimated_by, jointly_by); C150_classes: parametric models, all estimated_by ones (flexible and nested: C144-C146) and mixes of parts (C149) are jointly_by; C150_network: direct statement for a monotone network and every parametric model, both ways and for both losses. The total weights of the two rules have to agree, because the default weights are not normalised (C113). Mixes are not in the marginal part (findings C28, C30). Real arithmetic."
  },
  {
   "property": "C151",
   "status": "proved",
   "theorems": [
    "C151_fit",
    "C151_choice",
    "C151_network"
   ],
   "note": "C151_fit, C151_choice for any two models estimated_by probabilities (parametric: C147_library; flexible and nested: C144-C146); C151_network: direct statement for a monotone network and every parametric model. All respondents are given the same items; the rules of the two models have the same total weight (C113). Mixes are excluded (findings C28, C30). Real arithmetic; says nothing about whether the optimiser finds the lowest loss."
  },
  {
   "property": "C152",
   "status": "proved",
   "theorems": [
    "C152_fitted",
    "C152_unfitted",
    "C152_network"
   ],
   "note": "C152_fitted, C152_unfitted for any model estimated_by probabilities (parametric: C147_library; flexible and nested: C144-C146); C152_network: direct statement for monotone networks. The density is what the oracle for torch's multivariate normal returns; the population lives on the grid the code uses. Mixes are excluded, because their EAP scores are wrong (findings C28, C30). Real arithmetic."
  },
  {
   "property": "C153",
   "status": "proved",
   "theorems": [
    "C153_splines",
    "C153_network",
    "C153_polynomial"
   ],
   "note": "C153_splines: one spline per item or one latent variable, as in C86_monotone; C153_network: networks without key whose directions for the raised latent variable are not negative; C153_polynomial: the same for the directions a polynomial model reports. The probabilities p are those the model reports (reports). The inequality is not shown to be strict. Dominance for upward models with one latent variable is C137. Real arithmetic."
  }
 ]
}