{"id": "C01", "title": "One-hot encoding is lossless and item-aligned", "statement": "For a response matrix whose column count equals the number of items and whose cells are either missing (NaN or -1) or a category 0..K_i-1, one-hot encoding returns, for every respondent, a 0/1 row of width sum(K_i) in which the block belonging to item i contains exactly one 1, at the chosen category, when the response is observed, and only zeros when it is missing; the responses can therefore be read back exactly. A wrong dimension count or column count is rejected with ValueError, and a response >= K_i is rejected.", "quantifier": "every number of respondents and items, every category-count list, every assignment of responses and missing cells", "why_tests_cant": "the block offsets depend on all earlier items' category counts; tests pin a couple of shapes, not every list of category counts and every missing pattern", "anchors": ["irtorch/_internal_utils.py: one_hot_encode_test_data"]}
{"id": "C02", "title": "Missing-response mask marks exactly the missing cells", "statement": "The missing mask built for a data matrix is true in exactly the cells that are NaN or -1 and false everywhere else, and has the shape of the data.", "quantifier": "every response matrix", "why_tests_cant": "a claim about each cell of every matrix", "anchors": ["irtorch/_internal_utils.py: get_missing_mask", "irtorch/irt_dataset.py: PytorchIRTDataset.__init__"]}
{"id": "C03", "title": "Imputation changes missing cells only and fills them with valid responses", "statement": "Imputing with 'zero', 'mean' or 'random incorrect' leaves every observed cell unchanged and every previously missing cell observed; 'zero' fills 0, 'mean' fills the mean of the observed cells of the same column, 'random incorrect' fills a category between 0 and K_i-1 that is never the correct one (K_i >= 2); 'random incorrect' without the correct answers and an unknown method name raise ValueError; the caller's matrix is not modified.", "quantifier": "every response matrix, every method, every outcome of the random draws", "why_tests_cant": "random fill-in can only be sampled by tests; the claim is for every draw and every missing pattern", "anchors": ["irtorch/_internal_utils.py: impute_missing_internal"]}
{"id": "C04", "title": "Encoding data does not modify the caller's matrix", "statement": "Building the training dataset with one-hot encoding, or one-hot encoding a matrix, does not change the matrix the caller passed in.", "quantifier": "every response matrix with or without missing cells", "why_tests_cant": "aliasing is only visible for inputs with NaN and with no imputation; tests with complete data pass", "anchors": ["irtorch/_internal_utils.py: one_hot_encode_test_data", "irtorch/irt_dataset.py: PytorchIRTDataset.__init__", "irtorch/evaluator.py: Evaluator.residuals"]}
{"id": "C05", "title": "Inferred category counts cover the observed responses", "statement": "The category counts inferred from a data matrix are, for each item, one more than the largest observed response, so that every observed response is a legal category of its item.", "quantifier": "every response matrix containing any pattern of missing cells", "why_tests_cant": "depends on which rows contain missing cells; complete test data cannot show it", "anchors": ["irtorch/utils.py: get_item_categories", "irtorch/models/two_parameter_logistic.py: __init__", "irtorch/models/generalized_partial_credit.py: __init__"]}
{"id": "C06", "title": "User-facing random-incorrect imputation works with a fitted model", "statement": "impute_missing(method='random incorrect') with a multiple-choice model fills every missing cell with an incorrect category of the item and succeeds; without a model and without mc_correct it raises ValueError.", "quantifier": "every model (with or without answer key) and every data matrix", "why_tests_cant": "the error depends on the combination of optional arguments", "anchors": ["irtorch/utils.py: impute_missing"]}
{"id": "C07", "title": "Random-guessing data follow the requested guessing probabilities", "statement": "Generated random-guessing responses are legal categories; for a multiple-choice item the probability of choosing the correct category equals the item's guessing probability and the remaining mass is spread evenly over the other categories; omitting the guessing probabilities uses a default.", "quantifier": "every list of category counts, guessing probabilities and answer keys", "why_tests_cant": "distributional claim about every argument combination; sampling cannot settle it", "anchors": ["irtorch/_internal_utils.py: random_guessing_data"]}
{"id": "C08", "title": "split_data partitions the respondents", "statement": "split_data returns two matrices which together contain every row of the input exactly once (as a multiset), the first with exactly floor(n*ratio) rows, whatever the random permutation.", "quantifier": "every data matrix, ratio in [0,1] and every permutation drawn", "why_tests_cant": "must hold for every permutation the generator may draw", "anchors": ["irtorch/utils.py: split_data"]}
{"id": "C09", "title": "Cross-validation folds partition the data", "statement": "Every respondent is in the validation part of exactly one fold and in the training part of all the others; training and validation parts of a fold together are the full data set.", "quantifier": "every data set, fold count and shuffle", "why_tests_cant": "ranges over all sizes, fold counts and permutations", "anchors": ["irtorch/utils.py: _prepare_cross_validation_data, cross_validation, _cv_fold"]}
{"id": "C10", "title": "Cross-validation uses the requested number of folds", "statement": "cross_validation with `folds` folds splits the data into exactly that many non-empty folds, of sizes as equal as possible, whenever there are at least that many respondents.", "quantifier": "every number of respondents and folds", "why_tests_cant": "fails only for particular (n, folds) pairs", "anchors": ["irtorch/utils.py: _prepare_cross_validation_data", "irtorch/evaluator.py: _cv_gaussian_mixture_model"]}
{"id": "C11", "title": "Parameter grid is the full cartesian product", "statement": "The list of parameter combinations tried by cross_validation contains each element of the cartesian product of the grid values exactly once, in lexicographic order, with the fixed keyword arguments added to each combination.", "quantifier": "every grid and every set of fixed arguments", "why_tests_cant": "ranges over all grids", "anchors": ["irtorch/utils.py: _create_param_grid"]}
{"id": "C12", "title": "A held-out fold is never used to train the model that is evaluated on it", "statement": "In cross-validation the parameters evaluated on a validation fold have not been trained on any respondent of that fold.", "quantifier": "every fold order, every data set and every fitting procedure", "why_tests_cant": "a history property: needs reasoning about which data reached the model before each evaluation", "anchors": ["irtorch/utils.py: _cv_param_combination, _run_sequential"]}
{"id": "C13", "title": "Category probabilities form a distribution with zero mass on non-existing categories", "statement": "For models with logit outputs, for every respondent and item the category probabilities are nonnegative, sum to one, are positive exactly on the item's own categories and zero on the padding categories beyond K_i.", "quantifier": "every real parameter value, latent score vector, number of items and categories", "why_tests_cant": "a statement over a continuum of parameters and all item shapes", "anchors": ["irtorch/models/base_irt_model.py: probabilities_from_output", "irtorch/models/one_parameter_logistic.py", "irtorch/models/two_parameter_logistic.py", "irtorch/models/generalized_partial_credit.py", "irtorch/models/nominal_response.py"]}
{"id": "C14", "title": "1PL and 2PL give the logistic curve per item and increase with ability", "statement": "The probability of category 1 of item i is 1/(1+exp(-(a_i.theta + d_i))) (a_i = 1 for the 1PL), independent of the other items, and is strictly increasing in a latent variable whose slope is positive, strictly decreasing if negative, constant if zero.", "quantifier": "every parameter, latent score and item index", "why_tests_cant": "continuum of inputs, all item counts", "anchors": ["irtorch/models/one_parameter_logistic.py: forward", "irtorch/models/two_parameter_logistic.py: forward"]}
{"id": "C15", "title": "Reported difficulty and discrimination parameters reproduce the model", "statement": "The traditional IRT parameters reported for unidimensional 1PL/2PL/GPC models reproduce the model's own probabilities under the documented formula, e.g. a_i(theta - b_i) equals the item logit when a_i is nonzero; requesting the traditional format for more than one latent variable is refused.", "quantifier": "every parameter value with nonzero slope, every latent score", "why_tests_cant": "continuum of inputs", "anchors": ["irtorch/models/two_parameter_logistic.py: item_parameters", "irtorch/models/generalized_partial_credit.py: item_parameters"]}
{"id": "C16", "title": "3PL probabilities lie between the guessing level and one", "statement": "For every item, the probability of a correct response is c + (1-c) * logistic(a.theta + d) with 0 < c < 1 the item's guessing level, lies strictly between c and 1, and the two category probabilities sum to one. A new model starts with intercepts 0 and guessing levels near one quarter (between 0.24 and 0.26).", "quantifier": "every real parameter and latent score", "why_tests_cant": "continuum of inputs", "anchors": ["irtorch/models/three_parameter_logistic.py: forward, probabilities_from_output"]}
{"id": "C17", "title": "Partial-credit adjacent-category odds", "statement": "For the generalized partial credit model the log-odds of category k against k-1 of item i is a_i.theta + (d_ik - d_i,k-1), only depending on item i's own parameters; the expected score of an item is nondecreasing in a latent variable with nonnegative slope.", "quantifier": "every parameter, latent score, item and category", "why_tests_cant": "continuum of inputs, arbitrary many categories", "anchors": ["irtorch/models/generalized_partial_credit.py: forward"]}
{"id": "C18", "title": "Graded-response category probabilities telescope", "statement": "For the graded response model the probability of category >= k is logistic(a.theta + d_k), the category probabilities of an item always sum to one, and they are all nonnegative exactly when the item's intercepts are nonincreasing; the initial intercepts are strictly decreasing, so a freshly constructed model gives valid probabilities.", "quantifier": "every parameter, latent score and category count", "why_tests_cant": "continuum of inputs; the ordering is not enforced by the code so single runs do not settle it", "anchors": ["irtorch/models/graded_response.py: forward, probabilities_from_output, reset_parameters"]}
{"id": "C19", "title": "Nominal-response identification", "statement": "For the nominal response model the category slopes and the category intercepts of every item sum to zero, and the parameters reported by item_parameters are the ones which reproduce the model's probabilities.", "quantifier": "every parameter value, item and category count", "why_tests_cant": "continuum of inputs", "anchors": ["irtorch/models/nominal_response.py: forward, item_parameters"]}
{"id": "C20", "title": "Nested-logit probabilities", "statement": "For the nested logit model the probability of the correct category equals the correct-response model's probability of a correct response, each incorrect category's probability is P(incorrect) times the incorrect-response model's conditional probability, each incorrect category of an item is matched with exactly one conditional category, and the probabilities of an item sum to one.", "quantifier": "every answer key, item category counts and every sub-model output", "why_tests_cant": "the index mapping ranges over all answer keys and category counts", "anchors": ["irtorch/models/nested_logit.py: __init__, forward"]}
{"id": "C21", "title": "Surprisal-spline probabilities form a distribution", "statement": "For the surprisal spline model the category probabilities of an item built from nonnegative surprisals are nonnegative, sum to one, and are zero for non-existing categories.", "quantifier": "every surprisal vector, category count", "why_tests_cant": "continuum of inputs", "anchors": ["irtorch/models/surprisal_spline.py: forward"]}
{"id": "C22", "title": "Bounded ELU is increasing, odd, continuous and its gradient is its derivative", "statement": "The bounded-ELU activation with alpha>0 is a strictly increasing continuous odd function bounded between -(1+alpha) and 1+alpha, equal to the identity on [-1,1], and the hand-written backward pass equals its derivative (alpha = 1 at the joins).", "quantifier": "every real input and alpha > 0", "why_tests_cant": "continuum of inputs; hand-written derivative must agree at every point", "anchors": ["irtorch/activation_functions.py: BoundedELU"]}
{"id": "C23", "title": "Monotone neural-network layers are nondecreasing in every input", "statement": "A softplus-weighted layer followed by the split activation is nondecreasing in each of its inputs for every unconstrained weight value, hence so is any stack of such layers, and each item's block of a separated layer depends on that item's inputs only; odd in/out multiples are refused.", "quantifier": "every weight and bias value, every depth and width, every pair of ordered inputs", "why_tests_cant": "unbounded family of networks and a continuum of weights", "anchors": ["irtorch/torch_modules/softplus_linear.py: SoftplusLinear", "irtorch/models/monotone_nn.py: forward, _split_activation"]}
{"id": "C24", "title": "Monotone polynomial is nondecreasing and its reported coefficients match", "statement": "The monotone polynomial transformation of odd degree is nondecreasing in its input for every unconstrained parameter value (nonincreasing when the learned direction is negative); even degrees are refused; the coefficients reported by get_polynomial_coefficients evaluate to the same polynomial as the forward pass.", "quantifier": "every parameter value, every odd degree, every pair of ordered inputs", "why_tests_cant": "all degrees and a continuum of parameters", "anchors": ["irtorch/torch_modules/monotone_polynomial.py: MonotonePolynomialModule"]}
{"id": "C25", "title": "Expected scores stay within the score range and increase in ability for monotone models", "statement": "An expected item score is a weighted average of the item's scores and so lies between 0 and K_i - 1 (between 0 and 1 for multiple choice); when all adjacent-category log-odds are nondecreasing in theta the expected item score is nondecreasing in theta.", "quantifier": "every model output, item shape and pair of latent scores", "why_tests_cant": "continuum of inputs, any number of categories", "anchors": ["irtorch/models/base_irt_model.py: expected_scores"]}
{"id": "C26", "title": "Log-likelihood is the sum of the observed responses' log-probabilities", "statement": "The log-likelihood of a data matrix is the sum over observed cells of the log-probability of the response; cells marked missing contribute nothing whatever value they hold; with reduction 'none' the cell (n,i) holds that cell's log-probability and missing cells are NaN.", "quantifier": "every data matrix, mask and model output", "why_tests_cant": "ranges over all matrices and masks; index alignment must hold for every shape", "anchors": ["irtorch/models/base_irt_model.py: log_likelihood", "irtorch/models/graded_response.py: log_likelihood", "irtorch/models/three_parameter_logistic.py: log_likelihood"]}
{"id": "C27", "title": "Mixed-model log-likelihood decomposes over its sub-models", "statement": "The total log-likelihood of a model mix is the sum of the log-likelihoods of its parts on their own items, and its probabilities for an item are the sub-model's probabilities padded with zeros. A mix is made exactly from sub-models with equal numbers of latent variables and has their items in order with their categories.", "quantifier": "every list of sub-models and every data matrix", "why_tests_cant": "all numbers and shapes of sub-models", "anchors": ["irtorch/models/model_mix.py: forward, probabilities_from_output, log_likelihood"]}
{"id": "C28", "title": "Per-response log-likelihoods of a mixed model are in response order", "statement": "With reduction 'none' the log-likelihoods of a model mix, reshaped to respondents x items, hold in cell (n,i) the log-likelihood of respondent n's answer to item i.", "quantifier": "every list of sub-models and every number of respondents", "why_tests_cant": "layout differs only with >= 2 sub-models and >= 2 respondents", "anchors": ["irtorch/models/model_mix.py: log_likelihood", "irtorch/evaluator.py: log_likelihood"]}
{"id": "C29", "title": "Any irtorch model can be a part of a model mix", "statement": "A model mix accepts sub-models of the documented types: the concatenated output is split so that each sub-model receives exactly its own output again.", "quantifier": "every list of sub-models", "why_tests_cant": "depends on each sub-model's output width", "anchors": ["irtorch/models/model_mix.py: forward, probabilities_from_output"]}
{"id": "C30", "title": "The marginal maximum likelihood objective is the marginal log-likelihood", "statement": "The MML training step computes minus the sum over respondents of log sum_q w_q * exp(log-likelihood of the respondent's responses at quadrature point q), pairing each respondent with each quadrature point exactly once and never mixing respondents.", "quantifier": "every number of respondents, quadrature points, weights and per-cell log-likelihoods", "why_tests_cant": "a flattened layout: tests check it for a few sizes only", "anchors": ["irtorch/estimation_algorithms/mml.py: _train_step"]}
{"id": "C31", "title": "Quadrature and quasi-Monte-Carlo grids", "statement": "The multidimensional Gauss-Hermite grid is the full product of the one-dimensional nodes with weights equal to the products of one-dimensional weights, so it has n^d points and integrates constants to the d-th power of the one-dimensional total.", "quantifier": "every number of points and dimensions", "why_tests_cant": "all dimensions", "anchors": ["irtorch/utils.py: gauss_hermite"]}
{"id": "C32", "title": "Starting values pick the training score with the highest likelihood", "statement": "The starting latent scores chosen for new respondents are, for each respondent, the training score vector maximising that respondent's likelihood.", "quantifier": "every number of respondents and training scores", "why_tests_cant": "flattened index arithmetic over all sizes", "anchors": ["irtorch/models/base_irt_model.py: _initial_theta_from_training_data"]}
{"id": "C33", "title": "EAP scores are posterior means", "statement": "An EAP latent score is the average of the grid points weighted by likelihood times prior, normalised per respondent, hence lies within the range of the grid and does not depend on the other respondents.", "quantifier": "every grid, prior, likelihood and number of respondents", "why_tests_cant": "flattened layouts over all sizes; continuum of weights", "anchors": ["irtorch/models/base_irt_model.py: _eap_theta_scores"]}
{"id": "C34", "title": "EAP scores are available after marginal maximum likelihood fitting", "statement": "After fitting with MML, EAP latent scores can be requested and use the fitted normal prior; more than 4 latent variables are refused.", "quantifier": "every fitted model", "why_tests_cant": "depends on a stored attribute being None rather than absent", "anchors": ["irtorch/models/base_irt_model.py: _eap_theta_scores", "irtorch/estimation_algorithms/mml.py: __init__"]}
{"id": "C35", "title": "The VAE loss is well formed", "statement": "The KL term of the VAE loss is nonnegative and zero exactly at the standard normal, the annealing factor is in [0,1], nondecreasing in the iteration and reaches 1; the importance-weighted bound averages over each respondent's own samples.", "quantifier": "every mean, log-variance, iteration and sample count", "why_tests_cant": "continuum of inputs", "anchors": ["irtorch/estimation_algorithms/vae.py: _loss_function"]}
{"id": "C36", "title": "Rescaling round trip", "statement": "inverse_transform_theta returns the original latent scores after transform_theta for every list of invertible scales attached to the model.", "quantifier": "every list of invertible scales and every latent score", "why_tests_cant": "the order of inversion only matters with two or more scales", "anchors": ["irtorch/models/base_irt_model.py: transform_theta, inverse_transform_theta"]}
{"id": "C37", "title": "Jacobian of a chain of scales", "statement": "The Jacobian reported for a chain of scales is the product, by the chain rule, of each scale's Jacobian at the intermediate score, in order.", "quantifier": "every list of scales, of any length, and every latent score", "why_tests_cant": "every list length", "anchors": ["irtorch/models/base_irt_model.py: theta_transform_jacobian"]}
{"id": "C38", "title": "Reverse and rotation scales", "statement": "The reverse scale flips the sign of exactly the selected latent variables, is its own inverse and has the matching constant diagonal Jacobian; the rotation scale maps theta to theta.R, its inverse undoes it whenever R is invertible and the Jacobian is the matrix of partial derivatives.", "quantifier": "every dimension, selection, rotation matrix and latent score", "why_tests_cant": "all dimensions; continuum", "anchors": ["irtorch/rescale/reverse.py", "irtorch/rescale/rotate.py"]}
{"id": "C39", "title": "Linking scale inverse", "statement": "The inverse of the common-item linking scale undoes its transformation, also when the scale is inverted.", "quantifier": "every strictly monotone link function, latent score and inversion flag", "why_tests_cant": "only wrong for inverted scales", "anchors": ["irtorch/rescale/link_common_items.py: transform, inverse"]}
{"id": "C40", "title": "Rational-quadratic spline is an increasing bijection with the reported derivative", "statement": "For every unconstrained parameter value the spline's bin widths and heights are at least the configured minimum fraction of the interval and sum to the interval, the transformation is strictly increasing and continuous, its inverse undoes it, and the reported log-derivative is the log of its derivative.", "quantifier": "every parameter value, bin count and input, inside and outside the interval", "why_tests_cant": "continuum of parameters and inputs", "anchors": ["irtorch/torch_modules/rational_quadratic_spline.py"]}
{"id": "C41", "title": "Spline log-derivative outside the interval", "statement": "Outside the interval the reported log-derivative equals the log of the slope used for the linear tails.", "quantifier": "every input outside the interval and every tail slope", "why_tests_cant": "default tail slope and inputs outside the interval needed", "anchors": ["irtorch/torch_modules/rational_quadratic_spline.py: _spline_transform", "irtorch/torch_modules/neural_spline_flow.py"]}
{"id": "C42", "title": "Bit scores", "statement": "A bit score is the sum over items of absolute entropy changes along a grid of points from the starting score to the respondent's score: it is nonnegative, zero at the starting score, never smaller for a respondent with a higher score, at least the absolute entropy difference between start and score and equal to it when each item's entropy is monotone in between; it depends on the respondent's own score only.", "quantifier": "every entropy function, grid size, starting score and batch of scores", "why_tests_cant": "ranges over all functions and batches", "anchors": ["irtorch/rescale/bit.py: transform, _compute_1d_bit_scores, _compute_multi_dimensional_bit_scores"]}
{"id": "C43", "title": "Linear interpolation helper", "statement": "Piecewise-linear interpolation returns the given y value at every given x, is monotone when the y values are, and lies between the neighbouring y values for interior points, for unsorted input points too.", "quantifier": "every list of at least two distinct points and every query", "why_tests_cant": "continuum; every list", "anchors": ["irtorch/latent_variable_functions.py: interp"]}
{"id": "C44", "title": "Rank-based scale", "statement": "The rank-based scale maps scores to (average rank)/(n+1), strictly inside (0,1), nondecreasing in the score, with ties getting equal values.", "quantifier": "every training sample with ties and every query", "why_tests_cant": "every sample", "anchors": ["irtorch/rescale/rank_cdf.py"]}
{"id": "C45", "title": "Outlier limits", "statement": "The fence factor can never be below 1 after any sequence of assignments; the smallest and largest non-outlier returned are data values inside the fences, and every value outside is classified an outlier; they are always finite. At most about a quarter of the values is flagged on each side, so about half of the data are never flagged.", "quantifier": "every data set and every history of assignments", "why_tests_cant": "history invariant plus all data sets", "anchors": ["irtorch/outlier_detector.py"]}
{"id": "C46", "title": "Conditional sum-score distribution", "statement": "The conditional score distribution equals the probability distribution of the sum of independent item scores: entry s is the sum over all response patterns with total s of the product of their category probabilities; hence it is nonnegative and sums to one and has max score + 1 entries.", "quantifier": "every number of items, category counts and category probabilities", "why_tests_cant": "the recursion must be right for every number of items and mixed category counts", "anchors": ["irtorch/_internal_utils.py: conditional_score_distribution", "irtorch/evaluator.py: sum_score_probabilities"]}
{"id": "C47", "title": "Collapsing incorrect categories", "statement": "Summing incorrect response probabilities returns for every item the pair (1 - P(correct), P(correct)).", "quantifier": "every answer key, category counts and probabilities", "why_tests_cant": "all answer keys", "anchors": ["irtorch/_internal_utils.py: sum_incorrect_probabilities"]}
{"id": "C48", "title": "Sum scores", "statement": "The sum score of a multiple-choice respondent is the number of items answered correctly; for other models it is the sum of the observed item scores, missing responses counting zero.", "quantifier": "every matrix with any pattern of missing cells", "why_tests_cant": "missing patterns", "anchors": ["irtorch/_internal_utils.py: sum_score", "irtorch/estimation_algorithms/jml.py: fit"]}
{"id": "C49", "title": "Entropies", "statement": "The entropy of a distribution over K categories is the Shannon entropy up to the constant 1e-10 guarding the logarithm: within K*1e-10/ln(base) of it, never above log(K) and never below -1e-10/ln(base); inputs whose sum is not one (within the isclose tolerance) are refused.", "quantifier": "every distribution", "why_tests_cant": "continuum", "anchors": ["irtorch/_internal_utils.py: entropy"]}
{"id": "C50", "title": "Correlation matrix", "statement": "The correlation matrix is symmetric with unit diagonal and entries in [-1,1]; entries with missing data are computed pairwise.", "quantifier": "every data matrix and missing pattern", "why_tests_cant": "continuum, all missing patterns", "anchors": ["irtorch/_internal_utils.py: correlation_matrix"]}
{"id": "C51", "title": "Fisher information", "statement": "The test information matrix is the sum over items of sum over categories of grad p grad p^T / p; it is symmetric and positive semidefinite; the information in a direction is the corresponding quadratic form and is nonnegative; a wrong number of direction angles is refused.", "quantifier": "every number of latent variables, items and categories, all probabilities and gradients", "why_tests_cant": "continuum, all dimensions", "anchors": ["irtorch/models/base_irt_model.py: information"]}
{"id": "C52", "title": "InterModel Vigorish root finding stays in range", "statement": "The likelihood-equivalent coin weight used by imv lies in [0.5, 1) whatever the likelihoods and iteration count.", "quantifier": "every pair of likelihoods and iteration count", "why_tests_cant": "continuum and every iteration count", "anchors": ["irtorch/utils.py: imv, _imv_newton_raphson"]}
{"id": "C53", "title": "Classification metrics", "statement": "Accuracy, and weighted precision, recall and F1 reported per item lie in [0,1]; accuracy equals weighted recall; missing responses are ignored.", "quantifier": "every vector of predictions and observations", "why_tests_cant": "all sizes", "anchors": ["irtorch/evaluator.py: accuracy, predictions"]}
{"id": "C54", "title": "Residuals", "statement": "Residuals are observed minus expected item scores (for multiple choice one minus the probability of the chosen option), NaN in exactly the missing cells, and averages over respondents/items use only observed cells.", "quantifier": "every data matrix and mask", "why_tests_cant": "all masks", "anchors": ["irtorch/evaluator.py: residuals"]}
{"id": "C55", "title": "Grouping respondents by ability", "statement": "Group-wise statistics sort respondents on the latent variable and split them into consecutive groups: every respondent is in exactly one group, group sizes differ by at most the remainder rule, and no member of an earlier group has a larger latent score than a member of a later one.", "quantifier": "every number of respondents, groups and every tie pattern", "why_tests_cant": "all sizes and orders", "anchors": ["irtorch/evaluator.py: latent_group_probabilities, group_fit_log_likelihood, _grouped_theta_probabilities"]}
{"id": "C56", "title": "Group log-likelihood handles missing data of the right respondents", "statement": "group_fit_log_likelihood ignores exactly the missing responses of each group's own respondents.", "quantifier": "every data matrix and missing pattern", "why_tests_cant": "misalignment between sorted data and unsorted mask", "anchors": ["irtorch/evaluator.py: group_fit_log_likelihood"]}
{"id": "C57", "title": "Monte-Carlo p-values", "statement": "The p-values reported for Q3 and AMID are between 0 and 1, computed as the documented proportions of simulated statistics.", "quantifier": "every number of simulations and every statistic", "why_tests_cant": "all samples", "anchors": ["irtorch/evaluator.py: q3, mutual_information_difference"]}
{"id": "C58", "title": "Gaussian mixture responsibilities", "statement": "In every E-step the responsibilities of a data point are nonnegative and sum to one, and in every M-step the mixture weights sum to one and means are weighted averages of the data.", "quantifier": "every data set, component count and number of EM iterations", "why_tests_cant": "invariant over any number of EM iterations", "anchors": ["irtorch/torch_modules/gaussian_mixture_model.py: _e_step, _m_step"]}
{"id": "C59", "title": "Training loops terminate and stop as documented", "statement": "A fit performs at most max_epochs iterations, and stops early exactly when the configured number of learning-rate reductions without improvement has been used; the best iteration is never later than the last.", "quantifier": "every sequence of losses (including NaN) and every limit", "why_tests_cant": "all histories of losses", "anchors": ["irtorch/estimation_algorithms/mml.py: _training_loop", "irtorch/estimation_algorithms/jml.py: _training_loop", "irtorch/estimation_algorithms/ae.py: _train_step"]}
{"id": "C60", "title": "The fitted model has the parameters with the best loss", "statement": "After fitting, the model's parameters are those at which the lowest recorded loss was computed.", "quantifier": "every sequence of losses and parameter updates", "why_tests_cant": "all histories; the off-by-one between loss and stored parameters is invisible to shape tests", "anchors": ["irtorch/estimation_algorithms/mml.py: _training_loop", "irtorch/estimation_algorithms/jml.py: _training_loop"]}
{"id": "C61", "title": "Thread settings are restored", "statement": "Cross-validation restores the number of torch threads on every exit path, and falls back to sequential execution with the same results when multiprocessing fails.", "quantifier": "every outcome (success or exception) of worker pool and sequential run", "why_tests_cant": "every crash point", "anchors": ["irtorch/utils.py: _run_multiprocessing"]}
{"id": "C62", "title": "Encoder layer sizes match", "statement": "For any list of hidden-layer sizes, with or without batch normalisation, each encoder layer accepts the output size of the preceding one, so encoding a batch of the right width never fails and yields one value per latent variable.", "quantifier": "every hidden layer list and normalisation flag", "why_tests_cant": "ranges over every list of layer sizes", "anchors": ["irtorch/estimation_algorithms/encoders/standard_encoder.py", "irtorch/estimation_algorithms/encoders/variational_encoder.py", "irtorch/estimation_algorithms/encoders/bounded_encoder.py"]}
{"id": "C63", "title": "Answer keys are validated on construction", "statement": "Constructing a multiple-choice model is refused unless every answer key entry is a legal category of its item.", "quantifier": "every category list and answer key", "why_tests_cant": "boundary values", "anchors": ["irtorch/models/base_irt_model.py: __init__", "irtorch/models/nested_logit.py: __init__"]}
{"id": "C64", "title": "Saving and loading a model is lossless", "statement": "Loading a saved model into one of the same structure restores parameters, algorithm and scales, so that every later output is the same.", "quantifier": "every model state and every later operation", "why_tests_cant": "all states", "anchors": ["irtorch/models/base_irt_model.py: save_model, load_model"]}
{"id": "C65", "title": "Estimating latent scores leaves the model usable", "statement": "Requesting ML/MAP latent scores leaves model parameters and their requires-grad flags as they were, on normal return and on every exception.", "quantifier": "every parameter-flag state, every failing step", "why_tests_cant": "every crash point", "anchors": ["irtorch/models/base_irt_model.py: _ml_map_theta_scores"]}
{"id": "C66", "title": "Latent-score argument validation", "statement": "latent_scores refuses unknown estimation methods, standard errors for methods other than ML and NN, and NN estimation without an encoder; on every accepted request imputation of missing data follows the method used in training.", "quantifier": "every argument combination", "why_tests_cant": "all combinations", "anchors": ["irtorch/models/base_irt_model.py: latent_scores"]}
{"id": "C67", "title": "Accumulated training data", "statement": "Fitting with the same algorithm object repeatedly accumulates the training data in order, and stored training latent scores correspond row by row to the stored training data.", "quantifier": "every history of fits", "why_tests_cant": "history property", "anchors": ["irtorch/estimation_algorithms/base_irt_algorithm.py: fit", "irtorch/estimation_algorithms/ae.py: fit", "irtorch/estimation_algorithms/jml.py: fit"]}
{"id": "C68", "title": "Cross-validation reports the parameter values it tried", "statement": "The table returned by cross_validation shows, for every combination, the parameter values that were tried, whatever their type, next to the average score over the folds.", "quantifier": "every parameter value and number of folds", "why_tests_cant": "ranges over all parameter values, including strings and None", "anchors": ["irtorch/utils.py: _cv_param_combination"]}
{"id": "C69", "title": "Rescaled gradients are gradients in the transformed scores", "statement": "With rescaling requested, the gradient of a probability or an expected score that the model reports is the gradient with respect to the transformed latent scores: multiplying it by the Jacobian of the scale transformation gives back the gradient with respect to the original scores.", "quantifier": "every differentiable function, every stack of scales with invertible Jacobian, every number of latent variables", "why_tests_cant": "holds for all functions and points; a test compares a few numbers", "anchors": ["irtorch/models/base_irt_model.py: probability_gradients, expected_item_score_gradients, theta_transform_jacobian"]}
{"id": "C70", "title": "Linking and flow scales report their derivative", "statement": "The Jacobian reported by a linking scale (spline or neural network method) or by a normalizing-flow scale is the Jacobian matrix of its transformation, and a fitted flow's inverse undoes the transformation.", "quantifier": "every fitted parameter, every batch of scores", "why_tests_cant": "a derivative is a statement about all nearby points", "anchors": ["irtorch/rescale/link_common_items.py", "irtorch/rescale/flow.py"]}
{"id": "C71", "title": "The sign of imv tells which model predicts better", "statement": "imv is nonnegative whenever the second model's log-likelihood is at least the first's and nonpositive in the other case, so a positive value always means that the second model predicts better, for every iteration count and also before convergence; it is NaN exactly when an input is NaN.", "quantifier": "every pair of log-likelihoods (also infinite), every iteration count", "why_tests_cant": "a Newton iteration stopped anywhere: continuum of starting problems times all iteration counts", "anchors": ["irtorch/utils.py: imv, _imv_newton_raphson"]}
{"id": "C72", "title": "Mutual information of item pairs", "statement": "The joint entropy matrix and the observed and model-implied mutual information of item pairs are symmetric and equal the Shannon quantities of the relative frequencies (resp. of the average probabilities) up to the constant guarding the logarithm; mutual information is nonnegative up to that constant; data in which some pair of items has fewer than two joint answers are refused.", "quantifier": "every data set and every model", "why_tests_cant": "inequality over all joint distributions", "anchors": ["irtorch/_internal_utils.py: joint_entropy_matrix", "irtorch/evaluator.py: mutual_information_difference"]}
{"id": "C73", "title": "The Jacobian of the bit scale", "statement": "The derivative reported for the bit scale is the direction of the scale times the sum, over the selected items, of the absolute derivatives of the item entropies in bits.", "quantifier": "every differentiable model, every selection of items", "why_tests_cant": "a derivative is a statement about all nearby points", "anchors": ["irtorch/rescale/bit.py: jacobian"]}
{"id": "C74", "title": "Quantile-based density of the latent scores", "statement": "The quantile transformation keeps the order of the scores and gives equal scores equal values; the fitted density, evaluated at a row of the training data, uses that row's transformed values, and is evaluated at a finite point for every score.", "quantifier": "every sample, with and without ties, every query", "why_tests_cant": "ranges over all samples", "anchors": ["irtorch/quantile_mv_normal.py", "irtorch/latent_variable_functions.py: quantile_transform, interp"]}
{"id": "C75", "title": "Residuals leave the caller's data alone", "statement": "Computing residuals does not change the response tensor passed in: afterwards it holds the same values, NaN included.", "quantifier": "every data matrix, with and without missing responses", "why_tests_cant": "aliasing: the outcome of the call looks right, the damage shows in later calls", "anchors": ["irtorch/evaluator.py: residuals"]}
{"id": "C76", "title": "Group residuals compare observed and model shares", "statement": "Group-fit residuals are, for each ability group, item and category, the share of the group's observed answers in that category minus the mean model probability; they sum to zero over the categories of an item and lie in [-1, 1]; standardised ones are divided by the standard error of a share of that many answers; the call works with its default arguments.", "quantifier": "every data set, number of groups, model and scale", "why_tests_cant": "ranges over all groupings and missing patterns", "anchors": ["irtorch/evaluator.py: group_fit_residuals, latent_group_probabilities, _grouped_data_probabilities, _grouped_theta_probabilities"]}
{"id": "C77", "title": "The evaluator's log-likelihood adds up the observed answers", "statement": "log_likelihood returns, per item, per respondent or in total, the sum or mean of the log-probabilities of the observed answers (an impossible answer counts -30), or all of them with NaN in missing cells; other reductions are refused.", "quantifier": "every model, data set, reduction and level", "why_tests_cant": "ranges over all data sets and all strings", "anchors": ["irtorch/evaluator.py: log_likelihood"]}
{"id": "C78", "title": "Infit and outfit", "statement": "Infit is the sum of squared residuals of the observed answers divided by the sum of their model variances, outfit the mean of their ratios, per item or per respondent, NaN where nothing was observed, for ordinary and multiple-choice models; the variance used is the expected squared residual under the model; other levels are refused.", "quantifier": "every probability table and data set", "why_tests_cant": "ranges over all data sets", "anchors": ["irtorch/evaluator.py: infit_outfit"]}
{"id": "C79", "title": "The number of mixture components is chosen by held-out likelihood", "statement": "With several candidates the number of components is the first one whose log-likelihoods on the held-out folds, each under a mixture fitted to all other folds, have the largest sum, and the returned mixture is fitted to all data with that number; with one candidate no folds are used; the choice works for every number of respondents.", "quantifier": "every data set, candidate list and random start", "why_tests_cant": "ranges over all data sets, starts and EM iterations", "anchors": ["irtorch/evaluator.py: approximate_latent_density, _cv_gaussian_mixture_model"]}
{"id": "C80", "title": "Integration weights over the latent space", "statement": "The weights used by population quantities (the sum score distribution and others) are one per integration point, non-negative and add up to one after any sequence of calls; with 'data' they are equal over the scores in use; otherwise the points are the full grid from a standard deviation below the least to one above the largest score; each of the documented methods works; and the density is that of the current scores.", "quantifier": "every method, every history of calls, every sample of scores", "why_tests_cant": "state carried between calls, all samples", "anchors": ["irtorch/evaluator.py: _get_theta_scores_and_weights, _get_theta_scores_and_weights_for_latent_density_methods, _min_max_theta_for_integration, approximate_latent_density"]}
{"id": "C81", "title": "Fitting a mixture never makes it fit worse", "statement": "Running more EM iterations never lowers the log-likelihood of the data the mixture is fitted to.", "quantifier": "every data set, dimension, component count, start and pair of iteration numbers", "why_tests_cant": "an inequality along all trajectories of a nonlinear iteration", "anchors": ["irtorch/torch_modules/gaussian_mixture_model.py: fit, _e_step, _m_step, forward"]}
{"id": "C82", "title": "Autoencoder training is judged by intervals", "statement": "AE and VAE training evaluates the mean loss of each interval of batches: after the allowed number of reductions of the learning rate, a NaN loss or the last epoch it stops; the parameters kept are those at the end of the first interval with the lowest mean; every batch of the data is used.", "quantifier": "every loss and update function, data loader, interval, limit and number of epochs", "why_tests_cant": "all histories of losses", "anchors": ["irtorch/estimation_algorithms/ae.py: _training_loop, _train_step", "irtorch/estimation_algorithms/vae.py: fit"]}
{"id": "C83", "title": "Fitting a flow or a linking transformation stops and keeps the last state", "statement": "Flow.fit and LinkCommonItems.fit take gradient steps over the shuffled batches, reduce the learning rate by interval means, stop at the allowed number of reductions, at a NaN loss (whose step is not taken) or after the epochs, and leave the transformation in its last state.", "quantifier": "every loss and update function, data loader, interval, limit and number of epochs", "why_tests_cant": "all histories of losses", "anchors": ["irtorch/rescale/flow.py: fit", "irtorch/rescale/link_common_items.py: fit"]}
{"id": "C84", "title": "Spline models answer for the scores they are given", "statement": "Outside training, a B-spline model evaluates its basis at the latent scores passed in: before any fit and after any fit its output depends on these scores only through them, has one row per respondent, and equal rows of scores give equal rows of output.", "quantifier": "every history of fits (completed or failed), every batch of scores", "why_tests_cant": "state carried between calls", "anchors": ["irtorch/models/monotone_b_spline.py: forward, precompute_basis", "irtorch/models/surprisal_spline.py: forward", "irtorch/models/nested_logit.py: forward", "irtorch/estimation_algorithms/mml.py: _training_loop"]}
{"id": "C85", "title": "Scoring leaves the caller's data alone", "statement": "latent_scores does not change the response tensor passed in: afterwards it holds the same values, NaN included.", "quantifier": "every data matrix, algorithm and method", "why_tests_cant": "aliasing: the outcome of the call looks right, the damage shows in later calls", "anchors": ["irtorch/models/base_irt_model.py: latent_scores"]}
{"id": "C86", "title": "Monotone B-spline items", "statement": "For every parameter value, in both ways of sharing splines, the response probabilities of a monotone B-spline model form a distribution over the categories the item has, and raising any latent variable never lowers the probability of answering above any given category, hence never lowers the expected score; the reported directions are positive accordingly; every number of latent variables works.", "quantifier": "every parameter, knot vector, degree, number of categories and latent variables, every pair of scores", "why_tests_cant": "an inequality between all pairs of points of a continuum", "anchors": ["irtorch/models/monotone_b_spline.py: __init__, forward, probabilities_from_output, item_theta_relationship_directions"]}
{"id": "C87", "title": "Standard errors of latent scores", "statement": "The standard errors reported for ML scores are the square roots of the diagonal of the inverse test information at the estimate; those of a variational autoencoder's scores are the encoder's; on a transformed scale both follow the delta method with the Jacobian of the transformation.", "quantifier": "every information matrix, number of latent variables and scale", "why_tests_cant": "ranges over all information matrices", "anchors": ["irtorch/models/base_irt_model.py: latent_scores"]}
{"id": "C88", "title": "Reported directions of item-latent variable relationships", "statement": "The sign item_theta_relationship_directions reports for an item and a latent variable is the direction in which the expected item score moves when that latent variable alone increases: 1 up, -1 down, 0 no dependence. For models without slope parameters it is the sign of the least squares slope over the given scores, which must vary.", "quantifier": "every model of each family, every parameter value, pair of score rows, population", "why_tests_cant": "an equivalence over all parameter values and all pairs of points", "anchors": ["irtorch/models/base_irt_model.py: item_theta_relationship_directions", "irtorch/models/two_parameter_logistic.py (and 1PL, 3PL, GPC, GRM, NRM, monotone_nn, monotone_polynomial): item_theta_relationship_directions", "irtorch/_internal_utils.py: linear_regression"]}
{"id": "C89", "title": "Sampled responses are responses", "statement": "sample_test_data returns, for every respondent and item, a category the item has and to which the model gives positive probability; every category can occur; tables containing NaN or negative values are refused; every model can be sampled from.", "quantifier": "every probability table, every outcome of the random numbers", "why_tests_cant": "ranges over all tables and all random draws", "anchors": ["irtorch/models/base_irt_model.py: sample_test_data"]}
{"id": "C90", "title": "Population difficulty and discrimination", "statement": "population_difficulty is one minus the mean share of the maximum score an item is expected to yield in the population (with an answer key: the mean probability of the correct answer), between 0 and 1, lower for abler populations; population_discrimination is the mean derivative of that share by each latent variable, i.e. minus the rate at which the difficulty changes when the whole population moves; both are numbers for every item.", "quantifier": "every model, answer key, population, item and latent variable", "why_tests_cant": "a statement about derivatives and limits for all models", "anchors": ["irtorch/models/base_irt_model.py: population_difficulty, population_discrimination, expected_item_score_gradients"]}
{"id": "C91", "title": "Posterior intervals and samples of the variational autoencoder", "statement": "latent_credible_interval(alpha) encloses the posterior mean symmetrically, leaves posterior probability alpha/2 on each side given the standard deviation latent_mean_se reports, widens when alpha decreases; an alpha outside (0, 1) does not yield an interval; sample_latent_variables returns the requested number of rows, each the posterior mean plus noise times posterior standard deviation of one of the respondents given, encoded as in training, and leaves the data unchanged.", "quantifier": "every encoder, alpha, data set and random numbers", "why_tests_cant": "ranges over all encoders and reals", "anchors": ["irtorch/estimation_algorithms/vae.py: latent_credible_interval, latent_mean_se, sample_latent_variables, reparameterize"]}
{"id": "C92", "title": "Points of a figure", "statement": "A curve plotted against one latent variable consists of the requested number of points, equally spaced over the range, each with the plotted function (entropy, expected sum score, category probabilities) evaluated at exactly the latent scores shown under it, the other variables held fixed; with an invertible scale and stored scores the spacing is on the transformed scale and the function is evaluated at the inverse; against two variables the points form the square grid of both ranges, first variable along the rows. The plot of a scale shows every transformed score over the original one. No point is lost.", "quantifier": "every model, plotted function, scale, range, number of steps, fixed values", "why_tests_cant": "ranges over all functions, scales and grids; unit tests only check that a figure object is returned", "anchors": ["irtorch/plotter.py: item_entropy, item_probabilities, expected_sum_score, scale_transformations, _get_theta_grid_for_plotting"]}
{"id": "C93", "title": "Requests for figures: defaults and refusals", "statement": "By default a figure covers the range of the stored training scores, on the scale of the axis, with the other variables at their medians there; without stored scores -3 to 3 and zero; a given range is one of transformed scores whenever every scale is invertible; more than two variables, variables the model does not have, ranges without two values and fixed values of the wrong number are refused.", "quantifier": "every model, stored scores, call", "why_tests_cant": "universally quantified over models and calls", "anchors": ["irtorch/plotter.py: _get_theta_grid_for_plotting, item_entropy, item_probabilities, information, log_likelihood, expected_sum_score"]}
{"id": "C94", "title": "Information figures", "statement": "The information figure shows, over the scores asked for, the information of the test or the sum over the chosen items, each counted once, for any scale, dimension and choice of variables; a direction is required for several latent variables.", "quantifier": "every model, scale, choice of variables and items", "why_tests_cant": "all models and scales; most combinations are never called in tests", "anchors": ["irtorch/plotter.py: information, expected_sum_score"]}
{"id": "C95", "title": "Log-likelihood figures", "statement": "The log-likelihood figure of a response pattern shows, at every point, the log-likelihood of the answers to the chosen items at the scores of that point (optionally over the expected sum score), leaving missing answers out; the mark named observed sum score is the score of the pattern.", "quantifier": "every model with category probabilities, response pattern, choice of items, scale", "why_tests_cant": "all models and patterns", "anchors": ["irtorch/plotter.py: log_likelihood"]}
{"id": "C96", "title": "Training history and score distribution figures", "statement": "The history figure shows every recorded training and validation loss once at its number, and is refused when there is none; the distribution figure shows the scores of the chosen variables respondent by respondent, and variables the model does not have are refused with ValueError.", "quantifier": "every history, score matrix and choice of variables", "why_tests_cant": "universally quantified", "anchors": ["irtorch/plotter.py: training_history, latent_score_distribution, _distribution_plot"]}
{"id": "C97", "title": "Gradients and Fisher information of the item models", "statement": "Without attached scales the reported gradients are the derivatives of the category probabilities and cancel over the categories of an item; the information of a two parameter item is a_d a_e P(1-P) (at most a quarter of the squared slope, exactly where both answers are equally likely), of a one parameter item P(1-P), of a three parameter item the formula with the guessing probability (always less than without guessing), of a partial credit item the slopes times the variance of the item score, of a nominal item the covariance of the slopes over the categories, of a graded item with decreasing intercepts the sum of squared differences of the cumulative weights over the probabilities; the test information is the sum over the items. On transformed scales the information matrix is the one a change of variables gives: I = J^T I' J.", "quantifier": "every model parameters, latent scores, number of items, categories and latent variables, attached scales with invertible derivative", "why_tests_cant": "quantifies over all real parameters and scores and over derivatives of the probabilities; unit tests compare shapes or single values", "anchors": ["irtorch/models/base_irt_model.py: probability_gradients, information", "irtorch/models/*.py: probabilities_from_output, forward"]}
{"id": "C98", "title": "Linking by common items: the criterion", "statement": "The loss of LinkCommonItems is the mean, over respondents and common items, of the Kullback-Leibler divergence of the target model's category probabilities at the linked scores (increased by 1e-10) from the source model's; a small loss forces every category probability of every common item to be close at every respondent's score; linked scores at which the common items' curves agree have the smallest loss up to 1e-10 per category; between two two-parameter models whose common items are the same items on linearly related scales, the linear link (for a negative relation with inverted set) is such a minimum and the only link with agreeing curves; wrong dimensions, lists and methods are refused; any two models can be linked by items they share.", "quantifier": "every pair of models with category distributions, list of common items (negative numbers included), latent scores and linked scores", "why_tests_cant": "inequalities between divergences over all real parameters and scores; the failure for models of different width needs models other than the tested pairs", "anchors": ["irtorch/rescale/link_common_items.py: __init__, _loss_function"]}
{"id": "C99", "title": "Datasets: keys, scoring, preprocessing, cache", "statement": "The answer key of a dataset is read digit by digit from its text and is in the order of the items, also for the joined test; the binary Swedish SAT data has a one exactly where the answer is the correct one; big_five keeps exactly the respondents with a single submission, recorded times between 0 and 5 minutes, no empty cell and some answer, in order, codes 1..5 as 0..4 (reverse-keyed questions from the other end) and 0 as missing; a second call answers the same as the first; the returned keys are coded as documented (starting from one) and an interrupted call does not spoil later ones.", "quantifier": "every text, data matrix, raw file of any length, column order and history of calls", "why_tests_cant": "the raw data is downloaded and tests only compare shapes and extreme values of one file; interruptions are not tested", "anchors": ["irtorch/load_dataset.py: swedish_sat_verbal, swedish_sat_quantitative, swedish_sat, swedish_sat_binary, big_five"]}
{"id": "C100", "title": "Spline gradients are derivatives", "statement": "The custom backward pass of the spline basis returns, for every point and every incoming gradient, the derivative of the basis values weighted with that gradient, at every latent score that is not a knot and, for degree two and more, also at a knot listed once; equal weights give gradient zero, batched incoming gradients are treated one by one, and nothing is returned when no gradient is needed. Consequently the splines of a monotone B-spline model have the slope given by the derivative basis, positive from degree one on, probability_gradients returns P_k (z'_k - mean z') and information returns the covariance of the logit slopes over the categories (the variance of the item score times the squared slope when the categories share the spline).", "quantifier": "every degree, every ordered list of knots (repeated ones included), every score, all coefficients, numbers of items, categories and latent variables, batches of any size, every incoming gradient", "why_tests_cant": "derivatives at every point cannot be sampled; numerical differentiation at a few points hides errors at the knots and in the degenerate 0/0 terms at the ends of the knot vector", "anchors": ["irtorch/torch_modules/b_spline.py: BSplineBasisFunction.backward", "irtorch/models/monotone_b_spline.py: forward", "irtorch/models/base_irt_model.py: probability_gradients", "irtorch/models/base_irt_model.py: information"]}
{"id": "C101", "title": "Models contain one another", "statement": "A one parameter model gives exactly the probabilities of the two parameter model with unit slopes; a partial credit or graded response model whose items have two categories gives exactly those of the two parameter model with the same parameters (already when newly constructed for partial credit), a nominal model those of the two parameter model with twice its slopes and intercepts; every partial credit model is the nominal model with slopes proportional to the centred category numbers; the three parameter curve lies above the two parameter curve with the same slopes and intercepts, by less than the guessing probability.", "quantifier": "every parameters, scores, number of items, categories and latent variables, and every pattern of item-variable relationships", "why_tests_cant": "equalities between different classes over all real parameters; tests check each class alone at fixed numbers", "anchors": ["irtorch/models/*.py: forward, probabilities_from_output"]}
{"id": "C102", "title": "Probabilities determine the reported item parameters", "statement": "Two fitted models of the same family and shape give the same probabilities at all latent scores exactly when item_parameters reports the same values for both: the reported parameters contain everything the model says and nothing else (for the nominal model thanks to the sum-to-zero rule); exceptions are exactly items of a single category and three parameter items without slope.", "quantifier": "every two models with one to three parameters, partial credit, graded or nominal, any sizes and relationships", "why_tests_cant": "needs a universally quantified comparison over all latent scores in both directions", "anchors": ["irtorch/models/*.py: forward, item_parameters"]}
{"id": "C103", "title": "Starting point of the bit scale from guessing", "statement": "The bit scale's Monte Carlo start is the score of someone who only guesses. The answers drawn for a selected item are those of a guesser at that item (the given probability for the correct category, the rest spread evenly; by default all categories equally likely); the start stored is coordinatewise a median of the scores of these answers; the items argument selects the items used; wrong arguments are refused and leave the start as it was; a start given by the user or set later is kept exactly if it has one value per latent variable.", "quantifier": "every number of items, category counts, keys, selections, guessing probabilities, draws and scores", "why_tests_cant": "tests mock the scores and the draw; the claim is about the distributions for every selection and about every list of scores", "anchors": ["irtorch/rescale/bit.py:104-139", "irtorch/rescale/bit.py:327-356", "irtorch/_internal_utils.py:110-160"]}
{"id": "C104", "title": "Scores by maximum likelihood and maximum a posteriori", "statement": "The loss minimised for ML scores is minus the log-likelihood of all observed answers, and for MAP scores minus the log-likelihood minus the log prior. For scores with a vanishing gradient of that loss, which is what the optimiser looks for, every respondent's score maximises the likelihood of that respondent's own answers (for MAP: likelihood times normal prior); respondents do not influence each other; two such ML scores give the same probabilities on the answered items, and the MAP score is unique. The loop ends at the first step whose loss changes by less than 1e-8 per cell, or after its last iteration.", "quantifier": "all parameter values of the models, any number of latent variables, respondents and items, all legal data with any missing cells, all starting points", "why_tests_cant": "a test sees one optimum for one data set; it cannot tell a local from a global optimum", "anchors": ["irtorch/models/base_irt_model.py:757-857", "irtorch/models/base_irt_model.py:log_likelihood"]}
{"id": "C105", "title": "When ML and MAP scores exist", "statement": "A MAP score exists for every respondent, model and number of latent variables. An ML score exists, and is unique, whenever the answers are pulled back in every direction of the latent space (in every direction some answered item has a category more favoured than the one chosen). It does not exist when some direction is favoured by all answers: in particular a respondent in the top (or bottom) category of every answered item with nonnegative slopes has none. In general it exists exactly when the answers are pulled back in every direction that some of them favour; with one latent variable, when they are pulled back on both sides or on neither.", "quantifier": "all parameter values, any number of latent variables, items and categories, all answers with any missing cells, all positive definite priors", "why_tests_cant": "existence of a maximum over an unbounded space cannot be observed by running the optimiser, which returns finite numbers either way", "anchors": ["irtorch/models/base_irt_model.py:757-857"]}
{"id": "C106", "title": "What the scores depend on, and their order", "statement": "In the 1PL, 2PL, generalized partial credit and nominal models, two respondents who answered the same items and have the same slope-weighted sum scores get the same EAP scores, and share their ML and MAP scores. With one latent variable a larger weighted sum score on the same items gives a larger EAP score. With one latent variable and positive slopes, in these models (nominal excepted), the graded response and the 3PL model, better answers give a larger EAP score and never a smaller ML or MAP score; an item left out ranks between its lowest and its highest category. With several latent variables a better answer may lower a score.", "quantifier": "all parameter values, any number of items and categories, all answers with any missing cells, any algorithm state, any grid size, any prior density", "why_tests_cant": "order over all response patterns and parameter values; a test compares a few rows of one fitted model", "anchors": ["irtorch/models/base_irt_model.py:859-935", "irtorch/models/base_irt_model.py:757-857"]}
{"id": "C107", "title": "The equations satisfied by ML and MAP scores", "statement": "In the 1PL, 2PL, generalized partial credit and nominal models the derivative of the scoring loss in a respondent's score is the expected minus the observed slope-weighted sum score over the answered items. A score vector is an ML score exactly when every expected weighted sum score equals the observed one, and the MAP score under a normal prior exactly when their difference is the precision matrix times the score. With one latent variable a larger weighted sum score on the same items gives a strictly larger ML and MAP score. For a 1PL model and complete answers, the ML score is exactly the point where expected_scores summed over items returns the number of right answers.", "quantifier": "all parameter values, any number of items, categories and latent variables, all answers with any missing cells, every positive definite precision matrix", "why_tests_cant": "an equivalence over all real score vectors; a test sees one optimiser run to a tolerance", "anchors": ["irtorch/models/base_irt_model.py:757-857", "irtorch/models/base_irt_model.py:266-292"]}
{"id": "C108", "title": "The equations satisfied by fitted item parameters", "statement": "In the 1PL, 2PL, generalized partial credit and nominal models fitted by JML or MML the derivative of the training loss in an item parameter is the expected minus the observed total of the effect of that parameter on the logits of the answers, over the answered cells (for MML averaged over each respondent's posterior distribution on the quadrature points). For JML with given scores the parameters have the lowest loss exactly when expected and observed totals agree for every parameter, and all such parameters give the same probabilities wherever somebody answered. For both algorithms, at the lowest loss the number of respondents giving each answer to each item equals the number the fitted model expects among those who answered the item, and for the 2PL and generalized partial credit models the scores of an item weighted by a latent variable it loads on add up to what the model expects.", "quantifier": "all parameter values, any number of items, categories, latent variables, respondents and quadrature points, all data with any missing cells, all free-slope patterns", "why_tests_cant": "an equivalence over all real parameter vectors and data sets; a test sees one optimiser run to a tolerance", "anchors": ["irtorch/estimation_algorithms/jml.py:154-160", "irtorch/estimation_algorithms/mml.py:238-283", "irtorch/models/two_parameter_logistic.py:90-112", "irtorch/models/generalized_partial_credit.py:102-131", "irtorch/models/nominal_response.py:105-141"]}
{"id": "C109", "title": "The mass of the density a spline flow is trained with", "statement": "Flow trains its spline by maximising the mean of NeuralSplineFlow.log_prob, so that the transformed scores follow the base distribution. The exponential of log_prob should be a probability density: its integral over an interval should be the probability the base distribution gives the transformed interval, and its integral over the line should be one, whatever the parameters. (Between the input bounds it is. Outside them the integral is divided by the boundary slope, so the total is P + (1 - P)/slope with P the base probability of the output interval; it is one exactly when the slope is one. With the default bounds of Flow.fit the slope is 6/11 and the total exceeds one for every parameter value.)", "quantifier": "all spline parameters, bounds, minimum widths, heights and derivatives and slopes, all positive base densities, all intervals", "why_tests_cant": "an integral over the whole line for every parameter vector; tests evaluate log_prob at sample points", "anchors": ["irtorch/torch_modules/neural_spline_flow.py:36-77", "irtorch/torch_modules/rational_quadratic_spline.py:76-133", "irtorch/rescale/flow.py:96-140"]}
{"id": "C110", "title": "What estimation does not depend on: order of respondents and items, origin, unit and sign of the latent variables", "statement": "Shuffling the rows of the data changes neither the marginal loss of MML nor (scores shuffled alike) the joint loss of JML, and EAP scores come back in the order of the rows. Shuffling the columns together with the items of the model changes no loss and no EAP score. Measuring the scores from another origin and in another unit in every latent variable, with the item parameters of that scale, gives the same category probabilities and the same joint loss, so JML determines neither origin nor unit nor sign. Under MML the sign of every latent variable is undetermined: for every quadrature rule that is symmetric in it, and in particular for the default grid with the standard normal prior, the model with the signs of the slopes changed has the same marginal loss, and its EAP scores are the scores with the signs changed.", "quantifier": "all 1PL, 2PL, 3PL, GPC, GRM and nominal models with any mask of free slopes and category counts, all response data with missing answers, all permutations, scales, signs, grids and priors", "why_tests_cant": "an invariance of a function of the whole data set under every permutation and every affine change of scale; tests compare a few shuffles up to rounding", "anchors": ["irtorch/estimation_algorithms/mml.py:185-188", "irtorch/estimation_algorithms/mml.py:267-277", "irtorch/estimation_algorithms/mml.py:303-316", "irtorch/estimation_algorithms/jml.py:157-158", "irtorch/models/base_irt_model.py:221-264", "irtorch/models/base_irt_model.py:860-936"]}
{"id": "C111", "title": "Fitting several models at once", "statement": "fit_multiple_models_cpu(models, data, cores_to_use, algorithm=..., ...) should return the models in the order given, each as model.fit with a fresh copy of the algorithm would leave it and each with its own fitted algorithm; the caller's models and algorithm and the number of torch threads are as before; if a model cannot be fitted its exception is raised. (True for up to four models per process. Beyond that the pool sends the models in batches whose calls share one copy of the algorithm: the models of a batch come back with the same algorithm object, fitted last to another model and holding the training data once per model of the batch. An empty list of models is a ValueError, and a call that passes device fails.)", "quantifier": "all fitting procedures, models, algorithms and data, any number of models, processes and threads, any order in which the batches finish", "why_tests_cant": "the sharing depends on how many models meet how many processes, and the exception on the order in which workers finish; a test with a few models never shares", "anchors": ["irtorch/utils.py:497-517", "irtorch/models/base_irt_model.py:97-116", "irtorch/estimation_algorithms/base_irt_algorithm.py:31-37"]}
{"id": "C112", "title": "Splines act on each variable and respondent on its own", "statement": "RationalQuadraticSpline.forward of a matrix of numbers should transform column j with the spline of variable j, cell by cell, and applying it again with inverse toggled gives the matrix back with opposite log-determinants; so the log-density of a respondent in a training batch of Flow.fit does not depend on the others. plot_spline(n, j) draws that variable's curve over the input interval and its knots, which are on the curve (negative j counts from the end, others are an IndexError). Too small bins are a ValueError. (Not so for NaN: one NaN makes the whole call a RuntimeError, so training on a constant score or one respondent raises on the first batch and the warning for a NaN loss is never reached; and a matrix with a wrong number of columns is refused only if some cell is between the bounds.)", "quantifier": "all numbers of respondents, variables and bins, all trained parameters, both directions, all matrices", "why_tests_cant": "cells are selected and put back through masks over all rows at once; a test with fixed shapes does not show that no cell leaks into another for every mask", "anchors": ["irtorch/torch_modules/rational_quadratic_spline.py:74-133", "irtorch/torch_modules/rational_quadratic_spline.py:135-194", "irtorch/torch_modules/rational_quadratic_spline.py:196-227", "irtorch/rescale/flow.py:119-138"]}
{"id": "C113", "title": "Integration rules of marginal maximum likelihood", "statement": "With a one-dimensional rule of n points exact up to degree D (numpy's hermgauss: 2n-1), gauss_hermite(n, mean, covariance) should return n^d points and weights that integrate every polynomial of total degree at most D exactly against the normal distribution with this mean and covariance; in particular the weights sum to 1 and mean and covariance are reproduced when D is at least 2 (n at least 2; with one point everything sits at the mean). It succeeds exactly for positive definite matrices of the size of the mean and raises RuntimeError otherwise. The loss that MML.fit minimises with integration_method gauss_hermite is then minus a sum of logs of mean likelihoods, never negative and zero when nobody answered. (Not so: a covariance matrix that is not symmetric is accepted, its upper triangle ignored, although the default method refuses it with ValueError; and the default method uses densities that are not multiplied by the spacing of its grid, so the weights of 15 points sum to more than 1 and the loss of respondents without answers is negative. Multiplying all weights by a constant moves the loss by a constant only, so the fitted model is unaffected but losses of different methods or grids are not comparable.)", "quantifier": "all numbers of points and dimensions, all one-dimensional rules exact to degree D, all means and covariance matrices, all polynomials, all library models and legal data", "why_tests_cant": "the only test compares two moments for one mean, covariance and number of points within a tolerance", "anchors": ["irtorch/utils.py:216-276", "irtorch/estimation_algorithms/mml.py:93-121", "irtorch/estimation_algorithms/mml.py:251-284", "irtorch/estimation_algorithms/mml.py:285-316"]}
{"id": "C114", "title": "Parameters that start alike: duplicated items and exploratory latent variables", "statement": "Two items that every respondent answered in the same way (or both not at all), with the same number of categories and related to the same latent variables, get exactly the same slopes, intercepts and guessing parameters when a one, two or three parameter logistic or generalized partial credit model is fitted by MML from equal starting values, whatever the integration rule, covariance, learning rate, patience and number of epochs: the fitted parameters do not depend on the position of an item. A model with several latent variables should be able to give an item different slopes on them. (Not so: the 2PL, 3PL and GPC models start with all slopes equal to one, the integration rules treat the latent variables alike, and Adam works parameter by parameter, so for every data set the fitted slopes on two latent variables with the same relationships, in particular on all of them when item_theta_relationships is not given, are equal for every item, and the answer probabilities depend on those latent variables through their sum only: a fit with two or three latent variables is a fit with one. Rounding errors aside, only restrictions on the relationships, or a covariance that treats the latent variables differently, separate them.)", "quantifier": "all numbers of items, categories, latent variables and respondents, all legal data, all settings of the fit, every gradient oracle that returns the derivatives of the loss; the general statement for all losses, batches and the training loops of MML, JML and AE", "why_tests_cant": "a test fits a few models and compares losses or shapes; that no data whatsoever can separate the slopes is a statement about all runs of the optimizer", "anchors": ["irtorch/estimation_algorithms/mml.py:87-147", "irtorch/estimation_algorithms/mml.py:149-283", "irtorch/models/two_parameter_logistic.py:60-90", "irtorch/models/three_parameter_logistic.py:60-87", "irtorch/models/generalized_partial_credit.py:60-100", "irtorch/utils.py:216-276"]}
{"id": "C115", "title": "Hidden units of MonotoneNN: widths beyond one unit of every activation function", "statement": "hidden_dim of MonotoneNN sets how many units every item (or item category) has in every hidden layer; more units should give a more flexible response function. (Not so: all weights and biases of the layers start at zero, the units of an item or category take the activation functions in turn, and the last layer is summed, so units with the same activation function start as copies and receive the same gradient. For every loss that sees the network through its outputs, every data set and every training loop they are copies after training, in every hidden layer. With the default negative_latent_variable_item_relationships=True the fitted network has exactly the outputs of a network with 3 units in every layer, 2 without the bounded activation function; without it the latent variable outputs are those of such a network times hidden_dim[-1] // 3 or // 2. Networks of the same shape whose units differ do exist; training from zeros cannot reach them.)", "quantifier": "all constructed networks (any items, categories, latent variables, relationships, hidden_dim, separate, mc_correct), all batch losses through the outputs, every gradient oracle that returns the derivatives, all settings of the training loops of MML, JML and AE/VAE", "why_tests_cant": "a test fits a network once and looks at the loss; that no data and no loss can ever tell the units apart is a statement about all runs", "anchors": ["irtorch/models/monotone_nn.py:93-193", "irtorch/models/monotone_nn.py:195-250", "irtorch/torch_modules/softplus_linear.py:94-130", "irtorch/torch_modules/negation_layer.py:1-60"]}
{"id": "C116", "title": "The loss of the variational autoencoder is a bound on minus the marginal log-likelihood", "statement": "With the full divergence (after annealing or anneal=False) the VAE loss of a batch, averaged over the reparameterisation noise, is finite and never below minus the average over respondents of the logarithm of the average importance weight, for every number of importance samples including one; one more importance sample never increases the average loss; when the encoder's distribution is proportional to likelihood times prior nothing is lost (with several samples the loss is then the same for every noise). With one latent variable the average importance weight over standard normal noise is the marginal likelihood under a standard normal prior, whatever mean and variance the encoder reports.", "quantifier": "all parametric library models and parameter values, all legal data with missing cells, all numbers of respondents, latent variables and importance samples, all encoder outputs, every positive normalised linear averaging rule over noise rows (standardised noise where only one sample is used)", "why_tests_cant": "the claim is an inequality between an expectation over continuous noise and a marginal likelihood; a test evaluates one draw", "anchors": ["irtorch/estimation_algorithms/vae.py:164-202", "irtorch/estimation_algorithms/vae.py:204-280"]}
{"id": "C117", "title": "Annealing and the model state the variational autoencoder keeps", "statement": "VAE.fit keeps the model and encoder with the lowest interval averaged loss; a model that is better by the objective being optimised should be preferred. (Not so while annealing is on: the first interval averages losses from which up to the whole divergence is missing, so it is lower than the full loss by the missing share, and is compared with later intervals as if it were not. With the default interval of 60 iterations and the default annealing over 5, a training run in which every step lowers the full loss ends with the state of iteration 60 although training went on. After annealing, or without it, the loss no longer depends on the number of iterations made.)", "quantifier": "all parametric library models, legal data, encoder outputs and noise for the size of the shortfall (one sample); every number of samples for the end of the annealing; the run: every one-dimensional library model, every noise, every limit on reductions of the rate, up to 2000 epochs", "why_tests_cant": "the comparison is between losses of different iterations of one run; a test sees that some state was kept", "anchors": ["irtorch/estimation_algorithms/vae.py:239-280", "irtorch/estimation_algorithms/ae.py:167-270"]}
{"id": "C118", "title": "Bit scores as the documented integral", "statement": "The documentation defines the bit score as the integral, from the start to the score, of the absolute derivative of each item's entropy, summed over the items, and says that more grid points give more accurate results. The score is never above that integral, for any grid size, range, start and batch; and for start and score within the range of the grid it comes within any tolerance of the integral once the number of grid points is large enough, a number that depends neither on the start nor on the batch. (Outside the range no number of grid points helps: with an item of difficulty 8, start 7 and a respondent at 9, the score is 0 for every grid size though the integral is positive; and with the start used when none is given, -10000, everything below -7 is taken in one step.)", "quantifier": "every entropy function with continuous derivatives, every number of items, latent variables and respondents, every tolerance; the one-parameter logistic items are shown to be such functions for all difficulties", "why_tests_cant": "an integral is a limit over all grids; a test compares one grid with itself or with another", "anchors": ["irtorch/rescale/bit.py:38-50", "irtorch/rescale/bit.py:142-180", "irtorch/rescale/bit.py:424-483"]}
{"id": "C119", "title": "When best item parameters exist", "statement": "If every category of every item was chosen by somebody, then some item parameters have the lowest loss, so that training can converge. For marginal maximum likelihood with the one-parameter model this holds, and its converse for items somebody answered. In all models without guessing a category nobody chose, of an item somebody answered, leaves no lowest loss, in joint as in marginal maximum likelihood. For joint maximum likelihood with given scores there is a lowest loss exactly when no change of the parameters favours some answer without disfavouring another; with scores and intercepts of a one-parameter model estimated together, exactly when respondents and items cannot be cut into an upper and a lower part such that upper respondents have all lower items right and lower respondents all upper items wrong (so never when some respondent or some item has answers of one kind only). (With slopes the first claim fails: two items, one respondent with both right and one with both wrong, and any quadrature rule that is symmetric and has no point at 0.)", "quantifier": "all tables of answers with any missing cells, all numbers of items, categories, latent variables and quadrature points, all scores, weights and parameter values", "why_tests_cant": "whether an infimum over unbounded parameters is attained cannot be seen from runs, which always stop at finite parameters", "anchors": ["irtorch/estimation_algorithms/mml.py:149-284", "irtorch/estimation_algorithms/jml.py:122-195"]}
{"id": "C120", "title": "Estimation aims at the model that generated the answers", "statement": "When the answers come from a model of the library, estimation is drawn to that model. Marginal maximum likelihood: with scores distributed as a quadrature rule says, and any pattern of missing answers, no model with any rule of the same total weight has a lower loss on average over all tables of answers than the true one, and as low a loss has only a model that gives every possible row of answers the same probability; in the one-parameter model these are exactly the models with the true intercepts at all answered items; and on a table in which every row occurs in proportion to its probability the true model has the lowest loss. Joint maximum likelihood: on average no model and scores have a lower loss than the true ones. Scores and item parameters estimated together from answers in exact proportions should therefore return the true item parameters. (The last sentence fails: with two items of a one-parameter model the estimated difference of the intercepts is always exactly twice the true difference.)", "quantifier": "all models of the library (1PL, 2PL, 3PL, GPC, GRM, NR) as truth and as fitted model, all parameter values, quadrature rules, numbers of respondents, items, categories and latent variables, and all patterns of missing answers", "why_tests_cant": "an average over all possible tables has exponentially many terms and ranges over all models; a simulation shows neither that nothing else does better nor a bias for every number of respondents", "anchors": ["irtorch/estimation_algorithms/mml.py:149-284", "irtorch/estimation_algorithms/jml.py:122-195", "irtorch/models/base_irt_model.py:214-298"]}
{"id": "C121", "title": "With more respondents the fit approaches the truth", "statement": "Let respondents be drawn independently from a model of the library, with scores distributed as a quadrature rule says and answers to the same items. Marginal maximum likelihood is consistent: for enough respondents, with a probability as near 1 as wanted, every model (with any rule of the same total weight) that fits the answers at least as well as the true one gives every possible row of answers nearly its true probability; in the one-parameter model intercepts with the lowest loss then exist and all of them are near the true ones. Scores and intercepts of a one-parameter model estimated together should also exist and approach the truth. (They do not: with enough respondents the probability is as near 1 as wanted that no scores and intercepts have the lowest joint loss.)", "quantifier": "all models of the library as truth and as fitted model, all parameter values, quadrature rules and numbers of items, categories and latent variables, all degrees of nearness and of probability, and all sufficiently large numbers of respondents", "why_tests_cant": "a limit in the number of respondents over exponentially many tables, with an infimum over unbounded parameters inside; simulations sample a few tables of one size from one model", "anchors": ["irtorch/estimation_algorithms/mml.py:149-284", "irtorch/estimation_algorithms/jml.py:122-195"]}
{"id": "C122", "title": "With more items the scores approach the truth", "statement": "Let a respondent with a given score answer items of a model with one latent variable (1PL, 2PL, generalized partial credit or nominal), and let every answered item tell that score from those a little away by at least a fixed amount, as 1PL and 2PL items with bounded parameters and slopes not near 0 do. If enough items are answered, then with a probability as near 1 as wanted an ML score exists and every ML score is near the true one; the same holds of MAP scores with any normal prior. EAP scores should also approach the truth. (They come within one step of their grid if the true score lies in the range of the grid, a quarter beyond the training scores on either side; a true score outside that range they miss by the same distance however many items are answered.)", "quantifier": "all such models with any parameters within the bounds, all true scores, all degrees of nearness and of probability, all normal priors, all grids, all sufficiently large numbers of answered items and any choice of unanswered ones", "why_tests_cant": "a limit in the number of items over exponentially many rows of answers and a continuum of scores; simulations sample a few rows of a few tests", "anchors": ["irtorch/models/base_irt_model.py:748-935", "irtorch/models/base_irt_model.py: _theta_grid"]}
{"id": "C123", "title": "Log-likelihoods stay finite in single precision", "statement": "With single-precision numbers, in which everything but EAP's last step is computed, the log-likelihood of an answer an item can receive is a finite number, not above zero and close to the logarithm of the answer's probability. (True of all models scored by cross-entropy. Of the graded response and three-parameter models it is false: once the predictor a'theta + d is 18 or more, an answer below that step has probability exactly 0 and log-likelihood -inf, and so has the whole response pattern; for two-category graded items it is true for predictors from -80 to 14.)", "quantifier": "every arithmetic that rounds to nearest in single precision with an exponential and a logarithm accurate to 2^-22, all rows of up to 2^24 logits below 10^37 in size, all answers; for the graded and three-parameter models all parameters and scores with a predictor of 18 or more", "why_tests_cant": "rounding acts differently at each of the 2^32 inputs per operation; tests use small predictors, where nothing is lost", "anchors": ["irtorch/models/base_irt_model.py:221-264", "irtorch/models/graded_response.py:119-214", "irtorch/models/three_parameter_logistic.py:87-176", "irtorch/models/two_parameter_logistic.py:89-113"]}
{"id": "C124", "title": "Scores and losses of long tests do not underflow", "statement": "However long the test, the EAP score of a respondent is a number close to the mean of their posterior distribution, and the MML loss is a number close to the exact one, although the probability of a whole response pattern is far below the smallest floating-point number. (True of the MML loss, which subtracts the largest term before taking exponentials. False of EAP scores: where the log posterior is -746 or less at every point of the grid, the scores are NaN, for instance for any 1200 items in pairs of equal difficulty with one answered right and one wrong; where some log posterior is above -600 they are within the grid's width times 2^-50 of the posterior mean.)", "quantifier": "every exponential with the accuracy and underflow of double precision (for the MML loss, any accuracy), all models of the library, parameters, priors, grids of up to 2^60 points and data sets with possible answers", "why_tests_cant": "tests use a handful of items, whose likelihoods are nowhere near the smallest floating-point number", "anchors": ["irtorch/models/base_irt_model.py:846-935", "irtorch/estimation_algorithms/mml.py:240-280"]}
{"id": "C125", "title": "Bit scores do not depend on the unit, origin and direction of the latent variables", "statement": "Given a population and a start, bit scores are free of the arbitrary scale of the latent variables: multiply each variable by a nonzero number of either sign, add a number to it, convert the model, the population, the start and the respondents accordingly, and both transform and transform_to_1D return the same scores. They do not depend on the order in which the population is listed; the range of the grid found from it is finite and ordered, from the start or above to a score of the population; and the range of one variable does not depend on the start of another. (False without a population, where the range is -7 to 7 whatever the scale: with 3 added to every score a positive bit score becomes 0. False of the last part: when the start of any variable is an outlier of the population, the ranges of all variables begin elsewhere and their scores change.)", "quantifier": "every number of latent variables, population, start, batch, grid size, unit, origin and direction, and every model whose expected total score moves strictly with each variable", "why_tests_cant": "tests compute bit scores on one scale; that another scale gives the same is a statement about pairs of runs for all scales", "anchors": ["irtorch/rescale/bit.py:141-222", "irtorch/rescale/bit.py:358-542", "irtorch/outlier_detector.py:78-163"]}
{"id": "C126", "title": "Mutual information differences compare observed with implied dependence", "statement": "For complete data, mutual_information_difference returns symmetric matrices whose entries for two items are the mutual information of their observed answers minus the mutual information of the pair probabilities averaged over the respondents, and its absolute value, up to the tiny constant inside the logarithms. A model whose averaged pair probabilities equal the observed pair frequencies gets zero; a model which gives every respondent the same probabilities gets the observed mutual information itself, so on the diagonal the entropy of the item. Conversely a difference of zero says that the model reproduces the dependence of the two items. (False: information has no direction. Sixteen respondents who tend to agree on two items and a model under which they tend to disagree to the same degree give a difference below 1e-8.)", "quantifier": "every base above 1, number of items, categories and respondents, complete data and category probabilities", "why_tests_cant": "a test checks the shape of the data frames or one small sample; the relation to observed and implied information is over all data sets and models", "anchors": ["irtorch/evaluator.py:674-760", "irtorch/_internal_utils.py:235-309"]}
{"id": "C127", "title": "imv finds the weights of the equivalent coins", "statement": "With 24 iterations or more (the default is 100) the weights found inside imv are those of the coins whose expected log-likelihood equals the mean log-likelihood of each model: a weight's log-likelihood exceeds the one asked for by at most 2e-6, for mean log-likelihoods outside the range of the coins considered it is the one at the nearer end, and imv of two models equivalent to coins of weights c1 and c2 is (c2 - c1)/c1 up to 3e-5 (weights from 0.6). So imv tells how much better the second model predicts. (False of items with three or more categories: whenever both mean log-likelihoods are below -0.8, such as guessing among three answers, imv is exactly 0 whichever model predicts better.)", "quantifier": "every list of mean log-likelihoods, number of iterations from 24, and every stopping pattern of the joint iteration", "why_tests_cant": "a Newton iteration stopped by a joint criterion: convergence within a fixed number of steps for every target is an analytic fact", "anchors": ["irtorch/utils.py:432-457"]}
{"id": "C128", "title": "The reported Jacobian is the rate at which bit scores change", "statement": "With one latent variable, the difference between the bit scores of two respondents is the difference of their latent scores times the Jacobian that the bit scale reports at a score between theirs, with the sign of the direction of the scale, up to an error below any tolerance once the grid is fine enough. How fine depends neither on the start, nor on the batch, nor on the two respondents. The start can be anywhere below both, as the default is.", "quantifier": "every test with smooth category probabilities (padded categories allowed), direction, start, batch, pair of respondents within the range of the grid, tolerance", "why_tests_cant": "two public methods computed in different ways must agree in the limit of the grid, over a continuum of scores", "anchors": ["irtorch/rescale/bit.py:141-180", "irtorch/rescale/bit.py:228-259", "irtorch/rescale/bit.py:424-483"]}
{"id": "C129", "title": "Fit statistics of a model that is right", "statement": "If the answers are generated by the probabilities a model implies for the respondents, the fit statistics computed with these probabilities come out as their interpretation says, on average over all tables of answers to the items asked: infit and outfit of every item and every respondent are 1, averages of residuals are 0 (with a key, where a residual is one minus the probability of the answer, one minus the chance that two answers agree), accuracy is the mean probability of the most probable category, residuals of groups of respondents are 0, and standardized ones squared are at most 1, less than 1 as soon as two members of the group differ. All these statistics are numbers whatever the answers.", "quantifier": "every table of probabilities, numbers of categories, pattern of missing answers, key, number of groups, and exact averages over all tables of answers", "why_tests_cant": "the average over all possible tables (exponentially many) cannot be computed by a test; simulation only approximates it", "anchors": ["irtorch/evaluator.py:142-198", "irtorch/evaluator.py:199-267", "irtorch/evaluator.py:269-311", "irtorch/evaluator.py:394-480", "irtorch/evaluator.py:598-673"]}
{"id": "C130", "title": "MAP scores are shrunk towards the mean of the prior", "statement": "Of scores by latent_scores with the least loss, the MAP score of a respondent is never farther from the mean of the prior (in units of the prior) than an ML score, and the answers are never more likely at the MAP score than at the ML score. For models without guessing the MAP score is strictly closer, unless the ML score is the mean of the prior. A prior tighter by a common factor brings the scores no farther out. With one latent variable and no guessing the MAP score lies between the mean of the prior and the ML score. A respondent without answers gets exactly the mean of the prior.", "quantifier": "every library model, parameters, number of latent variables, legal data with any missing pattern, prior covariance, least-loss scores", "why_tests_cant": "the claim compares optima over all of R^n for all data; tests compare outputs of an optimizer for a few respondents", "anchors": ["irtorch/models/base_irt_model.py:764-860", "irtorch/models/base_irt_model.py:623-640"]}
{"id": "C131", "title": "Heatmap of item and latent variable relationships", "statement": "Without relationships, plot.item_latent_variable_relationships shows in the row of an item and the column of a latent variable the mean, over the scores given or else the training scores, of the derivative of the item's expected share of its maximum score. For the two and three parameter logistic, graded response and generalized partial credit models a row is the item's slopes times one positive number, at most 1/4 (times 1 - guessing; times the maximum score for partial credit), so that colours have the signs and proportions of the slopes. Relationships given are shown as they are. Without any scores the call is refused with a ValueError, and the figure is tall enough for its items.", "quantifier": "every model, parameters, scores, number of items and latent variables", "why_tests_cant": "derivatives and their averages for all parameters and scores; tests only check that a figure is returned", "anchors": ["irtorch/plotter.py:439-503", "irtorch/models/base_irt_model.py:294-358"]}
{"id": "C132", "title": "Information is the variance of the score and limits every score", "statement": "For every model whose probabilities are positive and differentiable, information(theta) of a respondent is the covariance, over the answers the model predicts for them, of the derivatives of the log-likelihood, which average to zero; the test's information is the sum of the items'. Whatever score is computed from the answers, the squared rate at which its mean changes with a latent variable is at most its variance times the information of the answered items (Cramer-Rao). So the standard error latent_scores reports is a lower limit for the standard deviation of every score whose mean moves one for one with the latent variable, with several latent variables the inverse of the information matrix limits scores which move with one of them only, and where log-odds are linear (two parameter logistic, partial credit, nominal) the weighted sum score divided by the information reaches it. The standard error of a respondent with missing answers is based on the items they answered.", "quantifier": "every model, parameters, numbers of items, categories and latent variables, scores, respondents' answered items and score functions", "why_tests_cant": "a statement about every possible score function and all answer patterns; simulations only show single scores", "anchors": ["irtorch/models/base_irt_model.py:392-465", "irtorch/models/base_irt_model.py:600-647", "irtorch/models/base_irt_model.py:221-264"]}
{"id": "C133", "title": "EAP scores are the best predictions of the latent variables", "statement": "In a population whose latent variables are distributed over the grid in proportion to the prior density and which answers according to the model, EAP scores have the smallest mean squared error of all functions of the answers, and only they have it; on average they equal the latent variable, their errors are unrelated to anything computed from the answers, their variance is that of the latent variable less the mean squared error, and answers to more items never increase the error. A respondent without answers gets the mean of the training scores, the population the prior stands for.", "quantifier": "every library model, parameters, training scores, grid size up to four latent variables, answered items, and every other function of the answers", "why_tests_cant": "quantifies over all scoring functions and all answer patterns; simulations compare a few scoring rules", "anchors": ["irtorch/models/base_irt_model.py:860-935"]}
{"id": "C134", "title": "Tests of local independence hold their level", "statement": "If complete answers come from the model at the scores used, then q3 and mutual_information_difference with sample_hypothesis_test=True report a p-value of at most a for a given pair of items with probability at most a. (True up to an excess of at most (2 - a) / (samples + 1) for Q3, (1 - a) / (samples + 1) for AMID, plus the probability that a simulated statistic ties with the observed one. Not exactly true: p-values of 0 occur with probability at least 1 / (samples + 1) in every model, and a Q3 that is NaN, for instance because all respondents have the same scores and the same answer, gets p-value 0.)", "quantifier": "every model, scores, answer key, pair of items, number of samples and level a", "why_tests_cant": "a statement about the joint distribution of the data and all simulated data sets; a simulation study estimates it for one model and level", "anchors": ["irtorch/evaluator.py:758-778", "irtorch/evaluator.py:874-920", "irtorch/models/base_irt_model.py:489-505"]}
{"id": "C135", "title": "Merging neighbouring answers of graded response items", "statement": "In the graded response model, merging neighbouring answers of items needs no new model: with the slopes and the intercepts of the boundaries that remain, the predicted probabilities of the merged answers are the totals of those merged, the predicted distribution of whole rows of answers (with any items left out) is that of the merged rows, and with ordered intercepts the information reported for items and test is at most that before merging, in every direction of the latent space, and less whenever an item with merged answers is affected by that direction. (This is special to graded responses: merging the first two of three partial credit answers gives an item no partial credit model describes.)", "quantifier": "every graded response model, way of merging, scores and direction", "why_tests_cant": "an equality of distributions over all rows of answers and an inequality of matrices, for all parameter values", "anchors": ["irtorch/models/graded_response.py:119-165", "irtorch/models/base_irt_model.py:392-464"]}
{"id": "C136", "title": "Names and colours of the categories in figures", "statement": "In the figures of item_probabilities every category has its own line or surface, in order, named by its number, with exactly its probabilities; its colour is that of its number in the default palette, taken in turn, whichever figures were drawn before, and group fit marks have the colour of their category; in grayscale the colours run from light gray to black and differ between the categories (true up to 177 of them). Drawing a figure leaves the palette and hence later figures as they were, items of any number of categories can be drawn in grayscale, and an option has the same number in all figures. (The last three are not true: surfaces of items with more categories than colours lengthen plotly's own palette in place, though the colours of later figures stay the same; grayscale needs two categories; options are counted from 1 in curves and from 0 in surfaces.)", "quantifier": "every palette, sequence of earlier figures, number of categories and set of points", "why_tests_cant": "state shared by all figures of a session, over any sequence of calls; palettes repeated for any number of categories", "anchors": ["irtorch/plotter.py:1078-1117", "irtorch/plotter.py:1171-1203", "irtorch/plotter.py:1310-1333", "irtorch/plotter.py:1400-1409"]}
{"id": "C137", "title": "Abler respondents do better on every score, and answers of a population are associated", "statement": "One latent variable and positive slopes, in every model but the nominal one, whatever items are answered. Of two respondents the abler one has a mean at least as large on every score that better answers never lower, and reaches every limit of it with a probability at least as large; strictly larger when the score varies, or the limit separates two answers. So sum_score_probabilities moves up when the quadrature points do: no sum score gets harder to reach, and each from 1 to the maximum easier if a point with positive weight moved. So do EAP scores (strictly in the mean if an item with two categories is answered), and ML and MAP scores. In every population two such scores, for example the scores on two items, are positively correlated, strictly if both vary and the population has two levels. With a negative slope this fails.", "quantifier": "every model, set of answered items, score, pair of latent variables, population and set of quadrature points", "why_tests_cant": "statement about all scores and all answers at once; by induction over the items from the order of likelihood ratios", "anchors": ["irtorch/evaluator.py:823-839", "irtorch/_internal_utils.py:150-190", "irtorch/models/base_irt_model.py:838-933", "irtorch/models/graded_response.py:136-171", "irtorch/models/three_parameter_logistic.py:112-150"]}
{"id": "C138", "title": "The density figure of two latent variables is the histogram of the respondents", "statement": "plot_latent_score_distribution with two latent variables and n bins returns an n by n contour figure. The bins of each axis have the same width and cover exactly the values of the respondents (length one around the value if all are the same). Each respondent is in exactly one cell. The height over a pair of axis values is a density: times the area of the cell around it, it is the share of the respondents there; no height is negative and the volume is 1. The figure does not depend on the order of the respondents, exchanging the latent variables exchanges the axes, and in other units the axes follow while the density is divided by the factor. Without a number of bins, Sturges' rule is used as documented (log2 of the number of respondents, rounded up, plus one).", "quantifier": "every non-empty list of scores, number of bins and change of units", "why_tests_cant": "tests look at the type of the figure; which cell each of arbitrarily many respondents falls in, and whether z is transposed the right way, is not visible there", "anchors": ["irtorch/plotter.py:1250-1265", "irtorch/plotter.py:1285-1308"]}
{"id": "C139", "title": "Beyond the weighted sum score answers say nothing about the latent variables", "statement": "In the 1PL, 2PL, generalized partial credit and nominal models: among respondents who answered the same items and have the same slope-weighted sum scores, the mean of anything computed from the answers is the same in every population. The difference of the marginal loss between two quadrature rules, and of the joint loss between two sets of scores, is the same for any two data sets with the same answered items and weighted sum scores. With one common slope a the probabilities of sum scores computed by the library compare respondents independently of the items: the odds of two sum scores differ between two respondents by the factor exp(a times the difference of the scores times the difference of the latent variables). In the 1PL model, how much likelier it is that item i is right and item j wrong than the opposite is exp of the difference of their intercepts for every respondent; in the 2PL model it is the same for two respondents only if the slopes are, in the 3PL model with equal slopes and guessing levels only if the intercepts are.", "quantifier": "every model of these kinds, pattern of answered items, population, quadrature rule, data set and pair of respondents", "why_tests_cant": "relates losses and probabilities for all populations and all answers; finitely many data sets cannot separate 'free of theta' from 'nearly so'", "anchors": ["irtorch/models/one_parameter_logistic.py:70-89", "irtorch/models/two_parameter_logistic.py:90-114", "irtorch/models/three_parameter_logistic.py:87-129", "irtorch/estimation_algorithms/mml.py:303-316", "irtorch/estimation_algorithms/jml.py:157-158", "irtorch/_internal_utils.py:150-190"]}
{"id": "C140", "title": "The direction in which items are scored does not matter", "statement": "Number the answers to any of the items from the other end (k becomes K-1-k; missing answers stay missing). In the 2PL, generalized partial credit, graded response and nominal models there are parameters of the same model, with the opposite slopes for those items, under which every answer has the same probability as before, and with them the marginal loss, the joint loss and the EAP scores of all respondents are unchanged. So whatever loss can be attained with one direction of scoring can be attained with the other. In the 1PL model this holds for all items together with the opposite latent variable. It holds for no single item of a 1PL model, and for no item of a 3PL model with a nonzero slope, because of the guessing level.", "quantifier": "every model of these kinds, set of items, data set with missing answers, quadrature rule, scores, population state of the algorithm, loss value", "why_tests_cant": "relates the losses and scores of two models on two data sets for all parameters; finitely many fits cannot establish it", "anchors": ["irtorch/models/two_parameter_logistic.py:90-114", "irtorch/models/generalized_partial_credit.py:102-131", "irtorch/models/graded_response.py:119-165", "irtorch/models/nominal_response.py:105-141", "irtorch/models/one_parameter_logistic.py:70-89", "irtorch/models/three_parameter_logistic.py:87-129", "irtorch/estimation_algorithms/mml.py:303-316", "irtorch/estimation_algorithms/jml.py:157-158", "irtorch/models/base_irt_model.py:860-936"]}
{"id": "C141", "title": "A model built from data fits the data", "statement": "Give a constructor data instead of numbers of categories or items. The generalized partial credit, graded response and nominal models take for each item one category more than its largest answer, so every answer of every respondent has positive probability whatever the parameters, no item has a category beyond its largest answer, the number of intercepts matches, and the model is exactly the one built from these numbers of categories; explicit categories win over data. The 1PL, 2PL and 3PL models take an item per column, and refuse answers other than 0 and 1. Missing answers, NaN or -1 as documented, do not matter, even if nobody answered an item. Neither argument given: ValueError.", "quantifier": "every data set, number of latent variables, item-trait relationships, parameter values and latent scores", "why_tests_cant": "all data sets including degenerate columns; consequences for every later forward pass", "anchors": ["irtorch/models/generalized_partial_credit.py: __init__, forward", "irtorch/models/graded_response.py: __init__, forward", "irtorch/models/nominal_response.py: __init__", "irtorch/models/one_parameter_logistic.py: __init__", "irtorch/models/two_parameter_logistic.py: __init__", "irtorch/models/three_parameter_logistic.py: __init__", "irtorch/models/base_irt_model.py: log_likelihood"]}
{"id": "C142", "title": "A missing answer counts as the average over the possible answers", "statement": "Take a respondent with missing answers (NaN or -1) and fill in any of them in all possible ways. The respondent's probability, exp(-loss), under the marginal loss and under the joint loss at given latent scores is the sum of the probabilities of the filled-in respondents. The EAP scores are the average of the EAP scores of the filled-in respondents, with positive weights summing to one, the same for all latent variables, namely how probable model and population find the filled-in answers given the others; so the scores lie between the lowest and the highest of them.", "quantifier": "every parametric model, parameter values, respondent, choice of missing answers to fill in, quadrature rule and grid, fitted or not", "why_tests_cant": "all models, response patterns, missingness patterns and grids; a relation between exponentially many scorings", "anchors": ["irtorch/estimation_algorithms/mml.py: _train_step", "irtorch/estimation_algorithms/jml.py: _training_loop", "irtorch/models/base_irt_model.py: log_likelihood, _eap_theta_scores"]}
{"id": "C143", "title": "A short form scores like the whole test with the other items missing", "statement": "Take some of a model's items, in any order, into a smaller model with the parameters they have. The items keep their probabilities, and for respondents whose answers to the other items are missing (NaN or -1) the marginal loss, the joint loss, the loss minimised for ML and MAP scores and the EAP scores of the smaller model are exactly those of the whole model. If a test is divided into two forms, the joint loss at given latent scores is the sum of the losses of the forms.", "quantifier": "every parametric model, parameter values, selection and order of items, data with missing answers, quadrature rule, prior and grid, fitted or not", "why_tests_cant": "all models, selections of items and data; parameters are stored in one vector whose layout depends on the items", "anchors": ["irtorch/models/base_irt_model.py: log_likelihood, _ml_map_theta_scores, _eap_theta_scores", "irtorch/estimation_algorithms/mml.py: _train_step", "irtorch/estimation_algorithms/jml.py: _training_loop", "irtorch/models/two_parameter_logistic.py: forward", "irtorch/models/generalized_partial_credit.py: forward", "irtorch/models/graded_response.py: forward", "irtorch/models/nominal_response.py: forward"]}
{"id": "C144", "title": "Monotone models are estimated and scored by the probabilities they report", "statement": "For a MonotoneNN (with or without a multiple-choice key) and a MonotonePolynomial, whatever the values of their parameters, item_probabilities reports a positive distribution over the categories of every item, and those reported probabilities decide everything else: the loss of marginal maximum likelihood is minus the sum over respondents of the logarithm of the quadrature sum of weight times likelihood, the loss of joint maximum likelihood and the loss minimised for ML and MAP scores are minus the log-likelihood (plus log prior), and EAP scores after a fit are posterior means over the documented grid. Missing answers count as one.", "quantifier": "every item layout, number of latent variables, hidden layers, degree, relationship matrix, key, parameter values; all data with missing answers, quadrature rules, priors and grids", "why_tests_cant": "all parameter values and data; tests fit such models and check shapes only", "anchors": ["irtorch/models/monotone_nn.py: forward", "irtorch/models/monotone_polynomial.py: forward", "irtorch/models/base_irt_model.py: item_probabilities, log_likelihood, _ml_map_theta_scores, _eap_theta_scores", "irtorch/estimation_algorithms/mml.py: _train_step", "irtorch/estimation_algorithms/jml.py: _training_loop"]}
{"id": "C145", "title": "Spline models are estimated and scored by the probabilities they report", "statement": "A MonotoneBSpline and a SurprisalSpline whose items are each related to some latent variable report a positive distribution over the categories of every item, whatever the values of their parameters. The marginal loss, the joint loss, the loss minimised for ML and MAP scores and the EAP scores after a fit are those of the reported probabilities, with missing answers counting as one, although one model goes through logits in three dimensions and the base class and the other through its own log-likelihood of a table of probabilities.", "quantifier": "every item layout, number of latent variables (one for separate categories), knots in order, degree, parameter values; all data that are not empty, with missing answers; all quadrature rules, priors and grids", "why_tests_cant": "all parameter values, knots and data; tests use mocks of the splines and check shapes", "anchors": ["irtorch/models/monotone_b_spline.py: forward, probabilities_from_output", "irtorch/models/surprisal_spline.py: forward, log_likelihood, probabilities_from_output", "irtorch/models/base_irt_model.py: item_probabilities, log_likelihood, _ml_map_theta_scores, _eap_theta_scores", "irtorch/estimation_algorithms/mml.py: _train_step", "irtorch/estimation_algorithms/jml.py: _training_loop"]}
{"id": "C146", "title": "NestedLogit is estimated and scored by the probabilities it reports", "statement": "For a NestedLogit the probability of the keyed category is the right-answer model's probability of a right answer, and among those who answer wrongly each other category is chosen with the probability the model for wrong answers gives it. Together they are a positive distribution over the categories of every item. The marginal loss, the joint loss, the loss minimised for ML and MAP scores and the EAP scores after a fit are those of these probabilities, with missing answers counting as one.", "quantifier": "every item layout with at least two categories, every key, any model for right answers that reports probabilities, nominal or spline models for wrong answers with any parameter values; all data that are not empty, with missing answers; all quadrature rules, priors and grids", "why_tests_cant": "all keys, layouts, parts and data; tests check shapes and sums for one small layout", "anchors": ["irtorch/models/nested_logit.py: forward, probabilities_from_output, log_likelihood", "irtorch/models/base_irt_model.py: item_probabilities, _ml_map_theta_scores, _eap_theta_scores", "irtorch/estimation_algorithms/mml.py: _train_step", "irtorch/estimation_algorithms/jml.py: _training_loop"]}
{"id": "C147", "title": "Losses of marginal and joint estimation compare as likelihoods do", "statement": "For every model in the library, with the same item parameters: making answers missing never raises the marginal or the joint loss. The joint loss is never negative, and the marginal loss is never below minus the number of respondents times the log of the summed quadrature weights (zero for weights that sum to one). The marginal loss is at most the joint loss at any choice of quadrature points plus minus the log of their weights, and for some choice the joint loss is at most the marginal loss plus the number of respondents times the log of the summed weights, so joint estimation reaches at least the likelihood that marginal estimation reports.", "quantifier": "every parametric model, and every network, polynomial, spline and nested model with the conclusions of C144-C146; all data that are not empty, with missing answers; all positive quadrature weights; all choices of points and latent scores", "why_tests_cant": "inequalities over all parameter values, data and rules; tests check that a loss is a number", "anchors": ["irtorch/estimation_algorithms/mml.py: _train_step", "irtorch/estimation_algorithms/jml.py: _training_loop", "irtorch/models/base_irt_model.py: log_likelihood"]}
{"id": "C148", "title": "Respondents contribute separately to estimation and scoring in every model", "statement": "For every model in the library the marginal loss, the joint loss and the loss minimised for MAP scores of a data set are the sums of the losses of any two parts it is split into. After a fit a respondent's EAP scores are the same whoever else is scored in the same call, and they leave the range of the latent scores stored by the fit by at most a quarter of its width. Before any fit the same holds, and the scores lie between -3 and 3.", "quantifier": "every parametric model, and every network, polynomial, spline and nested model with the conclusions of C144-C146; all data and splits that are not empty, with missing answers; all rules, priors, latent scores, numbers of grid points", "why_tests_cant": "all models, parameter values and data; tests score one small batch", "anchors": ["irtorch/models/base_irt_model.py: _eap_theta_scores, _ml_map_theta_scores, latent_scores", "irtorch/estimation_algorithms/mml.py: _train_step", "irtorch/estimation_algorithms/jml.py: _training_loop"]}
{"id": "C149", "title": "A mix is estimated jointly and scored by the probabilities of all its parts", "statement": "For a model mix whose parts are 1PL, 2PL, GPC, GRM, nominal, monotone network, polynomial or B-spline models, in any number and order, the loss of joint estimation and the losses minimised for maximum likelihood and MAP scores are minus the log-likelihoods of the observed answers, with the prior, when every item has the probabilities its part reports. The loss of joint estimation is the sum of the losses of the parts on their own items.", "quantifier": "all lists of parts that are not empty with one number of latent variables, all values of their parameters; all data with missing answers; all latent scores and priors", "why_tests_cant": "all combinations of parts, parameters and data; tests build one mix", "anchors": ["irtorch/models/model_mix.py: forward, log_likelihood", "irtorch/estimation_algorithms/jml.py: _training_loop", "irtorch/models/base_irt_model.py: _ml_map_theta_scores"]}
{"id": "C150", "title": "Models of different classes can be compared by their losses", "statement": "Answers are generated by a model with given latent scores, or with scores distributed as the quadrature rule says. On average over all possible tables of answers, no model of any class for the same items, with any latent scores or any rule of the same total weight, has a lower joint or marginal loss than the generating one, and only a model that gives the observed answers the same probabilities has as low a one. Parametric, network, polynomial, spline and nested models can be compared so, and in joint estimation mixes as well.", "quantifier": "all pairs of models of the same or different classes, with the same or different numbers of latent variables; all parameters, latent scores, quadrature rules; any number of respondents and items, any pattern of missing answers", "why_tests_cant": "an average over all possible answers of all pairs of models; tests compare losses on one data set", "anchors": ["irtorch/estimation_algorithms/mml.py: _train_step", "irtorch/estimation_algorithms/jml.py: _training_loop", "irtorch/models/base_irt_model.py: log_likelihood", "irtorch/models/monotone_nn.py: forward", "irtorch/models/model_mix.py: log_likelihood"]}
{"id": "C151", "title": "With more respondents the right model wins against models of any class", "statement": "Respondents are drawn independently, with scores distributed as the quadrature rule says and answers from a model of any class. As their number grows, the probability tends to one that every model of any class for the same items that has no higher marginal loss than the true model gives every possible row of answers nearly its true probability; and a given model that gives some row another probability has a higher loss than the true one with a probability tending to one. The lower marginal loss so tells which of two models, for example a parametric one and a monotone network, generated the answers.", "quantifier": "all models that are parametric, monotone, spline or nested; all parameters, rules and patterns of missing items; all accuracies and probabilities; all sufficiently large numbers of respondents", "why_tests_cant": "a limit over numbers of respondents of the probabilities of all tables of answers; tests fit one data set", "anchors": ["irtorch/estimation_algorithms/mml.py: _train_step", "irtorch/models/base_irt_model.py: log_likelihood", "irtorch/models/monotone_nn.py: forward"]}
{"id": "C152", "title": "EAP scores of models of any class are the best predictions of the latent variables", "statement": "For parametric, network, polynomial, spline and nested models, fitted or not, EAP scores have the smallest mean squared error among all functions of the answers, in a population distributed over the integration grid in proportion to the normal density and answering as the model says, and no other function has as small a one. They are right on average, their errors are unrelated to anything computed from the answers, and answers to more items never increase the error.", "quantifier": "all models of these classes with up to four latent variables, all parameters, training scores, numbers of points, patterns of missing answers; all competing score functions", "why_tests_cant": "a minimum over all functions of all possible answers, averaged over a population; tests compare single scores with single values", "anchors": ["irtorch/models/base_irt_model.py: _eap_theta_scores, latent_scores", "irtorch/models/monotone_nn.py: forward"]}
{"id": "C153", "title": "In tests of monotone models abler respondents do no worse on any score", "statement": "For a MonotoneBSpline model made by the constructor (with separate splines for items or one latent variable, the forms that can be evaluated), or a MonotoneNN model without a key of correct answers or a MonotonePolynomial model in which no item has a negative relationship to that latent variable, with any values of the parameters, raising one latent variable never lowers the average of any score that better answers never lower, nor the probability that the score reaches any given level, whichever items are answered. The answers are distributed as the model's item probabilities say.", "quantifier": "all numbers of items, categories and latent variables, all weights, biases, knots in order, degrees, patterns of answered items, scores that never fall with better answers, levels, and pairs of respondents who differ in one latent variable", "why_tests_cant": "an inequality between averages over all possible answers to all items, for every monotone score; tests compare the curves of single items at single points", "anchors": ["irtorch/models/monotone_b_spline.py: forward", "irtorch/models/monotone_nn.py: forward", "irtorch/models/monotone_polynomial.py: forward", "irtorch/models/base_irt_model.py: item_probabilities"]}
