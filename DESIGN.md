# Formal model of irtorch: design

## What is being modelled and how

The model is a shallow embedding in Gallina of the Python functions listed below, written
branch by branch, with exceptions as values (`Ok v | Err kind`).  Conventions:

* A response cell is `option Z` (`None` = NaN); `-1` stays the integer `-1`, since the code
  treats the two codings differently in places.
* Tensors are lists (row-major; a respondents x items matrix is a list of rows).  `view`,
  `reshape`, `chunk`, `split`, `repeat_interleave`, `repeat`, `cumsum`, `scatter` are the list
  functions with the same index behaviour (`theories/Base.v`).
* Floating-point numbers are idealised as mathematical reals (Coq `Reals`), extended with
  explicit `-inf`, `+inf`, `NaN` where the code produces or tests them.  Rounding and overflow
  are not modelled.
* Random draws, optimiser steps, fitting procedures, matrix inverses are universally quantified
  function arguments (oracles), so theorems hold for all of them, or for all that meet the
  stated specification (an inverse is an inverse, autograd returns the derivative).
* Mutation of a caller's tensor is modelled by returning the caller's tensor after the call.

File layout in `rocq/theories`: `Base.v`, `BaseFacts.v` (torch list operations and their
lemmas), `RBase.v`, `RFacts.v` (extended reals, sums), `M_*.v` (models, definitions only; every
definition cites file and lines in /repo), `S_*.v` or the head of a `T_*` file (specifications
written without the model's helpers), `P_*.v` (proofs), `T_*.v` (property theorems,
`Print Assumptions`, and a non-vacuity `Example` beside them).

A property the code does not have is stated as the user relies on it, refuted by
`..._refuted` with a witness (or for all inputs of a class), and the part which does hold is
proved.  Such properties have status `partial` in MANIFEST.json, whose notes name the finding.

## Per property

| Id | Modelled | Proof |
|----|----------|-------|
| C01 | `one_hot_encode_test_data` incl. error branches | induction over items: block offsets; decode o encode = id |
| C02 | `get_missing_mask` | pointwise characterisation |
| C03 | `impute_missing_internal`, random draws an oracle | case analysis per method, pointwise |
| C04 | mutation effects of `one_hot_encode_test_data`, `PytorchIRTDataset.__init__` | characterise when the caller's matrix is unchanged; refuted in general |
| C05 | `get_item_categories` and the constructors' inference | maximum lemma; refuted for rows with NaN |
| C06 | `impute_missing` | exhaustive case analysis; refuted with a model |
| C07 | `random_guessing_data` (probability table) | list arithmetic over R; refuted for defaults / binary key 0 |
| C08 | `split_data` | permutation lemma |
| C09, C10 | `torch.chunk`, fold construction | partition by induction on chunks; count refuted |
| C11, C68 | `_create_param_grid`, reported values | induction over grid |
| C12 | `_cv_param_combination` with fit as an oracle that records its data | trace invariant; refuted |
| C13 | softmax over padded logits, forward of 1PL/2PL/GPC/NRM | real analysis on finite sums |
| C14-C19 | forward passes, item_parameters, constructors of the parametric models | closed forms, monotonicity from exp/ratio lemmas |
| C20 | nested logit: index map, scatter, scatter_add | bijection of index map; sums |
| C21 | product form of surprisal probabilities | telescoping by induction |
| C22 | BoundedELU forward/backward | derivability (`derivable_pt_lim`) |
| C23 | SoftplusLinear, split activation, stacked layers, MonotoneNN | induction over depth |
| C24 | MonotonePolynomial: coefficient recursion, forward and getter | polynomial derivative is a product of squares + softplus; getter refuted |
| C25 | `expected_scores` | weighted averages; likelihood-ratio ordering |
| C26 | `log_likelihood` of all classes: flattening and masks | index lemmas |
| C27-C29 | ModelMix concatenation, padding, splitting | induction over sub-models; refutations for layout and widths |
| C30 | MML `_train_step` layout | index lemmas for repeat / repeat_interleave / view |
| C31 | `gauss_hermite` product grid | induction over dimensions |
| C32, C33 | initial theta / EAP layout | index lemmas; convex combination |
| C34 | attribute state of algorithms | case analysis; refuted |
| C35 | VAE loss: KL, annealing, importance weights | real inequalities |
| C36, C37 | scale chain | induction over the list; refuted for two non-commuting scales |
| C38 | reverse, rotate | matrix algebra on lists |
| C39 | link scale | algebra; refuted when inverted |
| C40, C41 | rational-quadratic spline, flow | real algebra, derivative; refuted outside the interval |
| C42, C73 | bit scale: transform, transform_to_1D, jacobian | total variation over sorted grids; refuted for batches / item subsets |
| C43, C74 | interp, quantile transform, quantile normal density | sorted-list induction |
| C44 | rank scale | counting lemmas |
| C45 | outlier detector: setter history; fences | invariant over histories; order lemmas |
| C46 | convolution recursion | induction over items against enumeration of response patterns |
| C47, C48 | `sum_incorrect_probabilities`, `sum_score` | induction |
| C49, C72 | entropy, joint entropies, mutual information | real inequalities; refuted with missing data |
| C50 | both correlation paths | Cauchy-Schwarz; missing-data path refuted |
| C51 | information | quadratic forms |
| C52, C71 | Newton iteration of imv with clamp | induction over iterations; tangent lines |
| C53-C57, C75-C78 | evaluator statistics | counting, sorting, grouping lemmas; refutations |
| C58, C81 | Gaussian mixture: E-step / M-step / fit | invariant; EM ascent by Jensen and optimality of the weighted estimates |
| C59, C60, C82, C83 | training loops with oracle losses and optimiser | invariant by induction over iterations; C60 refuted |
| C61 | effect trace of `_run_multiprocessing` | case analysis over all outcomes |
| C62 | encoders: construction of layer lists, forward | induction over hidden sizes; refuted for two encoders |
| C63 | constructor check of the key | characterisation; off by one refuted |
| C64 | save/load on named tensors | round trip; refused files |
| C65 | flag state machine with failing steps | all exit paths; refuted for frozen parameters |
| C66, C85, C87 | `latent_scores`: arguments, encoder input, caller's data, standard errors | case analysis; rounding lemma; matrix algebra |
| C67 | fit histories | induction over histories; correspondence refuted |
| C69, C70 | rescaled gradients; derivatives of linking and flow scales | chain rule; neural network case refuted |
| C79, C80 | choice of mixture components, latent densities, integration weights | invariant over call histories |
| C84, C86 | spline models with their kept basis (Cox-de Boor basis) | induction over degree; histories of fits; positivity and partition of unity |
| C88 | reported directions of all model classes, `linear_regression` | signs of derivatives of the expected score; least squares |
| C89 | `sample_test_data` | the race stays inside the support |
| C90 | population difficulty / discrimination, score gradients | derivatives of finite sums |
| C91 | VAE intervals and posterior samples | odd increasing quantile function |
| C92 | grids and points of curves, surfaces, scale plots | the grid is the map of one row function; trimming of equal lowest scores |
| C93 | defaults and refusals of figures | order statistics of the stored scores; four refutations |
| C94 | information figures, sums over items | as C92; refuted with scales in several dimensions |
| C95 | log-likelihood figures | from C77; refuted with missing answers |
| C96 | history and distribution figures | characterisation |
| C97 | gradients and Fisher information of the item models | derivatives; closed forms; change of variables |
| C98 | linking by common items: the criterion | entropy inequality (divergence bounds Hellinger distance); flattening of tensors |
| C99 | datasets: keys, scoring, preprocessing, cache | list functions; invariants of filters; histories of calls |
| C100 | gradients of splines, B-spline information | calculus on the basis recursion (induction on the degree, mean value theorem at knots) |
| C101 | models contain one another | equality of whole probability tables via the documented formulas; construction of the nested parameters |
| C102 | probabilities determine item parameters | evaluation at zero and unit scores, log ratios, three points of an exponential for the guessing parameter |
| C103 | start of the bit scale from guessing | distributions through the selection, order statistics of the sorted scores for the median, shapes for the refutations |
| C104 | scores by ML and MAP | log-probabilities below their tangent planes (Jensen for the softmax), sums of such functions, completed squares for the prior, an interior minimum for the refutation |
| C105 | existence of ML and MAP scores | uniformly continuous functions on boxes attain their maximum (induction on the dimension), growth of homogeneous functions from their minimum on the boundary, monotone likelihoods along lines |
| C106 | sufficient statistics and order of scores | likelihood ratios by induction over the row, total positivity of the graded and softmax categories, covariance inequality for tilted means |
| C107 | equations of ML and MAP scores | derivative of the log-likelihood as observed minus expected weighted sum, tangent planes of a log-concave function |
| C108 | equations of fitted item parameters | logits linear in the parameters, the gradient and tangent argument of C107 with the roles of scores and parameters exchanged, directions that move one category or one slope |
| C109 | mass of the flow's density | antiderivatives glued at the bounds; the spline with unit tails has the reported derivative everywhere |
| C110 | symmetries of estimation | permutation of sums and products; stored parameters of the reordered and the rescaled model; the default grid is symmetric |
| C111 | fitting several models at once | run of the pool over a heap of models and algorithms; addresses of returned objects; chunk sizes |
| C112 | splines of several variables | `splines_forward` on matrices against one spline per variable; masks, NaN cells, columns; points and knots of the figure |
| C113 | integration rules of marginal maximum likelihood | `gauss_hermite` and `mml_rule` against expectations of polynomials under any linear functional with the moments of independent standard normal variables, factored covariance, positive definiteness; `mml_loss` at the rule |
| C114 | parameters that start alike | fitted parameters of `mml_fit_parameters`, any oracle returning the partial derivatives of the loss; equal slopes, equal items; invariance of the loss under exchanging positions of the parameter list |
| C115 | hidden units of MonotoneNN | parameter list of a constructed network (`net_parameters`, `with_net`), values of the hidden units, outputs of `mnn_forward1` after any of the three training loops with any loss of the outputs; existence of a small network with the same outputs |
| C116 | VAE loss as a bound | `vae_batch` with the full divergence, averaged over independent noise rows by any positive normalised linear functional; average importance weight; marginal likelihood as an integral over the line (one latent variable) |
| C117 | annealing and the state kept | `vae_batch` at different iterations; `ae_train` on the losses of `vae_batch` with default interval and annealing |
| C118 | bit scores as an integral | `bit_scores`, `bit_transform`, the integral as an antiderivative (`area`) of the summed absolute derivatives |
| C119 | existence of best item parameters | concave cells bounded by a homogeneous pull, maximum by induction on the number of parameters (`attained`); families of `S_Item`, 1PL scores and intercepts together, one 2PL counterexample |
| C120 | estimation aims at the truth | average over all tables of answers = sum over respondents (`average_additive`), Gibbs' inequality; every model of `library_model` against every other; 1PL with two items for the bias of joint estimation |
| C121 | consistency of marginal maximum likelihood | Chebyshev over all tables (`near_chance`), relative entropy above squared distance of roots and below chi-square (`fit_near`); probability stated by a set of tables whose probabilities add up to more than 1 - delta (`eventually`) |
| C122 | scores approach the truth with more items | Chebyshev for the slope-weighted sum score over all rows (`item_moments`, `item_chance`), concavity of the log-likelihood (`concave_peak`, `fall_right`), a uniform rise of the logistic curve on bounded ranges (`logistic_rise`); EAP by the decay of the weights of grid points beyond the two around the truth (`grid_between`) |
| C123 | log-likelihoods finite in single precision | the format as a set of reals, rounding any nearest-choosing function (`nearest_one`, `nearest_error`); the sigmoid rounds to 1 from 18 on (`sigmoid_one`); error analysis of the shifted log-softmax (`row_close`); refuted for graded response and 3PL |
| C124 | long tests do not underflow | EAP and MML with the exponential a parameter that may err and underflow; 0/0 when everything underflows (`eap_nan`), pairs of items bound the likelihood by 4^-k (`pairs_likelihood`), error of a ratio of perturbed sums (`means_close`), log-sum-exp keeps a term 1 (`log_sums_close`); refuted for EAP |
| C125 | bit scores are free of the scale of theta | increasing affine maps commute with sorting, unique values, quartiles, fences, medians and grids (P_BitPop1), a change of unit and direction is such a map of the adjusted scores (`turned_adjust`), entropies at corresponding points agree (`turned_ent`); permutations leave sorted columns alone; two refutations on worked grids |
| C126 | mutual information differences | both matrices as squares (`mid_square`), bounds of C72, entropies as sums over the grid of answers (`observed_grid`, `implied_margins`), the entropy of a product law is the sum (`independent_information`); refutation with two opposite dependences |
| C127 | imv's weights solve the coin equation | convexity (tangents): a Newton step from the right of the root divides height times slope by at least four (`quarter`), a short last step means a small residual (`short_step`), invariant over the joint loop (`loop_accurate`); below the fair coin the weight is the lower end (`newton_low`) |
| C128 | reported Jacobian of the bit scale is the rate of change of the scores | splitting of sorted grids at a score, C118, mean value theorem; refuted below the start |
| C129 | infit, outfit, residuals, accuracy, group residuals of a right model, on average over all tables of answers | marginal of one cell and product of two rows in the sum over all tables, on top of C53, C54, C76 and C78; refuted for groups with missing answers |
| C130 | MAP and ML scores compared | the two objectives evaluated at each other's optimum; gradient of the prior against the stationary likelihood; tangent of the log-likelihood at the mean |
| C131 | heatmap, for each model class | derivative of the expected share factored as slope times a positive number; variance of a bounded score, summation by parts |
| C132 | information and standard errors against every score function of the answers | moments of sums over the items of all possible rows by induction on the items; weighted Cauchy-Schwarz; derivative of a mean over answers; refuted for respondents with missing answers |
| C133 | EAP scores against every function of the answers | sums over grid and possible rows exchanged, orthogonality of the errors, forgetting answers by induction on the items; refuted for a respondent without answers (prior centred at zero) |
| C134 | level of the simulated tests | averages over independent draws of whole tables, exchangeability (any draw may stand for the data), ranks of distinct values are distinct; refuted: p-values of 0 by the existence of an extreme, NaN statistics |
| C135 | merged answers of graded items | telescoping within groups of answers; pushing the distribution of rows forward item by item; (sum x)^2 / sum p <= sum x^2 / p within each group, strict since the ratios 1 - g_k - g_(k+1) increase |
| C136 | names and colours of categories | copies of a palette: every session leaves a palette that is a whole number of copies, so colour k is P[k mod length P]; gray levels strictly decrease iff n <= 177 (pigeonhole on levels) |
| C137 | stochastic order and association | induction over the items: monotone likelihood ratios give 2(E_y h - E_x h) as a sum of nonnegative products; equality forces a constant score; Harris' inequality with Chebyshev's sum inequality for one respondent and again for the population |
| C138 | histogram figure | number of edges not above a value determines its bin; each value has one bin; the range is determined by the values, which gives order, exchange and units; sums of indicator counts |
| C139 | sufficiency | exponential form: rows with equal weighted totals have proportional likelihoods; conditional means and loss differences follow; sum score distribution = gamma_s exp(a s z) L(z); odds for the boundaries |
| C140 | direction of scoring | explicit parameters for the answers numbered from the other end (sum-to-zero constraints of the nominal model, complementary cumulative probabilities of the graded one); likelihoods agree, losses and EAP follow; bounds of the 3PL curve and monotonicity of the 1PL for the impossibility |
| C141 | models built from data | the column maxima give the categories (specification of infer_categories); items without category behave in forward as items of one category, since the first-category mask is applied last; counting free intercepts against parameters for the refutations |
| C142 | missing answers as averages | induction over the items: the likelihood of a row is the sum of the likelihoods of its completions, since category probabilities sum to one; exchange of finite sums for the marginal likelihood and the posterior mean |
| C143 | short forms | explicit parameter vectors for a selection of items; likelihood of a row as a product over any permutation of the items, the missing ones contributing 1; losses and EAP follow |
| C144 | monotone models in estimation and scoring | any forward pass whose row is finite on the categories of an item and -inf elsewhere has softmax probabilities; the losses and EAP scores of C30, C33 and C104 then follow from the relation has_probabilities; the two models are instances |
| C145 | spline models in estimation and scoring | the forward passes refuse an empty batch, so each is compared with a model that agrees on all other batches; logits as in C144, tables of probabilities by the log-likelihood of C26 |
| C146 | NestedLogit in estimation and scoring | tables of the two parts taken as functions of the batch, combined item by item; the sum over categories is split at the keyed one; then as the surprisal splines of C145 |
| C147 | losses compared | likelihoods are products of probabilities at most one; a weighted sum lies between one of its terms and the sum of weights times its largest factor; logarithms are increasing |
| C148 | respondents contribute separately | sums over appended lists; the grid depends on the stored scores only; a weighted mean lies within the range of the grid |
| C149 | mixes in joint estimation and MAP scoring | splitting the joined output gives the parts their own; the likelihood of joined probabilities is the product over the parts |
| C150 | comparison of classes | the averages of C120 for any models that are estimated by the probabilities they report (`estimated_by`, `jointly_by`); direct statement for a network against every parametric model |
| C151 | choice between classes | law of large numbers of C121 with the losses of C150, for any models that are `estimated_by` probabilities; direct statement for a network against every parametric model |
| C152 | EAP scores of any class | orthogonality of C133 with likelihoods that are positive on the grid, for any model that is `estimated_by` probabilities; direct statement for networks |
| C153 | Scores in tests of monotone splines, networks and polynomials | the tails of every item are no lower (C86, C23, C24); summation by parts and induction over the items, for means of all rising scores and of their indicator functions |

## Code modelled, by model file

| Model file | Source (irtorch/...) |
|---|---|
| M_Data | `_internal_utils.py`: one_hot_encode_test_data, get_missing_mask, impute_missing_internal, sum_score; `irt_dataset.py`: `__init__`; `utils.py`: get_item_categories, impute_missing; inference of item categories in the constructors |
| M_CV | `utils.py`: split_data, cross_validation helpers, _run_multiprocessing, gauss_hermite |
| M_Logit | `models/`: one_, two_, three_parameter_logistic, generalized_partial_credit, graded_response, nominal_response (constructor, forward, probabilities, item_parameters); `base_irt_model.py`: probabilities_from_output, item_probabilities, expected_scores |
| M_Mono | `activation_functions.py`; `torch_modules/`: softplus_linear, negation_layer, monotone_polynomial; `models/`: monotone_nn, monotone_polynomial, surprisal_spline (probabilities), nested_logit (forward) |
| M_Lik | log_likelihood of every class; `models/model_mix.py` |
| M_Est | `estimation_algorithms/mml.py`: objective, quasi-MC grid; `vae.py`: loss, annealing; `base_irt_model.py`: _eap_theta_scores, _theta_grid, _initial_theta_from_training_data; `_internal_utils.py`: random_guessing_data |
| M_Train | training loops of jml, mml, ae/vae; `rescale/flow.py`, `rescale/link_common_items.py`: fit |
| M_Enc | `estimation_algorithms/encoders/*`, encoder construction in ae/vae |
| M_State | constructor checks, stored training data and scores, `_ml_map_theta_scores` flags |
| M_Score | `base_irt_model.py`: latent_scores |
| M_BSpl | monotone_b_spline, surprisal_spline and nested_logit with splines, kept bases in mml; save_model, load_model |
| M_Pop | item_theta_relationship_directions, linear_regression, sample_test_data, population_difficulty, population_discrimination, expected_item_score_gradients; VAE: sample_latent_variables, latent_credible_interval, latent_mean_se |
| M_Plot | plotter.py: _get_theta_grid_for_plotting, the points of item_entropy, item_probabilities, information, expected_sum_score, log_likelihood, scale_transformations, training_history, latent_score_distribution; not titles, colours, hover texts |
| M_Info | base_irt_model.py: probability_gradients, information as methods of a model with attached scales (chunking by torch.vmap not modelled: rows are independent) |
| M_Link | rescale/link_common_items.py: constructor, `_loss_function`, the loss of one batch (`fit` is in M_Train, the transformation in M_Scale) |
| M_Load | load_dataset.py except the plain torch.load of the two mathematics datasets and the list of question texts; files, downloads and interruptions are arguments |
| M_BGrad | torch_modules/b_spline.py backward; b_spline_basis_derivative of splinetorch by its defining recursion |
| M_Start | rescale/bit.py constructor (start only), set_start_theta, bit_score_starting_theta_mc; the type checks of items are left out |
| M_Opt | models/base_irt_model.py _ml_map_theta_scores: the loss and the stopping rule of the loop; torch.optim.LBFGS is an argument, the prior's covariance computation is left out |
| M_Jml | estimation_algorithms/jml.py _training_loop: the loss of one step; the loop and the saved state are in M_Train |
| M_Multi | utils.py fit_multiple_models_cpu, _fit_model with BaseIRTModel.fit, over a heap of model and algorithm objects; multiprocessing.Pool.starmap (chunk sizes, pickling of a chunk as a copy, order of failures) from its documentation and source; random numbers of the workers not modelled |
| M_SplineT | rational_quadratic_spline.py forward, _spline_transform, plot_spline for matrices with NaN (infinite inputs not modelled), the masks flattened row by row; flow.py 119-138: standardisation and the log-densities of one batch |
| M_Quad | utils.py 216-276 gauss_hermite (real numbers; numpy's one-dimensional rule a parameter; Cholesky as in M_Mix); mml.py 93-121: number of points, covariance and rule chosen by MML.fit |
| M_Adam | torch.optim.Adam with amsgrad=True (external; one list for all parameter tensors, elementwise update); mml.py 87-147 MML.fit and 238-283 as a function of the parameters (loss.backward() is an oracle returning the gradient) |
| M_Scale | `rescale/`: scale, reverse, rotate, flow, link_common_items (transform, inverse, jacobian); scale chain and _rescale_gradients of the base model |
| M_Spline | `torch_modules/rational_quadratic_spline.py`, `neural_spline_flow.py` |
| M_Grid | `latent_variable_functions.py`, `quantile_mv_normal.py`, `outlier_detector.py`, `rescale/rank_cdf.py`, `rescale/bit.py` |
| M_Stat | conditional_score_distribution, sum_incorrect_probabilities, entropy, joint_entropy_matrix, correlation_matrix, imv, sum_score_probabilities, q3, mutual_information_difference, information |
| M_Eval | `evaluator.py`: inputs, residuals, accuracy, predictions, infit/outfit, log-likelihoods, groups |
| M_Mix | `torch_modules/gaussian_mixture_model.py`; latent densities and integration weights of the evaluator |
| M_Single | the log-likelihood of one answer in single precision: base_irt_model.py 249-256 (torch's log_softmax), graded_response.py 119-165, 203, three_parameter_logistic.py 101-129, 165, two_parameter_logistic.py 103-113; rounding, exp and log are parameters with the assumptions of `single_precision`; the matrix product is an input |
| M_Under | EAP scoring (base_irt_model.py 846-935) and the MML loss (mml.py 240-280) with an inexact exponential; equal to the definitions of M_Est for the exact one (`eap_scores_by_exp`, `mml_loss_by_exp`) |
| M_BitPop | bit.py: directions 504-513, grid range and medians from a population 161-168 and 534-542, transform 159-180, transform_to_1D 201-222; the model enters through its expected total score and item entropies |
| M_Heat | plotter.py: item_latent_variable_relationships 474-503, without scales; the drawing itself is not modelled |
| M_Pval | evaluator.py: hypothesis tests of q3 and mutual_information_difference 758-778, 874-920 (statistics from M_Stat and M_Eval, samples from M_Pop); names, rounding and messages are left out |
| M_Colour | plotter.py: traces, names and colours of item_probabilities 1078-1117, 1171-1203, grays 1310-1333, lines of scale_transformations 1400-1409; layout and legends are left out |
| M_Hist | plotter.py 1285-1308 (figure of two latent variables) with numpy.histogram2d (edges, bins, density) on finite reals; the figure of one variable is drawn by plotly and not modelled |
| M_Make | constructors of the parametric models for any data and integer categories: generalized_partial_credit.py 49-130, graded_response.py 53-144, nominal_response.py 48-98, one_parameter_logistic.py 44-68, two_parameter_logistic.py 49-88, three_parameter_logistic.py 51-85; masked assignment of parameters with broadcasting; the start values are those of M_Logit |
| M_Flex | MonotoneNN and MonotonePolynomial (M_Mono) as models for estimation and scoring: monotone_nn.py 195-226, monotone_polynomial.py 97-107, base_irt_model.py 221-264 |
| M_Tab | MonotoneBSpline and SurprisalSpline (M_BSpl) as models for estimation and scoring: monotone_b_spline.py 117-161, surprisal_spline.py 104-200, base_irt_model.py 203-264 |
| M_Nl | NestedLogit (M_Mono, M_BSpl) as a model for estimation and scoring: nested_logit.py 160-241 and 260-321, base_irt_model.py 203-219 |

Not modelled: floating-point rounding and overflow (except in M_Single and, for the exponential, M_Under), device handling, the look of figures,
the download of datasets (the functions of `load_dataset.py` are modelled from the downloaded table
on, M_Load), logging, timing, verbosity, seeds, the optimisers' arithmetic, process pools' internals, the serialisation format,
parameter initialisation beyond what a property uses.

External behaviour taken as given (all of it an argument of the theorems or written out as a
definition, none an axiom): `splinetorch` computes the Cox-de Boor basis; `torch.save` followed by
`torch.load` returns the same dictionary; `torch.multinomial` with one draw is the exponential
race; `Normal.icdf` goes through `erfinv`; `torch.inverse` and `torch.linalg.solve` return the
inverse and the solution when there is one; autograd returns derivatives; `ReduceLROnPlateau`
and `torch.optim` loops as written out in M_Train; `MultivariateNormal` through its Cholesky factor.

## Checking the theorems

`seeded/LOG.jsonl` records edits of the model as a realistic bug would make them, the claim each
breaks, the theorems which failed, and the theorems tightened because an edit went unnoticed.

## Trusted base

Coq 8.16.1's kernel; the constants listed by `Print Assumptions` (below); the reading of the
Python code by which the model was written; the idealisations and external behaviour above.
No axioms, parameters or admitted proofs are added.

## What `Print Assumptions` lists, theorem by theorem

Every theorem below is followed by `Print Assumptions` in its `T_*.v` file.  The lists are
empty or made of the following constants of the standard library, by which Coq 8.16 builds
`Reals`, and classical logic as `Reals` lemmas use it:

* `ClassicalDedekindReals.sig_forall_dec`, `ClassicalDedekindReals.sig_not_dec`
* `FunctionalExtensionality.functional_extensionality_dep`
* `Classical_Prop.classic`

### closed under the global context (no axioms) (117 theorems)

* C01: one_hot_aligned, one_hot_lossless, one_hot_rejects
* C02: dataset_keeps_data_and_mask, imputed_dataset_keeps_data_and_mask, missing_mask_exact
* C03: caller_unchanged, impute_mean, impute_random_incorrect, impute_rejects, impute_zero, short_lists, single_respondent_refuted
* C04: caller_unchanged_refuted, dataset_effect_on_caller, imputed_dataset_caller_unchanged, one_hot_caller_unchanged_iff, one_hot_effect_on_caller
* C05: constructor_categories_cover, get_item_categories_complete_data, get_item_categories_no_complete_row, get_item_categories_refuted
* C06: multiple_choice_model_rejected, prior_expected, prior_expected_rejects, random_incorrect_with_model_refuted, random_incorrect_without_model
* C07: default_refuted
* C08: split_partitions
* C09: average_of_fold_scores, every_fold_fitted_and_scored, folds_partition, runs_with_two_folds
* C103: set
* C10: fold_count_and_sizes, requested_fold_count_refuted, too_few_folds
* C111: alone, batches, device_refuted, empty_refuted, failure, shared_refuted
* C115: parameters
* C11: grid_is_full_product
* C12: first_fold_clean_partial, held_out_refuted
* C131: no_scores, unfitted_refuted
* C136: curves, gray, numbers_refuted, palette_refuted, scale_lines, single_refuted, surfaces
* C141: from_data, nobody_refuted
* C20: key_refused
* C23: even_groups
* C27: differing_refused, made
* C31: grid_size, points_and_weights_aligned, total_weight
* C36: attached_partial, commuting_partial, order_refuted, reverse_order_partial, single_partial
* C39: construction_partial
* C44: distributions
* C48: missing_counts_zero_refuted, multiple_choice_sum_score, sum_score_complete_data
* C55: slices
* C61: fallback_to_sequential, threads_restored
* C62: layers_normalised_refuted, no_hidden_layers
* C63: illegal_keys_refuted, key_check, legal_key, nested_logit, no_key, too_large, unreachable_key_refuted
* C64: old_files, refused, round_trip, unusable_files
* C66: complete_data, imputed_input, mean_codes, new_respondent_refuted, variational_input_refuted
* C67: correspondence_refuted, data_accumulate, failed_fit_refuted, first_fit, joint_pairs, joint_starting_values, marginal, other_width
* C68: non_numeric_parameter_refuted, reported_parameter_is_the_tried_value
* C88: nominal_without_scores
* C91: data_overwritten_refuted, imputation_refuted, input_as_trained
* C95: observed_mark, observed_score_refuted
* C96: history_refused
* C98: construction
* C99: failed_download, key, sat

### sig_forall_dec (21 theorems)

* C141: minus_one_refuted
* C14: tpl_constructed
* C23: groups_refused, layer_built
* C27: mean_refused
* C38: rotate_dimensions
* C47: bad_key
* C65: error_masked_refuted, failed_start_refuted, frozen_refuted, iteration_error, map_without_prior, parameters_unchanged, trainable
* C78: expected_square
* C96: distribution, distribution_refused, distribution_refuted, history
* C99: binary, documented_key_refuted

### sig_forall_dec, functional_extensionality_dep (167 theorems)

* C07: binary_key_refuted, multiple_choice, no_key
* C103: columns, constructor, default, median, order_refuted, refused, two_categories_refuted
* C104: loop
* C125: population_order, range, scores, units
* C129: accuracy, infit_outfit, residuals
* C131: cells, given, height_refuted
* C138: default_bins, everybody, exchange, figure, nobody, order, sturges_refuted, units
* C141: arguments, dichotomous
* C146: shares
* C15: gpc_not_refused_refuted, refused
* C19: identified
* C20: categories, forward_distribution
* C23: hidden_refused, reported_direction
* C25: multiple_choice, range, total
* C32: large_refuted
* C33: sample_covariance
* C35: annealing
* C37: chain_rule, entries, unique
* C38: reverse_jacobian, reverse_own_inverse, reverse_transform, rotate
* C39: inverted_refuted, not_inverted_partial
* C42: batch, difference, one_dimensional, one_dimensional_exact, one_dimensional_start, order, score, single_point_refuted, transform
* C43: interpolation, monotone, order
* C44: fraction, order, transform
* C45: errors, factor, few_outliers, limits, nan_refuted, outliers
* C46: is_distribution, number_correct, population, score_distribution
* C47: collapse
* C51: change_of_scale
* C53: accuracy, missing, perfect, predictions, unit_interval
* C54: residuals
* C55: group_probabilities, number_of_groups_refuted
* C56: missing_data_refuted
* C57: amid, q3
* C59: bounded_stops, joint_run, limit_below_one, marginal_run, negative_loss_refuted, number_of_iterations, patience_in_epochs_refuted, plateau_stops, small_rate_refuted
* C60: batches_refuted, best_parameters_refuted, joint_final, marginal_final
* C64: refused_overwrites_refuted
* C69: rescaled_gradient
* C70: flow_partial, flow_round_trip_partial, flow_unfitted_partial, spline_partial
* C74: order, quantiles, ties_refuted, training_point
* C75: answers_kept, data_unchanged_refuted
* C78: infit_outfit, level
* C82: autoencoder_run, interval_zero, small_batches_refuted
* C83: nan_loss, transformation_run
* C88: equal_scores, regression, regression_one_variable
* C89: reachable, refused, samples
* C90: abler_population, difficulty, discrimination, discrimination_sign, shift, single_category_refuted
* C92: line, one_step_refuted, original_scale, probabilities, reversed_scale_refuted, scale_transformations, surface, transformed_scale
* C93: fixed_values, probability_medians_refuted, range_scale_refuted, refused, second_range_refuted, training_defaults, transformed_range, without_training, zero_variable_refuted
* C94: direction, items, line, repeated_items_refuted, scaled_refuted, surface, two_variables_refuted
* C95: expected_surface_refuted
* C97: gradients, gradients_cancel
* C99: big_five, big_five_range, cache, interrupted_refuted

### sig_forall_dec, sig_not_dec, functional_extensionality_dep (111 theorems)

* C101: new_models, nominal_credit, one_parameter, three_parameter, two_categories, two_nominal
* C110: normal_even
* C114: alike
* C129: groups, groups_refuted, standardized
* C131: partial_credit, three_parameter, two_parameter
* C134: alike_refuted, q3, simulated, ties_refuted
* C135: answers, probabilities
* C139: comparison
* C13: binary, gpc, nrm, softmax_distribution
* C141: nobody_graded
* C14: opl, tpl
* C15: gpc_irt_format, gpc_reported, grm_traditional, opl, thpl_refused, thpl_traditional, tpl, tpl_traditional
* C16: thpl
* C17: own_parameters
* C19: reported_reproduce
* C21: upper_tail
* C22: gradient, kink
* C23: split_activation
* C34: after_mml_refuted, many_latent_refused
* C40: bins_partial
* C50: complete_partial, constant_column_refuted, missing_partial, pairwise_refuted, symmetric_partial
* C51: angles_refused, direction, items, matrix, one_variable
* C62: autoencoder_scores, batch_normalisation_refuted, bounded_encoder, respondents_separately, single_row_in_training, standard_encoder, variational_encoder, variational_scores, wrong_width
* C66: answered, autoencoder_input, random_incorrect_refuted, refused, variational_refused_refuted
* C76: default_call_refuted, missing_counted_refuted, raw, standardised
* C80: data, encoder_sampling_refuted, grid, stale_density_refuted, unbound_refuted, unfitted_refuted
* C84: nested_completed, nested_failed_fit_refuted, other_parameters, parameters, recovers
* C85: overwritten_refuted
* C86: directions, new_model
* C87: change_of_scale, delta_method, reported
* C89: softmax, two_parameter
* C90: two_parameter
* C91: alpha_refuted, interval, nested, no_respondents, samples
* C97: angles, gpc, gpc_bound, guessing, nominal, one_parameter, rescaled, rescaled_one, reversed, three_parameter, two_parameter, two_parameter_direction

### sig_forall_dec, classic, functional_extensionality_dep (2 theorems)

* C82: plateau_stops, stops_no_earlier

### sig_forall_dec, sig_not_dec, classic, functional_extensionality_dep (386 theorems)

* C100: backward, basis, cancel, corner, gradients, information, shared, slope
* C102: conditions_needed, generalized_credit, graded, nominal, one_parameter, three_parameter, two_parameter
* C103: items_refuted
* C104: guessing_refuted, loss, map, ml, tangents
* C105: exists, extreme, guessing_refuted, iff, map, map_scores, ml_iff, ml_no_scores, ml_scores, none, one
* C106: better, better_max, order, paradox, sufficient, sufficient_max
* C107: gradient, map, ml, order, sum_score
* C108: jml, jml_counts, jml_slopes, mml, mml_counts, mml_slopes
* C109: area_unique, flow_default_refuted, inside, tails_refuted, total_refuted
* C110: items, joint_scale, respondents, sign_default, sign_rule, sign_scores
* C112: batch, cellwise, columns_refuted, constant_refuted, nan_refuted, plot, round_trip, too_many
* C113: accepted, asymmetric_refuted, exact, loss, moments, normal_moments, quasi_mc_refuted, single_point, weight_scale
* C114: dimensions_refuted, gradient, items, latent, runs
* C115: copies, could_differ, gradient, width_plain_refuted, width_refuted
* C116: bound, marginal, samples, tight
* C117: afterwards, kept_refuted, shortfall
* C118: below, close, default_start_refuted, logistic, outside_refuted, transform
* C119: jml, joint, joint_alike, mml, rasch, slopes_refuted, unused
* C120: exact, jml, joint_refuted, mml, rasch, rules
* C121: fit, joint_refuted, rasch
* C122: bounded, eap, eap_bounded, eap_refuted, scores
* C123: graded_binary, graded_refuted, logits, respondent, three_parameter_refuted, two_parameter
* C124: eap, eap_refuted, long_test_refuted, mml
* C125: no_population_refuted, start_refuted
* C126: converse_refuted, homogeneous, matched, value
* C127: categories_refuted, root, value, weights
* C128: below_refuted, rate
* C130: between, closer, no_answers, tighter
* C131: graded
* C132: attained, bound, inverse, missing_refuted, models, score, standard_error
* C133: centre_refuted, fitted, unfitted
* C134: amid, amid_values, zero_refuted
* C135: credit_items, information
* C137: associated, dominates, eap_scores, max_scores, positive_slopes_needed, sum_scores
* C139: conditional, guessing, joint, populations, slopes, sum_scores
* C140: attainable, one_direction, one_parameter, reversed
* C141: answers_ignored_refuted, forward
* C142: average, flexible_average, flexible_losses, losses
* C143: halves, short_form
* C144: network, polynomial
* C145: monotone, surprisal
* C146: nominal, parts, splines
* C147: answers, between, library
* C148: library, losses, scores, unfitted
* C149: distributions, joint, monotone, network, parametric, polynomial, sum
* C14: opl_increasing, tpl_monotone
* C150: classes, exact, joint, marginal, network
* C151: choice, fit, network
* C152: fitted, network, unfitted
* C153: network, polynomial, splines
* C15: gpc_documented_refuted
* C16: new, thpl_monotone
* C17: adjacent_odds, expected_score_monotone
* C18: expected_score, fresh_model_valid, telescope
* C21: distribution, expected_score_monotone, forward, splines
* C22: shape
* C23: expected_score_monotone, groups, groups_connected, key_probability_monotone, layer, stack
* C24: degree, derivative, expected_score_monotone, forward_monotone, model_degree_refused, monotone, reported_coefficients_linear, reported_coefficients_refuted
* C25: monotone
* C26: base, base_cells, base_mean, gpc, grm, missing_irrelevant_base, missing_irrelevant_prob, nrm, opl, prob, prob_cells, reduction_refused, thpl, tpl, unmasked_code
* C27: parts_honest, probabilities_padded, total_is_sum_of_parts
* C28: layout, order_single, refuted
* C29: refuted, split_returns_own_output
* C30: any_model, marginal_likelihood, mix_refuted
* C32: most_likely_partial, subset_partial, table_refuted
* C33: any_model, posterior_mean
* C34: unfitted_partial
* C35: elbo, importance_bound, kl, mix_refuted
* C39: linking_spline_partial
* C40: continuous_partial, derivative_partial, flow_partial, free_endpoints_refuted, increasing_partial, interval_partial, inverse_derivative_partial, inverse_partial, too_many_bins_partial, total_partial, unit_slope_partial
* C41: density_inside_partial, flow_default_refuted, inverse_outside_refuted, outside_refuted, unit_partial
* C42: batch_refuted
* C49: entropy, refusal, uniform
* C51: score_products
* C52: range, right_of_root
* C56: complete_data, missing_data_models_refuted
* C58: covariances, iteration, one_feature_density, one_feature_total, pdf, range, refusals, responsibilities, weights
* C70: flow_spline_partial, neuralnet_refuted, neuralnet_width_partial
* C71: nan, positive_means_better, sign
* C72: data_partial, expected, joint_entropy, missing_refuted, too_few_pairs
* C73: derivative, items_refuted, single_item_refuted
* C77: mean, none, sum, unknown_reduction_refuted
* C79: best, one_candidate, one_feature_total, small_samples_refuted
* C80: one_feature_total, sum_scores, weights
* C81: ascent
* C84: completed, failed_fit_refuted, rows, surprisal
* C85: unchanged
* C86: distribution, empty_batch, logits, monotone, several_latent_variables_refuted, unordered_knots_refuted
* C87: asymptotic, too_small_refuted
* C88: gpc, graded, network, nominal_refuted, one_parameter, three_parameter, two_parameter, unrelated_network_refuted, unrelated_polynomial_refuted
* C89: graded_refuted
* C95: expected_axis, line, missing_refuted, surface
* C97: graded, two_parameter_peak
* C98: close, linear_link, linear_unique, loss, minimum, models, unknown_item, widths_refuted
