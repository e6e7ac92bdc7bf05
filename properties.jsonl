{"id": "C01", "title": "The two cost-string decoders agree", "statement": "For a code of four or five dash-separated fields whose engine field is 't', cost_from_str and cost_from_parse_torch(parse_code_torch(.)) either both build a cost or both raise ValueError, and when they build one it has the same kind (with or without labels), the same norm exponent, the same power and the same label weight kappa.", "quantifier": "every string, every has_labels flag and every behaviour of Python's float()", "why_tests_cant": "The set of strings is infinite and the two decoders are separate pieces of code with different branch orders; a test only samples codes.", "anchors": ["skwdro/base/cost_decoder.py: cost_from_str, parse_code_torch, cost_from_parse_torch"]}
{"id": "C02", "title": "Which cost strings are accepted and what they mean", "statement": "cost_from_str succeeds exactly on the strings whose dash-split has at least four fields, with first field 't', second field NC or NLC, and third, fourth (and fifth when present) fields readable by float(); the cost built has power = third field, norm = fourth field, kappa = fifth field or 1e8, so printing dash-free fields and decoding them gives the fields back. Every other string raises ValueError. (For NLC kappa must moreover be non-negative.)", "quantifier": "every string and every behaviour of float()", "why_tests_cant": "An acceptance claim over all strings (including the rejected ones) is not a finite check.", "anchors": ["skwdro/base/cost_decoder.py: cost_from_str"]}
{"id": "C03", "title": "Any positive Python float literal can be used in a cost string", "statement": "The documented grammar 't-NC-FLOAT-FLOAT[-kappa]' allows any Python-parseable positive float in the FLOAT fields: writing such a literal into a code and decoding it gives that number back.", "quantifier": "every Python float literal, including exponent notation", "why_tests_cant": "Tests use short literals such as 2 or 1; the failing ones are those containing a dash.", "anchors": ["skwdro/base/cost_decoder.py: cost_from_str, parse_code_torch", "doc/api_deepdive/cost_decoding.rst"]}
{"id": "C04", "title": "Order of the two numbers in a cost string", "statement": "As the cost tutorial says, in 't-NC-k-p' the first number is the norm type k and the second the power p.", "quantifier": "every pair of distinct numbers", "why_tests_cant": "All the test codes use equal numbers (2-2, 1-1), for which both readings coincide.", "anchors": ["skwdro/base/cost_decoder.py: cost_from_str", "doc/tutos/costs.rst"]}
{"id": "C05", "title": "The default cost spec", "statement": "parse_code_torch(None, has_labels) followed by cost_from_parse_torch always yields the squared Euclidean cost, with labels exactly when has_labels; and the five-field form checks the engine field like the four-field form does.", "quantifier": "both label flags; every five-field string", "why_tests_cant": "The engine check is a claim about all engine strings.", "anchors": ["skwdro/base/cost_decoder.py: parse_code_torch"]}
{"id": "C06", "title": "The norm cost is a transport cost", "statement": "For every norm exponent p>=1 or infinity and every power>0, cost(xi,zeta) is non-negative, is zero exactly when xi=zeta, is symmetric, is invariant by translating both points and scales by |t|^power when both are scaled by t.", "quantifier": "all dimensions, all pairs of points, all p in [1,inf], all powers > 0", "why_tests_cant": "Real-valued law over all vectors and exponents.", "anchors": ["skwdro/base/costs_torch/normcost.py: NormCost.value"]}
{"id": "C07", "title": "Triangle inequality", "statement": "With power 1 the norm cost satisfies cost(x,z) <= cost(x,y)+cost(y,z) for every p in [1,inf], hence the Wasserstein ball is built on a metric; with power 2 it does not but cost(x,z) <= 2(cost(x,y)+cost(y,z)).", "quantifier": "all dimensions, all triples of points, all p in [1,inf]", "why_tests_cant": "Minkowski's inequality over all vectors and all exponents cannot be settled by samples.", "anchors": ["skwdro/base/costs_torch/normcost.py: NormCost.value"]}
{"id": "C08", "title": "The labelled cost interpolates between features and labels", "statement": "For 0<kappa<inf the labelled cost is a weighted average of the feature and label distances raised to the power: it lies between the smaller and the larger of the two pure costs, tends to the pure feature cost as kappa->0 (and is equal to it at kappa=0) and to the pure label cost as kappa->inf (and is equal to it at kappa=inf); negative kappa and missing labels raise AssertionError.", "quantifier": "all points, labels, p, powers and kappa", "why_tests_cant": "Limits and two-sided bounds over a continuum.", "anchors": ["skwdro/base/costs_torch/normlabelcost.py: NormLabelCost.__init__, value"]}
{"id": "C09", "title": "kappa = infinity is the unlabelled cost", "statement": "As the cost tutorial says, kappa=inf amounts to using the unlabelled cost, i.e. labels are never moved for free and moving the features costs the norm.", "quantifier": "all points and labels", "why_tests_cant": "Universal equality between two costs.", "anchors": ["skwdro/base/costs_torch/normlabelcost.py: NormLabelCost.value", "doc/tutos/costs.rst"]}
{"id": "C10", "title": "With unchanged labels the labelled cost is the feature cost", "statement": "When adversarial labels equal the original ones, the labelled cost equals the unlabelled cost with the same norm and power up to the factor (1+kappa)^-power; in particular the default kappa=1e8 divides the squared feature cost by about 1e16, so it does not equal the unlabelled one.", "quantifier": "all points, p, powers, kappa>0", "why_tests_cant": "Exact scaling over all inputs.", "anchors": ["skwdro/base/costs_torch/normlabelcost.py: NormLabelCost.value", "skwdro/base/cost_decoder.py: DEFAULT_KAPPA"]}
{"id": "C11", "title": "Closed-form worst displacement for the squared Euclidean cost", "statement": "solve_max_series_exp(xi, None, rhs) returns the unique maximiser over zeta of <rhs, zeta-xi> - ||zeta-xi||^2, so with rhs = gradient/lambda, lambda>0, it maximises the linearised loss minus lambda times the cost; any other (norm, power) raises NotImplementedError and the labels are returned unchanged.", "quantifier": "all dimensions, all points and gradients, all lambda>0", "why_tests_cant": "Global optimality over R^d.", "anchors": ["skwdro/base/costs_torch/normcost.py: NormCost.solve_max_series_exp", "skwdro/base/costs_torch/base_cost.py: Cost.solve_max_series_exp"]}
{"id": "C12", "title": "Closed-form worst displacement for the labelled cost", "statement": "NormLabelCost.solve_max_series_exp with labels returns the maximiser of the linearised loss minus lambda times the labelled cost itself.", "quantifier": "all points, labels, gradients, kappa", "why_tests_cant": "Global optimality over R^(d+d').", "anchors": ["skwdro/base/costs_torch/normlabelcost.py: NormLabelCost.solve_max_series_exp"]}
{"id": "C13", "title": "Displacements are clipped, keep their direction and never contain NaN", "statement": "The displacement used by importance sampling is a non-negative multiple of the gradient, of norm min(threshold, ||gradient||)/lambda when gradient and lambda are non-zero; if any displacement (of data or labels) is not finite then all the samples are used undisplaced.", "quantifier": "every gradient batch, every lambda, including zero gradients and lambda=0", "why_tests_cant": "A norm identity and a fallback over all batches and non-finite values.", "anchors": ["skwdro/solvers/utils.py: normalize_just_vects, check_tensor_validity", "skwdro/solvers/_dual_interfaces/_impsamp_interface.py: get_optimal_displacement, displace_samples"]}
{"id": "C14", "title": "rho = 0 is empirical risk minimisation", "statement": "With radius 0 the robust objective is the mean of the primal loss over the batch, whatever lambda, epsilon and the adversarial samples are; in ERM mode with rho>0 it is that mean plus rho*lambda.", "quantifier": "all losses, batches, lambda, sample sets", "why_tests_cant": "Equality of two functions of arbitrary batches.", "anchors": ["skwdro/solvers/_dual_interfaces/dual_loss.py: compute_dual", "skwdro/solvers/_dual_interfaces/_misc_dual_interfaces.py: reduce_loss_batch"]}
{"id": "C15", "title": "Invalid radii are rejected", "statement": "Evaluating the robust loss raises ValueError when the radius is negative and ERM mode is off, returns NaN when it is NaN, and otherwise returns the finite value of the formula on finite inputs.", "quantifier": "every radius (including inf, NaN), every batch", "why_tests_cant": "Case split over all real and non-finite radii.", "anchors": ["skwdro/solvers/_dual_interfaces/dual_loss.py: compute_dual"]}
{"id": "C16", "title": "The objective lies between average and worst case", "statement": "For rho>0 the objective (without importance sampling) is at least lambda*rho^p + mean over data of the mean over samples of (loss - lambda*cost), and at most the same with max over samples instead of the inner mean.", "quantifier": "all batch sizes, sample counts, losses, costs, lambda, epsilon>0", "why_tests_cant": "Log-sum-exp inequality over all real batches.", "anchors": ["skwdro/solvers/_dual_interfaces/dual_loss.py: compute_dual"]}
{"id": "C17", "title": "The objective bounds every adversary within the budget", "statement": "For every lambda>=0 and every adversary that reweights the samples of each data point, with average transport cost at most rho^p, the adversary's average loss minus epsilon times its relative entropy to uniform weights is at most the objective; for every lambda some reweighting attains the penalised value, so the bound is tight.", "quantifier": "all batches, all adversary weights, all lambda>=0, all epsilon>0", "why_tests_cant": "Weak duality and attainment quantify over all probability weights.", "anchors": ["skwdro/solvers/_dual_interfaces/dual_loss.py: compute_dual"]}
{"id": "C18", "title": "Monotone in the radius, convex in the multiplier, monotone in epsilon", "statement": "At fixed samples the objective is non-decreasing in rho (lambda>=0), convex in lambda, and non-increasing in epsilon.", "quantifier": "all batches, all pairs of radii, multipliers and regularisations", "why_tests_cant": "Convexity and monotonicity over continua.", "anchors": ["skwdro/solvers/_dual_interfaces/dual_loss.py: compute_dual"]}
{"id": "C19", "title": "Monotone and shift-equivariant in the loss", "statement": "Adding a constant to the loss adds the same constant to the objective; a pointwise larger loss gives a larger objective; the objective does not depend on the order of the adversarial samples or of the data points.", "quantifier": "all batches, constants, permutations", "why_tests_cant": "Universal over losses and permutations.", "anchors": ["skwdro/solvers/_dual_interfaces/dual_loss.py: compute_dual", "skwdro/solvers/_dual_interfaces/_misc_dual_interfaces.py: reduce_loss_batch"]}
{"id": "C20", "title": "Reductions are consistent", "statement": "The mean over the batch of the objective with reduction 'none' is the objective with reduction 'mean' and its sum is the one with reduction 'sum'; unknown reductions are rejected when the loss is built.", "quantifier": "all batches and reduction strings", "why_tests_cant": "Equality for all batch sizes.", "anchors": ["skwdro/solvers/_dual_interfaces/_misc_dual_interfaces.py: reduce_loss_batch, __init__", "skwdro/solvers/_dual_interfaces/dual_loss.py: compute_dual"]}
{"id": "C21", "title": "Importance sampling does not change what is estimated", "statement": "The correction added under importance sampling is the log-ratio between the density the samples should have had and the density they were drawn from, so the weighted estimate targets the same integral.", "quantifier": "all samplers, all displacements, all samples", "why_tests_cant": "Density identity over all points; a run of the code only shows a number.", "anchors": ["skwdro/solvers/_dual_interfaces/dual_loss.py: compute_dual", "skwdro/base/samplers/torch/base_samplers.py: NoLabelsSampler.log_prob_recentered, LabeledSampler.log_prob_recentered"]}
{"id": "C22", "title": "The multiplier stays non-negative during training", "statement": "With the composite optimizers ('mechanic', 'prodigy' or a given pair) lambda>=0 after every step, whatever the inner optimizers do; the same holds for all the other optimizers the library installs itself.", "quantifier": "all gradient sequences, all inner optimizers, any number of steps", "why_tests_cant": "Invariant over all histories.", "anchors": ["skwdro/solvers/oracle_torch.py: CompositeOptimizer.step, DualPostSampledLoss.__init__, DualPreSampledLoss.__init__"]}
{"id": "C23", "title": "The initial multiplier solves the linearised dual", "statement": "get_initial_guess_at_dual with a power-2 Euclidean cost and rho>0 sets lambda to the exact minimiser of lambda*rho^2 + mean of sup over displacements of <gradient,delta> - lambda*||delta||^2; with rho=0 it sets lambda to 0.", "quantifier": "all gradient batches, all rho>0", "why_tests_cant": "Optimality over a continuum of multipliers and displacements.", "anchors": ["skwdro/solvers/_dual_interfaces/dual_loss.py: get_initial_guess_at_dual"]}
{"id": "C24", "title": "The initial multiplier reflects the gradients for power-1 costs", "statement": "For a power-1 cost the initial multiplier depends on the size of the gradients (the linearised dual optimum is the largest gradient norm).", "quantifier": "all gradient batches", "why_tests_cant": "A dependence claim over all batches.", "anchors": ["skwdro/solvers/_dual_interfaces/dual_loss.py: get_initial_guess_at_dual"]}
{"id": "C25", "title": "eval() and train() behave as PyTorch modes", "statement": "After eval() the robust loss is in evaluation mode and after train() in training mode, after eval() then train() it is back where it was, and reading the loss value during a solve does not change the mode of the model.", "quantifier": "every sequence of eval/train calls from every state", "why_tests_cant": "Invariant over all call sequences.", "anchors": ["skwdro/solvers/_dual_interfaces/_misc_dual_interfaces.py: eval, train", "skwdro/solvers/entropic_dual_torch.py: optim_presample"]}
{"id": "C26", "title": "Computing displacements leaves the parameters' trainability as it was", "statement": "After freezing and unfreezing for the displacement computation every parameter has the requires_grad flag it had before.", "quantifier": "every set of parameters with arbitrary flags", "why_tests_cant": "Over all user configurations.", "anchors": ["skwdro/solvers/_dual_interfaces/_misc_dual_interfaces.py: freeze", "skwdro/solvers/_dual_interfaces/_impsamp_interface.py: get_displacement_direction"]}
{"id": "C27", "title": "The convergence test never fires without a reference", "statement": "With the gradient metric the stopping test cannot stop at its first evaluation, with the parameter metric it cannot stop at its first two, whatever the values observed, from a fresh condition.", "quantifier": "every sequence of parameters, gradients and tolerances", "why_tests_cant": "Over all histories.", "anchors": ["skwdro/solvers/optim_cond.py: OptCondTorch.check_t, check_l, check_all_params"]}
{"id": "C28", "title": "What the convergence test compares", "statement": "In relative mode the test passes at an evaluation exactly when the current metric is strictly below tol times the first recorded metric, in absolute mode exactly when strictly below tol; the reference never changes afterwards.", "quantifier": "every history of metrics, every tol>0", "why_tests_cant": "Over all histories.", "anchors": ["skwdro/solvers/optim_cond.py: check_metric, check_t, check_l"]}
{"id": "C29", "title": "Monitoring theta, lambda, both or one", "statement": "With 'both' the test stops iff both sides pass, with 'one' iff at least one passes, with 'theta'/'lambda' iff that side passes, all accepted synonyms being equivalent; any other name raises ValueError.", "quantifier": "every string and history", "why_tests_cant": "Over all strings and histories.", "anchors": ["skwdro/solvers/optim_cond.py: check_all_params, L_AND_T, L_OR_T, JUST_T, JUST_L"]}
{"id": "C30", "title": "A non-positive tolerance ignores that side", "statement": "As documented, setting a tolerance <= 0 makes the condition ignore that part: monitoring 'both' with tol_lambda<=0 is the same as monitoring 'theta'.", "quantifier": "every history", "why_tests_cant": "Over all histories.", "anchors": ["skwdro/solvers/optim_cond.py: OptCondTorch doc, check_t, check_l"]}
{"id": "C31", "title": "A converged multiplier is detected only if it moved", "statement": "With the parameter metric the monitored lambda change between two evaluations is the distance between its values at these evaluations.", "quantifier": "every sequence of lambda values", "why_tests_cant": "Aliasing of tensors is invisible to tests with fresh tensors.", "anchors": ["skwdro/solvers/optim_cond.py: check_l"]}
{"id": "C32", "title": "A stopping condition can be reused for another fit", "statement": "Fitting twice with the same OptCondTorch instance (e.g. the default shared one) stops the second fit at the same iteration as with a fresh instance.", "quantifier": "every pair of histories", "why_tests_cant": "Over all histories.", "anchors": ["skwdro/solvers/optim_cond.py: OptCondTorch", "skwdro/linear_models/_logistic_regression.py: LogisticRegression.DEFAULT_OCOND"]}
{"id": "C33", "title": "Number of optimisation steps", "statement": "Without convergence and NaN the post-sampling solver takes exactly pretrain+train steps and reports that many losses; with convergence at step k it takes no more; an integer n_iter and a pair are interpreted so that 0 <= pretrain <= total.", "quantifier": "every n_iter and every behaviour of the stopping test and of the loss", "why_tests_cant": "Loop counts for all inputs and oracles.", "anchors": ["skwdro/solvers/entropic_dual_torch.py: optim_postsample, optim_presample, solve_dual_wdro", "skwdro/solvers/utils.py: interpret_steps_struct"]}
{"id": "C34", "title": "The reported robust loss", "statement": "solve_dual_wdro returns as robust_loss the last loss value recorded in the optimisation, the current parameters as coef and intercept, and lambda as dual variable, zero if rho is not positive.", "quantifier": "every run", "why_tests_cant": "Over all runs.", "anchors": ["skwdro/solvers/entropic_dual_torch.py: solve_dual_wdro, extract_data"]}
{"id": "C35", "title": "A NaN loss stops the solver", "statement": "When the loss becomes NaN during the robust phase of the solver it stops without running the remaining iterations.", "quantifier": "every sequence of losses", "why_tests_cant": "Over all histories.", "anchors": ["skwdro/solvers/entropic_dual_torch.py: optim_postsample, optim_presample"]}
{"id": "C36", "title": "The importance-sampling setting survives a solve", "statement": "After a solve the robust loss has the same importance-sampling flag as before, on every path of the solver including early stops.", "quantifier": "every run", "why_tests_cant": "Over all runs and stop points.", "anchors": ["skwdro/solvers/entropic_dual_torch.py: optim_presample, optim_postsample"]}
{"id": "C37", "title": "Solver results round-trip", "statement": "Wrapping a tuple of 1 to 4 results and iterating over it gives the tuple back, attribute access gives the named component (None if absent), a dict gives its values and entries, already wrapped results pass through, tuples of other lengths raise AssertionError and anything else RuntimeError.", "quantifier": "every tuple, dict or other value", "why_tests_cant": "Over all values.", "anchors": ["skwdro/solvers/result.py: SolverResult, wrap_solver_result"]}
{"id": "C38", "title": "Hybrid optimizer: multiplicative weights", "statement": "A parameter group with the 'mwu' rule keeps strictly positive entries and each plain-gradient step multiplies each entry by exp(-lr*grad); with 'mwu_simplex' the entries are moreover positive and sum to one after every step.", "quantifier": "every start, gradient sequence and inner optimizer", "why_tests_cant": "Invariant over all histories.", "anchors": ["skwdro/solvers/hybrid_opt.py: HybridAdam/HybridSGD rules, _apply_rules, step"]}
{"id": "C39", "title": "Hybrid optimizer: projections, ascent and clipping", "statement": "'non_neg' parameters are >= 0 after every step, 'max' groups do gradient ascent, 'bound' clips the gradient to [-BOUND,BOUND]; unlabelled groups get exactly the inner optimizer's step.", "quantifier": "every history and grouping", "why_tests_cant": "Over all histories.", "anchors": ["skwdro/solvers/hybrid_opt.py"]}
{"id": "C40", "title": "A failed hybrid step leaves the parameters as they were", "statement": "If the inner optimizer step raises, parameter values are those before the call.", "quantifier": "every failing inner step", "why_tests_cant": "Crash points.", "anchors": ["skwdro/solvers/hybrid_opt.py: step"]}
{"id": "C41", "title": "Resetting a sampler keeps everything but the mean", "statement": "After any sequence of reset_mean calls a sampler has the last means given and the scale, cost, label law and seed it was built with.", "quantifier": "every sequence of resets", "why_tests_cant": "Over all histories.", "anchors": ["skwdro/base/samplers/torch/cost_samplers.py: NoLabelsCostSampler.reset_mean, LabeledCostSampler.reset_mean", "skwdro/base/samplers/torch/classif_sampler.py: reset_mean"]}
{"id": "C42", "title": "Post-sampling draws new noise at each forward pass", "statement": "Two successive forward passes of the post-sampled loss use different noise.", "quantifier": "every pair of forward passes", "why_tests_cant": "Depends on hidden generator state across calls.", "anchors": ["skwdro/solvers/oracle_torch.py: DualPostSampledLoss.forward", "skwdro/base/samplers/torch/base_samplers.py: BaseSampler"]}
{"id": "C43", "title": "Covariance given in any of four forms", "statement": "init_covar uses sigma, else the lower triangular factor, else the covariance, else the precision, in that order of priority, and raises ValueError when none is given.", "quantifier": "every combination of arguments", "why_tests_cant": "Finite but combined with arbitrary values.", "anchors": ["skwdro/base/samplers/torch/base_samplers.py: IsOptionalCovarianceSampler.init_covar_d"]}
{"id": "C44", "title": "Flipping sampler", "statement": "The Bernoulli label sampler outputs only the label or its opposite; the documented argument p is the probability of a switch.", "quantifier": "every label, p and draw", "why_tests_cant": "Distributional claim.", "anchors": ["skwdro/base/samplers/torch/classif_sampler.py: ClassificationNormalBernoulliSampler"]}
{"id": "C45", "title": "Dirac distribution", "statement": "Sampling a Dirac distribution of any shape returns copies of its location with the requested sample shape, and log_prob is 0 exactly at the location and -inf elsewhere, per element of the batch.", "quantifier": "every shape, location and value", "why_tests_cant": "Over all shapes and values.", "anchors": ["skwdro/distributions/dirac_distribution.py: Dirac.rsample, log_prob"]}
{"id": "C46", "title": "Automatic hyperparameters are valid", "statement": "For rho>=0 and a valid power the automatic sigma is positive, the automatic epsilon at least 1e-7, user-given values are used unchanged; importance sampling is enabled iff requested and the cost is 2-2.", "quantifier": "every rho>=0, p>=1, every combination of given values", "why_tests_cant": "Over a continuum.", "anchors": ["skwdro/wrap_problem.py: expert_hyperparams, decide_on_impsamp, dualize_primal_loss"]}
{"id": "C47", "title": "Dedicated newsvendor solver is optimal", "statement": "WDRONewsvendorSpecificSolver returns an order quantity minimising the worst-case expected cost over the Wasserstein-1 ball of non-negative demands of radius rho around the data.", "quantifier": "every dataset, k, u, rho", "why_tests_cant": "Global optimality for all data.", "anchors": ["skwdro/solvers/specific_solvers.py: WDRONewsvendorSpecificSolver"]}
{"id": "C48", "title": "Dedicated newsvendor: critical index search", "statement": "For every non-empty data set and rho>=0 the search for the critical index either finds an index or takes a documented fallback; it never raises.", "quantifier": "every dataset of positive demands, rho>=0", "why_tests_cant": "Over all datasets.", "anchors": ["skwdro/solvers/specific_solvers.py: WDRONewsvendorSpecificSolver"]}
{"id": "C49", "title": "Newsvendor SAA linear programme", "statement": "The linear programme solved in SAANewsvendorSpecificSolver2 has as optimal value over beta, for each order theta>=0, the empirical newsvendor cost k*theta - u*mean(min(theta, demand)); hence its solutions are the empirical-cost minimisers, and some observed demand or 0 is one when 0<=k<=u.", "quantifier": "every dataset, k, u", "why_tests_cant": "LP equivalence for all data.", "anchors": ["skwdro/solvers/specific_solvers.py: SAANewsvendorSpecificSolver2"]}
{"id": "C50", "title": "Dedicated linear regression is robust", "statement": "The objective of WDROLinRegSpecificSolver is the exact supremum of the root-mean-square residual over all perturbations of the features (labels fixed) of mean squared norm at most rho^2, and the minimisers of the programme are exactly the robustly optimal coefficients.", "quantifier": "every dataset, coefficient, rho>0", "why_tests_cant": "Supremum over infinitely many perturbations.", "anchors": ["skwdro/solvers/specific_solvers.py: WDROLinRegSpecificSolver"]}
{"id": "C51", "title": "Dedicated logistic regression is robust", "statement": "Every feasible point of the programme solved by WDROLogisticSpecificSolver has an objective at least the average logistic loss of any adversary who moves features and flips labels, with average cost (Euclidean move + kappa per flip) at most rho; the optimal objective is exactly the worst case and the fitted coefficients minimise it.", "quantifier": "every dataset, feasible point, adversary", "why_tests_cant": "Weak duality over all adversaries.", "anchors": ["skwdro/solvers/specific_solvers.py: WDROLogisticSpecificSolver"]}
{"id": "C52", "title": "Dedicated portfolio is robust", "statement": "Every feasible point of the programme solved by WDROPortfolioSpecificSolver has an objective at least the mean-risk loss of any adversarial return within average distance rho and inside the polyhedron; the two affine pieces are the mean-CVaR loss, and without side constraints the best objective for a portfolio is exactly its worst case.", "quantifier": "every dataset, feasible point, adversary", "why_tests_cant": "Weak duality over all adversaries.", "anchors": ["skwdro/solvers/specific_solvers.py: WDROPortfolioSpecificSolver"]}
{"id": "C53", "title": "Portfolio weights are a portfolio", "statement": "The softmax-parametrised portfolio always has positive weights summing to one, so its loss is that of a long-only fully-invested portfolio; invalid eta, alpha, rho, sample counts are rejected at construction.", "quantifier": "every parameter vector and input", "why_tests_cant": "Over all real vectors.", "anchors": ["skwdro/base/losses_torch/portfolio.py: SimplePortfolio", "skwdro/operations_research/_portfolio.py: Portfolio.__init__"]}
{"id": "C54", "title": "Logistic regression: labels round-trip", "statement": "fit encodes two classes as -1/+1, predict returns only classes seen in fit, and predicts the larger class exactly when the score is >= 0; fewer than two classes raise ValueError.", "quantifier": "every label vector, coefficient and input", "why_tests_cant": "Over all labels and data.", "anchors": ["skwdro/linear_models/_logistic_regression.py: fit, predict, predict_proba_2Class"]}
{"id": "C55", "title": "predict_proba returns probabilities", "statement": "Each row of predict_proba is non-negative and sums to one, for two or more classes, with or without intercept.", "quantifier": "every fitted model and input", "why_tests_cant": "Over all data.", "anchors": ["skwdro/linear_models/_logistic_regression.py: predict_proba"]}
{"id": "C56", "title": "The solver name chooses the sampling scheme", "statement": "For each estimator the solver 'entropic_torch_post' uses post-sampling and 'entropic_torch_pre' pre-sampling.", "quantifier": "every estimator", "why_tests_cant": "Dispatch claims across estimators.", "anchors": ["skwdro/operations_research/_portfolio.py: fit", "skwdro/operations_research/_newsvendor.py: fit", "skwdro/operations_research/_weber.py: fit", "skwdro/linear_models/_linear_regression.py: fit", "skwdro/linear_models/_logistic_regression.py: fit"]}
{"id": "C57", "title": "Estimators work with their default arguments", "statement": "fit with default constructor arguments reaches a solver for each estimator and fit_intercept is honoured.", "quantifier": "every estimator", "why_tests_cant": "Dispatch over all paths.", "anchors": ["skwdro/operations_research/_newsvendor.py: __init__, fit", "skwdro/linear_models/_linear_regression.py: fit"]}
{"id": "C58", "title": "Binary logistic loss", "statement": "The binary loss is log(1+exp(-y*score)) for each score, in the shape of the scores, labels of the same number of elements being reshaped and others refused; as a function of the margin it is positive, decreasing in the margin, convex, 1-Lipschitz in the margin, and minus-symmetric loss(s,y)-loss(s,-y) = -y*s.", "quantifier": "all scores and labels", "why_tests_cant": "Over the reals.", "anchors": ["skwdro/base/losses_torch/logistic.py: BiDiffSoftMarginLoss"]}
{"id": "C59", "title": "Primal losses are the textbook ones", "statement": "The newsvendor, Weber and portfolio losses of the estimators compute, for each sample, k*theta-u*min(theta,xi), weight*distance to the current position, and -w'x + eta*(tau + max(-w'x-tau,0)/alpha); the value of a sample does not depend on the other samples of the batch or on how the batch is shaped. Minimised over tau the portfolio loss is the mean-CVaR objective, and it is convex in (w,tau).", "quantifier": "all parameters, inputs and batch shapes", "why_tests_cant": "Over the reals and over all batch shapes.", "anchors": ["skwdro/operations_research/_newsvendor.py: CustomNewsvendorLoss", "skwdro/base/losses_torch/weber.py: SimpleWeber.forward", "skwdro/base/losses_torch/portfolio.py: SimplePortfolio.forward"]}
{"id": "C60", "title": "Wrapped losses keep one value per sample", "statement": "WrappedPrimalLoss returns one loss value per sample: shape (n,m,1) for (n,m,d) inputs, (m,1) for (m,d) and one value for a single point, labelled or not; L2 regularisation adds 0.5*l2reg*||theta||^2 to each.", "quantifier": "every shape", "why_tests_cant": "Over all shapes.", "anchors": ["skwdro/base/losses_torch/wrapper.py: WrappedPrimalLoss.value", "skwdro/base/losses_torch/base_loss.py: regularize"]}
{"id": "C61", "title": "The objective has a best multiplier", "statement": "For a positive radius and a non-empty set of samples, the robust objective is bounded below over lambda >= 0, so that minimising it over lambda makes sense.", "quantifier": "every dataset, sample set, loss, radius, epsilon", "why_tests_cant": "Infimum over infinitely many multipliers.", "anchors": ["skwdro/solvers/_dual_interfaces/dual_loss.py: compute_dual"]}
{"id": "C62", "title": "A robust loss without sampler builds one lazily", "statement": "Calling a robust loss (or its solver) whose primal loss has no sampler yet initialises a sampler on the first batch, as the code announces, instead of failing.", "quantifier": "every robust loss, every first batch", "why_tests_cant": "Concerns every configuration in which no sampler has been set.", "anchors": ["skwdro/solvers/oracle_torch.py: DualPostSampledLoss.forward", "skwdro/solvers/entropic_dual_torch.py: optim_presample", "skwdro/base/losses_torch/base_loss.py: Loss.sampler"]}
{"id": "C63", "title": "The initial multiplier is optimal for every norm cost", "statement": "The initial multiplier is the minimiser of the linearised dual for every norm the cost may use, not only the Euclidean one.", "quantifier": "all norms, gradient batches, radii", "why_tests_cant": "Optimality against every multiplier and every displacement.", "anchors": ["skwdro/solvers/_dual_interfaces/dual_loss.py: get_initial_guess_at_dual"]}
{"id": "C64", "title": "Learning rates decay over the training", "statement": "With the Prodigy optimiser the cosine schedule of every parameter decreases over the steps the solver performs and reaches zero at the last one.", "quantifier": "all numbers of pretraining and training steps", "why_tests_cant": "All step counts.", "anchors": ["skwdro/solvers/oracle_torch.py: CompositeOptimizer.__init__, step"]}
{"id": "C65", "title": "The optimiser's parameter groups list what it trains", "statement": "The param_groups of the composite optimiser contain every parameter it updates (so that standard PyTorch tools such as gradient clipping or schedulers see them), and construction accepts exactly the two documented names.", "quantifier": "all parameter lists and names", "why_tests_cant": "All models.", "anchors": ["skwdro/solvers/oracle_torch.py: CompositeOptimizer.__init__"]}
{"id": "C66", "title": "The iteration limit of the stopping condition is honoured", "statement": "A stopping condition built with max_iter=N (N > 0) stops the robust optimisation after at most N iterations.", "quantifier": "every N, every budget, every history", "why_tests_cant": "All iteration counts and configurations.", "anchors": ["skwdro/solvers/optim_cond.py: OptCondTorch.__init__, check_iter"]}
{"id": "C67", "title": "The reported robust loss is that of the returned parameters", "statement": "The robust_loss returned by solve_dual_wdro is the value of the robust loss at the coef, intercept and dual variable it returns.", "quantifier": "every loss, optimiser, stopping condition, number of iterations", "why_tests_cant": "Over all optimisers and losses.", "anchors": ["skwdro/solvers/entropic_dual_torch.py: solve_dual_wdro, optim_presample, optim_postsample"]}
{"id": "C68", "title": "The robust loss is not left in ERM mode", "statement": "After a solve, successful or not, the robust loss evaluates the robust objective and not the plain empirical loss.", "quantifier": "every loss, optimiser, failure point", "why_tests_cant": "Over all failure points.", "anchors": ["skwdro/solvers/entropic_dual_torch.py: optim_presample, optim_postsample"]}
{"id": "C69", "title": "The pretraining minimises the plain empirical loss", "statement": "As announced, the pretraining steps of both solvers use the plain empirical loss and the following steps the robust one.", "quantifier": "every loss, optimiser, number of steps", "why_tests_cant": "Over all step counts.", "anchors": ["skwdro/solvers/entropic_dual_torch.py: optim_presample, optim_postsample"]}
{"id": "C70", "title": "The sampler's sigma is as documented", "statement": "init_covar's sigma is a standard deviation (covariance sigma^2 Id), accepted iff positive; the docstring says the covariance is Id/sigma**2.", "quantifier": "every dimension and sigma", "why_tests_cant": "All dimensions and real sigmas.", "anchors": ["skwdro/base/samplers/torch/base_samplers.py: IsOptionalCovarianceSampler.init_covar"]}
{"id": "C71", "title": "Every accepted cost can be used", "statement": "A cost specification accepted by parse_code_torch and cost_from_parse_torch can be used to build a robust loss with dualize_primal_loss.", "quantifier": "every specification string, every dataset", "why_tests_cant": "All powers and norms.", "anchors": ["skwdro/wrap_problem.py: dualize_primal_loss", "skwdro/base/costs_torch/normcost.py: _sampler_data", "skwdro/base/cost_decoder.py: parse_code_torch"]}
{"id": "C72", "title": "A larger kappa means less label noise", "statement": "The label noise drawn for a NormLabelCost shrinks as kappa, the price of moving a label, grows.", "quantifier": "every kappa, norm and power", "why_tests_cant": "All real kappas.", "anchors": ["skwdro/base/costs_torch/normlabelcost.py: _sampler_labels"]}
{"id": "C73", "title": "A robust loss that is built can be evaluated", "statement": "When dualize_primal_loss accepts a cost for data without labels, the cost of the resulting loss can be evaluated on data without labels.", "quantifier": "every specification string", "why_tests_cant": "All specification strings.", "anchors": ["skwdro/wrap_problem.py: dualize_primal_loss", "skwdro/base/costs_torch/normlabelcost.py: value"]}
{"id": "C74", "title": "The two newsvendor sample-average solvers agree", "statement": "SAANewsvendorSpecificSolver and SAANewsvendorSpecificSolver2 solve the same problem: for purchase price k at most the selling price u and non-negative demands an order is optimal for one programme iff it is for the other.", "quantifier": "every dataset of non-negative demands, k, u", "why_tests_cant": "tests compare two solutions on one dataset", "anchors": ["skwdro/solvers/specific_solvers.py: SAANewsvendorSpecificSolver, SAANewsvendorSpecificSolver2"]}
{"id": "C75", "title": "Newsvendor dual variable certifies the worst case", "statement": "After a dedicated fit, mean cost of coef_ on the data + dual_var_*rho is an upper bound on the expected cost of coef_ under every distribution of the Wasserstein-1 ball, and equals the worst case whenever the solver found a critical index.", "quantifier": "every dataset of non-negative demands, k, u, rho>=0, adversary", "why_tests_cant": "the ball is infinite-dimensional", "anchors": ["skwdro/operations_research/_newsvendor.py: NewsVendor.fit (dedicated branch)"]}
{"id": "C76", "title": "Dedicated portfolio guards against the ball of its cost", "statement": "For every transport cost given to Portfolio(solver='dedicated', cost=...), the value of the programme solved by fit bounds the mean-risk loss over the Wasserstein ball of radius rho for that cost.", "quantifier": "every cost code, dataset, radius", "why_tests_cant": "The ball is infinite-dimensional; the default cost hides the confusion between the power and the norm of the cost.", "anchors": ["skwdro/operations_research/_portfolio.py: Portfolio.fit (p = self.cost_.power)", "skwdro/solvers/specific_solvers.py: WDROPortfolioSpecificSolver"]}
{"id": "C77", "title": "Logistic and quadratic losses, sample by sample", "statement": "LogisticLoss.value and QuadraticLoss.value return for each observation the logistic loss of its margin, the squared error of its prediction, plus 0.5*l2reg*||coef||^2, on the axes of the observations, for labels of shape (N,) or (N,1).", "quantifier": "all data, coefficients, batch shapes", "why_tests_cant": "Over the reals and all shapes; tests that only look at one label shape or at the mean cannot see a broadcast to all pairs.", "anchors": ["skwdro/base/losses_torch/logistic.py: LogisticLoss.value", "skwdro/base/losses_torch/quadratic.py: QuadraticLoss.value"]}
{"id": "C78", "title": "NewsVendorLoss_torch is the newsvendor loss", "statement": "NewsVendorLoss_torch.value(xi, None) returns the newsvendor cost k*theta-u*min(theta,xi) of each observation.", "quantifier": "all parameters and demands", "why_tests_cant": "Over the reals and all shapes.", "anchors": ["skwdro/base/losses_torch/newsvendor.py: NewsVendorLoss_torch.value"]}
{"id": "C79", "title": "Misspelt solver names are refused", "statement": "An estimator given a solver name that is not one of the documented ones raises an error in fit.", "quantifier": "every estimator, name and dataset", "why_tests_cant": "Names are arbitrary strings.", "anchors": ["skwdro/operations_research/_newsvendor.py: fit", "skwdro/operations_research/_portfolio.py: fit", "skwdro/operations_research/_weber.py: fit", "skwdro/linear_models/_linear_regression.py: fit", "skwdro/linear_models/_logistic_regression.py: fit"]}
{"id": "C80", "title": "Documented hyperparameters reach the problem that is solved", "statement": "Each hyperparameter accepted by an estimator (rho, n_zeta_samples, learning_rate, l2_reg, kappa, reparam, fit_intercept...) changes the robust problem built by fit.", "quantifier": "every estimator, hyperparameter value and dataset", "why_tests_cant": "Absence of effect is a statement about all datasets.", "anchors": ["skwdro/operations_research/_newsvendor.py: fit", "skwdro/operations_research/_portfolio.py: fit", "skwdro/operations_research/_weber.py: fit", "skwdro/linear_models/_linear_regression.py: fit", "skwdro/linear_models/_logistic_regression.py: fit"]}
{"id": "C81", "title": "eval returns the objective that fit minimises", "statement": "After a successful fit, eval on the training data returns the empirical value of the loss the estimator was trained on.", "quantifier": "every estimator with eval, dataset and solver name", "why_tests_cant": "Over all data and both solver families.", "anchors": ["skwdro/operations_research/_newsvendor.py: eval", "skwdro/operations_research/_portfolio.py: eval", "skwdro/operations_research/_weber.py: eval"]}
{"id": "C82", "title": "predict returns one label per row, in a vector", "statement": "LogisticRegression.predict returns an array of shape (n_samples,), as documented.", "quantifier": "every fitted model and dataset, two or more classes", "why_tests_cant": "Over all data.", "anchors": ["skwdro/linear_models/_logistic_regression.py: predict"]}
{"id": "C83", "title": "Radius zero means no robustness", "statement": "A non-negative radius accepted by the constructor is served by fit, 0 being plain empirical risk minimisation; negative radii raise ValueError.", "quantifier": "every radius and dataset", "why_tests_cant": "Over all radii.", "anchors": ["skwdro/linear_models/_linear_regression.py: __init__, fit", "skwdro/solvers/specific_solvers.py: WDROLinRegSpecificSolver"]}
{"id": "C84", "title": "Empirical distributions give back their data", "statement": "A distribution built from arrays returns these data through the properties of its kind (samples, or samples_x and samples_y), the properties of the other kind raise AttributeError, what is assigned is read back, and only arrays are accepted.", "quantifier": "every heap, array, size and sequence of assignments", "why_tests_cant": "Two kinds of objects, three properties with setters of their own, and arbitrary objects in place of arrays.", "anchors": ["skwdro/base/problems.py: Distribution, EmpiricalDistributionWithoutLabels, EmpiricalDistributionWithLabels"]}
{"id": "C85", "title": "An empirical distribution is a snapshot of its data", "statement": "Writing into the arrays given to the constructor after construction does not change what the distribution contains.", "quantifier": "every heap, array and sequence of later writes", "why_tests_cant": "Aliasing only shows when the caller mutates the array afterwards.", "anchors": ["skwdro/base/problems.py: EmpiricalDistributionWithoutLabels.__init__, EmpiricalDistributionWithLabels.__init__"]}
{"id": "C86", "title": "Radii tried by the grid tuner", "statement": "RhoTunedEstimator(min_power, max_power) tries exactly the radii 10^-i for i between min_power and max_power, both ends included.", "quantifier": "every pair of integers", "why_tests_cant": "The set of pairs is infinite and an off-by-one at an end is silent: the search just never sees that radius.", "anchors": ["skwdro/base/rho_tuners.py: RhoTunedEstimator.fit"]}
{"id": "C87", "title": "compute_h is the gradient of the portfolio loss", "statement": "compute_h(x, theta, estimator) is the gradient in (theta, tau) of the mean-CVaR loss at x, and it raises exactly where that gradient does not exist.", "quantifier": "every portfolio, threshold, sample, eta and alpha", "why_tests_cant": "Derivative of a non-smooth function at all points.", "anchors": ["skwdro/base/rho_tuners_computations.py: indicator_func, scal_xi, compute_h"]}
{"id": "C88", "title": "compute_phi_star is the convex conjugate", "statement": "compute_phi_star(X, y, z, loss) is sup_a a.z - phi(a) with phi(a) a quarter of the mean over the samples of the squared norm of the mixed derivative applied to a.", "quantifier": "every dimension, number of samples, matrices of derivatives and vector z", "why_tests_cant": "A supremum over all vectors.", "anchors": ["skwdro/base/rho_tuners_computations.py: compute_phi_star"]}
{"id": "C89", "title": "Radius chosen by the portfolio tuner", "statement": "The radius is defined exactly when the loss is differentiable at each sample, is non-negative, bounded by the largest draw over sqrt(n), and its square is the 95% quantile of the draws of the limit law divided by n.", "quantifier": "every dataset, fitted portfolio, cost norm and random draws", "why_tests_cant": "Over all draws of the normal law.", "anchors": ["skwdro/base/rho_tuners.py: PortfolioBlanchetRhoTunedEstimator.fit", "skwdro/base/rho_tuners_computations.py: compute_phi_star_portfolio"]}
{"id": "C90", "title": "The draws come from the law of the gradients", "statement": "The normal law has the covariance of the gradients, one coordinate per parameter; a draw outside the range of the Hessian gets an infinite conjugate.", "quantifier": "every dataset", "why_tests_cant": "Shape errors are silent when the sizes happen to be consistent further on.", "anchors": ["skwdro/base/rho_tuners.py: PortfolioBlanchetRhoTunedEstimator.fit", "skwdro/base/rho_tuners_computations.py: compute_phi_star"]}
{"id": "C91", "title": "The Blanchet tuners can be fitted", "statement": "BlanchetRhoTunedEstimator(estimator).fit and PortfolioBlanchetRhoTunedEstimator(Portfolio(...)).fit find on the fitted estimator the attributes they read.", "quantifier": "every estimator class of the package and solver", "why_tests_cant": "All classes and branches of fit.", "anchors": ["skwdro/base/rho_tuners.py: BlanchetRhoTunedEstimator.fit, PortfolioBlanchetRhoTunedEstimator.fit"]}
{"id": "C92", "title": "Fits are independent of earlier fits", "statement": "Whether and when a fit stops does not depend on the fits made before, of this estimator or of others.", "quantifier": "every program of fits of any number of estimators and every sequence of observations of each run", "why_tests_cant": "Shared default arguments and kept references only show in particular sequences of fits.", "anchors": ["skwdro/operations_research/_weber.py: __init__, fit", "skwdro/operations_research/_portfolio.py: __init__, fit", "skwdro/operations_research/_newsvendor.py: __init__, fit", "skwdro/linear_models/_linear_regression.py: __init__, fit", "skwdro/linear_models/_logistic_regression.py: __init__, fit", "skwdro/solvers/optim_cond.py: OptCondTorch"]}
{"id": "C93", "title": "Construction of a stopping condition", "statement": "OptCondTorch(order, ...) accepts exactly positive orders and 'inf', keeps the settings it was given and starts without memory.", "quantifier": "every order, tolerance and names", "why_tests_cant": "Infinite set of orders and strings.", "anchors": ["skwdro/solvers/optim_cond.py: OptCondTorch.__init__"]}
{"id": "C94", "title": "What the cost samplers draw", "statement": "A sampler built from a cost at a batch draws n tensors of the shape of the batch, each equal to the batch plus sigma (1e-3 when none is given) times standard noise; the labels are exact copies when they may not move (cost without labels, or kappa infinite) and otherwise the labels plus noise of scale sigma/kappa (power 1) or sigma (power 2), drawn after the data from the state the data left behind. The law drawn from is a decreasing function of the transport cost, so that points equally costly are equally likely; it is exp(-c/sigma) for the 1-norm, exp(-c/(2 sigma^2)) for the squared 2-norm. At radius 0 nothing is drawn.", "quantifier": "every batch, sigma, number of samples, generator and generator state; every point of the space for the densities", "why_tests_cant": "A test sees a few draws of one generator; neither the law nor the order of the draws can be read from them.", "anchors": ["skwdro/base/costs_torch/normcost.py: _sampler_data, _sampler_labels", "skwdro/base/costs_torch/normlabelcost.py: _sampler_labels", "skwdro/base/samplers/torch/cost_samplers.py: NoLabelsCostSampler, LabeledCostSampler", "skwdro/base/samplers/torch/base_samplers.py: sample, sample_data, sample_labels", "skwdro/solvers/oracle_torch.py: DualPostSampledLoss.forward"]}
{"id": "C95", "title": "The stopping condition fails exactly when it cannot measure", "statement": "With the gradient metric, a watched multiplier without gradient raises NoneGradError, a watched parameter without gradient raises ValueError and a loss without parameters raises RuntimeError (also with the parameter metric), in every state of the condition. With documented settings and a loss that has its gradients and keeps its size, no evaluation of a new condition ever raises, however many there are.", "quantifier": "every state, every sequence of evaluations, every norm", "why_tests_cant": "Absence of exceptions over all sequences of evaluations, and exceptions from every reachable state, are not finite checks.", "anchors": ["skwdro/solvers/optim_cond.py: OptCondTorch.__call__, check_all_params, check_t, check_l, get_flat_grad, get_flat_param", "skwdro/solvers/utils.py: maybe_flatten_grad_else_raise"]}
{"id": "C96", "title": "A checkpoint restores the composite optimiser", "statement": "state_dict then load_state_dict, into any CompositeOptimizer over as many parameters, restores the learning rates, options and states of both inner optimisers and changes nothing else; a checkpoint that does not fit is refused; training resumed from a checkpoint continues as if it had not been interrupted.", "quantifier": "all optimisers, parameters, options, states and dictionaries", "why_tests_cant": "Round trips over arbitrary states and the whole future of a resumed training are not finite checks.", "anchors": ["skwdro/solvers/oracle_torch.py: CompositeOptimizer.state_dict, load_state_dict"]}
{"id": "C97", "title": "A copied optimiser works like the original", "statement": "copy.deepcopy or pickle of a CompositeOptimizer gives an optimiser whose methods can be called.", "quantifier": "every optimiser state and every method", "why_tests_cant": "Every state and method; no test copies the optimiser.", "anchors": ["skwdro/solvers/oracle_torch.py: CompositeOptimizer"]}
{"id": "C98", "title": "reset_lbd_state restarts the multiplier's optimiser", "statement": "After any history of steps, resets, loads and failed calls, reset_lbd_state puts the multiplier's optimiser back into its initial state and leaves the rest untouched, and the multiplier's learning rate then follows its schedule from the start.", "quantifier": "all histories of calls and all step counts", "why_tests_cant": "All histories; the learning rate far in the future depends on every earlier step.", "anchors": ["skwdro/solvers/oracle_torch.py: CompositeOptimizer.reset_lbd_state, step, __init__"]}
{"id": "C99", "title": "Dirac's moments, support and expansion agree with its samples", "statement": "expand accepts exactly the batch shapes extending the current one and its samples repeat the location; mean, variance and mode are those of the samples; the enumerated support is the only value of positive likelihood; perplexity is exp(entropy); entropy has the batch shape; construction refuses exactly NaN and scalar locations when validating.", "quantifier": "all shapes, locations, batch dimensions and sample shapes", "why_tests_cant": "Shapes of every rank and every location.", "anchors": ["skwdro/distributions/dirac_distribution.py: Dirac.__init__, expand, mean, mode, variance, enumerate_support, entropy, perplexity"]}
{"id": "C100", "title": "After the pretraining the multiplier's optimiser is reset", "statement": "Between pretraining and robust training the solvers initialise the multiplier and, when the optimiser offers it, reset the multiplier's optimiser state exactly once before the first robust step.", "quantifier": "all losses, optimisers, budgets and starting states, with everything outside the loops arbitrary and allowed to raise", "why_tests_cant": "Order of effects over unbounded loops and arbitrary optimisers.", "anchors": ["skwdro/solvers/entropic_dual_torch.py: optim_presample, optim_postsample"]}
{"id": "C101", "title": "The epsilon-study solver returns a result for pre-sampled losses", "statement": "solve_dual_wdro of the epsilon study returns a result for a pre-sampled loss whenever its loops end.", "quantifier": "all losses, optimisers, budgets and starting states", "why_tests_cant": "A claim about every execution.", "anchors": ["skwdro/solvers/__entropic_dual_torch_epsilon.py: solve_dual_wdro, optim_presample"]}
{"id": "C102", "title": "The epsilon-study solver reports the final robust loss", "statement": "For a post-sampled loss the study pretrains in ERM mode, initialises the multiplier, resets its optimiser, trains, and reports the robust loss of the last step.", "quantifier": "all losses, optimisers, budgets, stopping tests and starting states", "why_tests_cant": "Order of effects and logs over unbounded loops.", "anchors": ["skwdro/solvers/__entropic_dual_torch_epsilon.py: solve_dual_wdro, optim_postsample"]}
{"id": "C103", "title": "What the explicit-covariance samplers draw", "statement": "ClassificationNormalNormalSampler, NormalIdSampler, NormalBernouilliSampler and NoLabelsSampler draw data moved by the Cholesky factor (or standard deviation) times standard noise around each point, data first, then labels: blurred, copied, or kept/negated coin by coin.", "quantifier": "every batch, factor, generator and generator state, number of samples", "why_tests_cant": "Exact entries of every draw for every generator.", "anchors": ["skwdro/base/samplers/torch/classif_sampler.py", "skwdro/base/samplers/torch/base_samplers.py: BaseSampler.sample", "skwdro/distributions/dirac_distribution.py"]}
{"id": "C104", "title": "Default samplers of the losses", "statement": "default_sampler of the losses accepts exactly positive radii and blurs data (and labels) with that radius; a loss built without a sampler gets the best-effort one; the labels drawn for the logistic loss are labels it accepts.", "quantifier": "every loss class, batch, radius, seed and generator", "why_tests_cant": "All batches and generators, and all constructor calls.", "anchors": ["skwdro/base/losses_torch/base_loss.py: Loss.__init__", "skwdro/base/losses_torch/logistic.py: default_sampler", "skwdro/base/losses_torch/quadratic.py: default_sampler", "skwdro/base/losses_torch/newsvendor.py: default_sampler"]}
{"id": "C105", "title": "The sampler set last is the sampler used", "statement": "After any sequence of settings, deletions and initialisations of the sampler, generate_zetas draws from the sampler left by the last effective one, as many samples as asked for (n when positive, else n_samples), and the loss's sampler attribute shows it; iterating over a sampler never ends.", "quantifier": "all sequences of operations, samplers, generators and counts", "why_tests_cant": "All sequences of operations.", "anchors": ["skwdro/solvers/_dual_interfaces/_misc_dual_interfaces.py: sampler, init_sampler, generate_zetas", "skwdro/base/samplers/torch/base_samplers.py: __iter__, __next__"]}
{"id": "C106", "title": "Distance to the unregularised robust objective", "statement": "The entropic objective lies below the largest penalised loss over the samples, averaged over the data, by at most epsilon log(n_samples), so tends to it as epsilon vanishes; and above the average over the samples, by at most twice the average variance over epsilon.", "quantifier": "all batches, losses, costs, radii, multipliers and epsilons", "why_tests_cant": "Bounds and limits over all real parameters.", "anchors": ["skwdro/solvers/_dual_interfaces/dual_loss.py: compute_dual"]}
{"id": "C107", "title": "Convex losses give a jointly convex and stable objective", "statement": "The robust objective is jointly convex in the loss (hence in the parameters of a loss convex in them) and the multiplier, and moves by at most delta when the loss moves by at most delta on the samples.", "quantifier": "all batches, losses, costs and parameters", "why_tests_cant": "Universally quantified inequalities.", "anchors": ["skwdro/solvers/_dual_interfaces/dual_loss.py: compute_dual"]}
{"id": "C108", "title": "Order, repetition and batching of data and samples do not matter", "statement": "The robust objective with mean reduction does not depend on the order of the data nor of the samples of each point; over two batches it is the size-weighted average; drawing every sample twice changes nothing.", "quantifier": "all batches and permutations", "why_tests_cant": "All permutations of all batches.", "anchors": ["skwdro/solvers/_dual_interfaces/dual_loss.py: compute_dual"]}
{"id": "C109", "title": "The derivative in the multiplier is the budget left by the Gibbs adversary", "statement": "The robust objective is differentiable in the multiplier, with derivative rho^p minus the average cost of the adversary weighting samples by exp((loss - lambda cost)/epsilon); at a best multiplier this adversary spends at most the budget, exactly it when the multiplier is positive.", "quantifier": "all batches, losses, costs and parameters", "why_tests_cant": "A statement about derivatives and minimisers over the reals.", "anchors": ["skwdro/solvers/_dual_interfaces/dual_loss.py: compute_dual"]}
{"id": "C110", "title": "What fit hands to the robust loss", "statement": "The robust loss built by fit has the user's radius, number of samples, learning rate, epsilon (solver_reg), l2 penalty and seed; Prodigy is used exactly when no learning rate is given; its sampler is centred at the training data (for NewsVendor the averages over the features) and the encoded labels, with standard deviation sampler_reg, or half the radius when none is given (one half at radius 0); losses are averaged over labels except with more than two classes; Portfolio refuses a matrix C of another width exactly when d is given too.", "quantifier": "all constructor arguments, datasets, labels and behaviours of float()", "why_tests_cant": "All arguments and datasets; wrong hand-overs still train.", "anchors": ["skwdro/operations_research/_newsvendor.py: NewsVendor.fit", "skwdro/operations_research/_portfolio.py: Portfolio.fit", "skwdro/operations_research/_weber.py: Weber.fit", "skwdro/linear_models/_linear_regression.py: LinearRegression.fit", "skwdro/linear_models/_logistic_regression.py: LogisticRegression.fit", "skwdro/wrap_problem.py: dualize_primal_loss"]}
{"id": "C111", "title": "LinearRegression predicts the affine function it was trained for", "statement": "predict returns one value per row, the inner product with coef_ plus intercept_, and the dedicated programme's objective is the root-mean-square error of these predictions on the training data plus rho times the norm of the coefficients.", "quantifier": "all coefficients, intercepts, radii and data", "why_tests_cant": "All real inputs.", "anchors": ["skwdro/linear_models/_linear_regression.py: LinearRegression.predict", "skwdro/solvers/specific_solvers.py: WDROLinRegSpecificSolver"]}
{"id": "C112", "title": "The robust loss, from tensors to one number", "statement": "Given m data points (m,d), optional labels (m,d') and n samples of each (n,m,d), (n,m,d'), the tensor program of compute_dual, with its broadcasts, squeezes and reductions, returns lam*rho^power + mean over the points j of eps*log of the mean over the samples i of exp((L(zeta_ij) - lam*c(xi_j,zeta_ij))/eps): each sample meets its own data point and label only. This needs nothing of the loss but that it treats samples separately, which the wrapped losses do. With importance sampling and the squared Euclidean cost, each sample is moved by the clipped gradient of its own data point over 2*lam, and for unlabelled data the exponential is weighted by the ratio of the Gaussian densities centred at the data point and at the moved point; with the labelled sampler nothing is weighted. One data point with zero gradient, or lam = 0, turns this off for the whole batch.", "quantifier": "all batch sizes, numbers of samples, dimensions, data, samples, losses, cost exponents, radii > 0, epsilon <> 0 and multipliers; all gradients", "why_tests_cant": "A wrong axis or broadcast still gives a finite number of the right shape; tests run one configuration and look at the end of training only.", "anchors": ["skwdro/solvers/_dual_interfaces/dual_loss.py: compute_dual", "skwdro/solvers/_dual_interfaces/_impsamp_interface.py: displace_samples", "skwdro/base/losses_torch/wrapper.py: WrappedPrimalLoss.value", "skwdro/base/costs_torch/normcost.py: value, solve_max_series_exp", "skwdro/base/costs_torch/normlabelcost.py: value, solve_max_series_exp", "skwdro/base/samplers/torch/base_samplers.py: log_prob, log_prob_recentered"]}
{"id": "C113", "title": "What each estimator minimises", "statement": "The robust loss that fit builds, evaluated on tensors of data and samples, is lam*rho^power + mean over data points of eps*log mean over their samples of exp((L - lam*c)/eps), where L is the loss of that estimator at its current parameters plus its own penalty: squared residual and l2/2 times the squared norm of weights and bias for LinearRegression; log(1+exp(-y s)) with the smaller label as -1, or the cross-entropy of softmax regression against indicator rows, for LogisticRegression with or without bias; weight times distance plus the penalty on the position for Weber; k*theta - u*min(theta, mean feature) for NewsVendor and the mean-risk loss of softmax weights for Portfolio, both without penalty. The radius, the data and the labels are those given to fit. With importance sampling, which the defaults of the three labelled estimators turn on, the same holds on the samples moved along the gradients.", "quantifier": "all estimators, constructor arguments with a positive radius, data, labels, parameters, samples, multipliers and gradients", "why_tests_cant": "Every ingredient (penalty on the right parameters, label coding, loss, cost, radius, axes) is set in a different file; a test of fit sees the optimum of some problem, not which one.", "anchors": ["skwdro/linear_models/_linear_regression.py: LinearRegression.fit", "skwdro/linear_models/_logistic_regression.py: LogisticRegression.fit", "skwdro/operations_research/_weber.py: Weber.fit", "skwdro/operations_research/_newsvendor.py: NewsVendor.fit", "skwdro/operations_research/_portfolio.py: Portfolio.fit", "skwdro/wrap_problem.py: dualize_primal_loss", "skwdro/base/losses_torch/wrapper.py: WrappedPrimalLoss", "skwdro/solvers/_dual_interfaces/dual_loss.py: compute_dual"]}
{"id": "C114", "title": "The gradients used by importance sampling and the initial multiplier are those of each sample's own loss", "statement": "compute_functional_grads differentiates, for each data point (and label), the loss of that point alone plus the penalty, and returns one gradient per point, of the data's (and the label's) width. For each estimator these are the explicit gradients of its loss: for LinearRegression 2 r theta and -2 r with r the residual; for logistic, Weber, newsvendor, portfolio and multi-class losses the corresponding formulas. Any loss of the library can be differentiated this way.", "quantifier": "all differentiable losses, data, labels, parameters and penalties; any differentiation operator that returns the gradient where there is one", "why_tests_cant": "Autograd and vmap run on every sample at once; a loss that mixes samples, or a penalty counted once too often, gives gradients of the right shape.", "anchors": ["skwdro/solvers/_dual_interfaces/_impsamp_interface.py: compute_functional_grads, get_displacement_direction, get_optimal_displacement", "skwdro/base/losses_torch/wrapper.py: WrappedPrimalLoss.value", "skwdro/base/losses_torch/logistic.py: LogisticLoss.value", "skwdro/base/losses_torch/quadratic.py: QuadraticLoss.value"]}
{"id": "C115", "title": "A stationary point of the robust objective of a convex loss is its global minimum", "statement": "The objective that training differentiates has, with respect to (lam, theta), the gradient whose first entry is the budget left unspent by the Gibbs adversary and whose others are the Gibbs averages of the loss gradients. For losses convex in the parameters, a point where this gradient vanishes (or, at lam = 0, points outwards) is a saddle point: no multiplier or parameter has a smaller value and no adversary within the budget does worse. Conversely every minimiser is stationary. This is the case for LinearRegression and binary LogisticRegression.", "quantifier": "all data, drawn samples, radii, regularisations and parameters; all differentiable convex losses; LinearRegression and LogisticRegression with two classes, with and without intercept, without importance sampling", "why_tests_cant": "Training stops somewhere near a stationary point; that there is no lower value elsewhere is a statement about all other parameters and multipliers, and about all adversaries.", "anchors": ["skwdro/solvers/_dual_interfaces/dual_loss.py: compute_dual", "skwdro/solvers/_dual_interfaces/_misc_dual_interfaces.py: reduce_loss_batch", "skwdro/linear_models/_linear_regression.py: LinearRegression.fit", "skwdro/linear_models/_logistic_regression.py: LogisticRegression.fit"]}
{"id": "C116", "title": "The initial multiplier of a labelled problem minimises the linearised dual", "statement": "For the cost (|dx| + kappa |dy|)^p / (1 + kappa)^p, get_initial_guess_at_dual sets the multiplier to the minimiser over lam >= 0 of lam rho^p plus the mean of sup over (dx, dy) of <g, dx> + <gl, dy> - lam cost, g and gl being the gradients of the loss in the features and the label.", "quantifier": "all gradients with one not zero, all kappa > 0 (and kappa = 0 or infinite), powers p > 1, radii; for LinearRegression all data, parameters and kappa", "why_tests_cant": "A multiplier that is off by a constant factor still trains, only slower; whether it is the minimiser is a statement about every other multiplier and every displacement.", "anchors": ["skwdro/solvers/_dual_interfaces/dual_loss.py: get_initial_guess_at_dual", "skwdro/base/costs_torch/normlabelcost.py: value", "skwdro/solvers/_dual_interfaces/_impsamp_interface.py: get_displacement_direction"]}
{"id": "C117", "title": "The sampled objective underestimates the integral objective and approaches it", "statement": "The objective computed from n drawn samples per data point is, in expectation, at most the one with exact integrals instead of averages (also with importance sampling, towards the same exact objective), and does not decrease in expectation when one more sample is drawn. For uncorrelated samples the probability that it is further than - eps log (1 - d) from the exact one is at most the sum of var_j / m_j^2 divided by n d^2, so it vanishes as the number of samples grows.", "quantifier": "all laws of the samples (arbitrary positive linear functionals), losses, costs, data, multipliers, radii, regularisations and numbers of samples", "why_tests_cant": "The bias and the deviations are statements about expectations over all draws; a run sees one draw.", "anchors": ["skwdro/solvers/_dual_interfaces/dual_loss.py: compute_dual", "skwdro/solvers/specific_solvers.py: sample", "skwdro/solvers/_dual_interfaces/_impsamp_interface.py: displace_samples"]}
{"id": "C118", "title": "The trained objective never exceeds the exact worst case", "statement": "At a suitable multiplier (given explicitly), the objective that training evaluates on any drawn samples is at most the worst case over all transports of the data within the radius. For LinearRegression with the squared Euclidean cost on the features it is at most the square of what the dedicated solver minimises, plus the penalty; with labels that may move at weight kappa, at most (root mean squared residual + rho (1 + kappa) max(norm of the weights, 1 / kappa))^2 plus the penalty, also with importance sampling. For LogisticRegression, Weber, NewsVendor and Portfolio it is at most the mean loss plus rho times the slope of the loss.", "quantifier": "all data, parameters, samples, radii, regularisations; all powers of the cost from 1 (2 for LinearRegression) and all norms for which the slope holds", "why_tests_cant": "The worst case ranges over all distributions within the radius; a run compares a few samples.", "anchors": ["skwdro/solvers/_dual_interfaces/dual_loss.py: compute_dual", "skwdro/linear_models/_linear_regression.py: LinearRegression.fit", "skwdro/linear_models/_logistic_regression.py: LogisticRegression.fit", "skwdro/operations_research/_weber.py: Weber.fit", "skwdro/operations_research/_newsvendor.py: NewsVendor.fit", "skwdro/operations_research/_portfolio.py: Portfolio.fit", "skwdro/solvers/specific_solvers.py: WDROLinRegSpecificSolver"]}
{"id": "C119", "title": "The type of the features does not change the targets", "statement": "LogisticRegression trains on targets -1 and +1 (one-hot rows for more classes) whatever the numeric type of X: the encoded labels are cast to X.dtype before the zeros are overwritten with -1. True for signed integers and floats, and for more than two classes. False for boolean X (both classes become 1, so different labellings give the same training data) and unsigned X (the target of the smaller class is not negative on any platform): the training loss then decreases for ever as the intercept grows, i.e. the larger class is learned for every point.", "quantifier": "every label vector, every numeric type of the features, every platform conversion of -1 to unsigned", "why_tests_cant": "Tests use float features; the cast is silent.", "anchors": ["skwdro/linear_models/_logistic_regression.py: LogisticRegression.fit"]}
{"id": "C120", "title": "The data reach the solver unchanged", "statement": "extract_data (and fit) hand the data to torch as float32. Numbers of float32, in particular integers up to 2^24, are kept; other numbers become the nearest float32, with a relative change of at most 2^-24 in the normal range and order kept; finite exactly below (2^24 - 1/2) 2^104 and infinite from there. False in general for float64 data: different data sets become equal, finite data become infinite, and a positive radius becomes 0.", "quantifier": "every data set of dyadic numbers (all integers and floats), every binary format", "why_tests_cant": "The conversion is silent and exact on the small numbers of tests.", "anchors": ["skwdro/solvers/entropic_dual_torch.py: extract_data", "skwdro/linear_models/_linear_regression.py: LinearRegression.fit", "skwdro/linear_models/_logistic_regression.py: LogisticRegression.fit", "skwdro/operations_research/_weber.py: Weber.fit", "skwdro/operations_research/_portfolio.py: Portfolio.fit", "skwdro/operations_research/_newsvendor.py: NewsVendor.fit"]}
{"id": "C121", "title": "With importance sampling the objective never exceeds the exact worst case", "statement": "NewsVendor and Portfolio train with importance sampling. At a given multiplier lam, the objective on any drawn samples should be at most lam rho^2 plus the mean of the exact worst cases sup_z L(z) - lam |z - x|^2 (true of plain samples, C118). With the squared Euclidean cost and r = 2 eps / (lam rho^2), the reweighted objective is at most lam rho^2 + mean loss + slope^2 / (4 lam) (1 + 3 r + r^2). For Portfolio with eta = 0 the property holds for all draws exactly if r <= 1. For NewsVendor it holds up to the closed form if r + r^2 <= 1 and fails for some draws if r > 1 and all demands are below the decision.", "quantifier": "all data, samples, decisions, multipliers, radii and regularisations; all tests of r are exact", "why_tests_cant": "The draws that exceed the worst case are rare, and the bound over all draws cannot be seen from a run.", "anchors": ["skwdro/solvers/_dual_interfaces/_impsamp_interface.py: get_displacement_direction", "skwdro/solvers/_dual_interfaces/_impsamp_interface.py: displace_samples", "skwdro/solvers/_dual_interfaces/dual_loss.py: compute_dual", "skwdro/operations_research/_newsvendor.py: NewsVendor.fit", "skwdro/operations_research/_portfolio.py: Portfolio.fit"]}
{"id": "C122", "title": "Documented fitted attributes exist after a fit", "statement": "After a successful fit, every attribute the class documents exists and was made by that call (coef_ and intercept_ of the regressions, coef_ of NewsVendor and so on; intercept_ is None for LogisticRegression without an intercept). False for Weber: its documented position_ is never assigned, whatever fits are made.", "quantifier": "all arguments, states reached by earlier calls, data sets, solver names and outcomes of the inner calls", "why_tests_cant": "No test reads the documented attribute of Weber, and tests fit new objects once.", "anchors": ["skwdro/operations_research/_newsvendor.py: NewsVendor.fit", "skwdro/operations_research/_weber.py: Weber.fit", "skwdro/linear_models/_linear_regression.py: LinearRegression.fit", "skwdro/linear_models/_logistic_regression.py: LogisticRegression.fit"]}
{"id": "C123", "title": "fit leaves the constructor's parameters as they were", "statement": "scikit-learn's convention: __init__ stores each argument unchanged under its own name, fit does not write them. The constructor part and clone of a new object hold. fit, on success or failure, leaves every parameter alone except rho, which becomes the float of the same value, and opt_cond, which if None becomes the condition built by the call; so after a fit get_params and clone differ. With a float radius and a condition given, nothing changes.", "quantifier": "all arguments, all five estimators, all data sets and outcomes, including fits that raise", "why_tests_cant": "Which parameters are written on which failing path is a statement about all paths.", "anchors": ["skwdro/operations_research/_newsvendor.py: NewsVendor.__init__", "skwdro/operations_research/_newsvendor.py: NewsVendor.fit", "skwdro/operations_research/_portfolio.py: Portfolio.__init__", "skwdro/operations_research/_portfolio.py: Portfolio.fit", "skwdro/operations_research/_weber.py: Weber.__init__", "skwdro/operations_research/_weber.py: Weber.fit", "skwdro/linear_models/_linear_regression.py: LinearRegression.__init__", "skwdro/linear_models/_linear_regression.py: LinearRegression.fit", "skwdro/linear_models/_logistic_regression.py: LogisticRegression.__init__", "skwdro/linear_models/_logistic_regression.py: LogisticRegression.fit"]}
{"id": "C124", "title": "Answers come from the last successful fit", "statement": "predict, predict_proba and eval change nothing; before any fit they raise; after a successful fit, whatever happened before, all they read was made by that call. False around the edges: eval before fit raises AttributeError instead of NotFittedError; after a fit that failed, predict answers from an earlier fit with the new label encoder, or with the untrained model; the name of a solver may be changed, or be one that fit accepts and eval refuses.", "quantifier": "all sequences of calls, all arguments, data sets and outcomes", "why_tests_cant": "Needs sequences of calls with failures in between.", "anchors": ["skwdro/operations_research/_newsvendor.py: NewsVendor.eval", "skwdro/operations_research/_portfolio.py: Portfolio.eval", "skwdro/operations_research/_weber.py: Weber.eval", "skwdro/linear_models/_linear_regression.py: LinearRegression.predict", "skwdro/linear_models/_logistic_regression.py: LogisticRegression.predict", "skwdro/linear_models/_logistic_regression.py: LogisticRegression.predict_proba"]}
{"id": "C125", "title": "The convergence test uses the norm of its order", "statement": "A condition of order p measures the gradients in the p-norm ('inf': the largest partial derivative in absolute value), of all parameters together. The default condition of the estimators stops at a Euclidean norm below 1e-8 times the first one, LogisticRegression's below 1e-4 times. With an absolute tolerance a larger order stops whenever a smaller one does; with a relative tolerance this is false. A relative tolerance gives the same answers for gradients multiplied by any factor; a NaN never counts as converged, and after an infinite first gradient every finite one does.", "quantifier": "all gradients, tolerances and orders, all numbers of evaluations", "why_tests_cant": "The order of the norm shows only in when a run stops; tests run to the iteration limit.", "anchors": ["skwdro/solvers/optim_cond.py: OptCondTorch.__init__", "skwdro/solvers/optim_cond.py: OptCondTorch.check_metric", "skwdro/linear_models/_logistic_regression.py: DEFAULT_OCOND", "skwdro/solvers/entropic_dual_torch.py: solve_dual_wdro"]}
{"id": "C126", "title": "Data with another number of features is refused", "statement": "After a fit on k features, predict, predict_proba and eval raise on data with d <> k features. Holds for LinearRegression, Portfolio, LogisticRegression with several features, several classes or the dedicated solver. False for a LogisticRegression fitted on one feature by a torch solver, whose predict_proba answers with an array of shape (d, 2n), and for NewsVendor.eval, which answers with the mean over all entries.", "quantifier": "all fitted parameters, all data of any width", "why_tests_cant": "Tests predict on the data they were fitted on.", "anchors": ["skwdro/linear_models/_logistic_regression.py: LogisticRegression.predict", "skwdro/linear_models/_logistic_regression.py: LogisticRegression.predict_proba", "skwdro/linear_models/_logistic_regression.py: LogisticRegression.predict_proba_2Class", "skwdro/linear_models/_linear_regression.py: LinearRegression.predict", "skwdro/operations_research/_portfolio.py: Portfolio.eval", "skwdro/operations_research/_newsvendor.py: NewsVendor.eval"]}
{"id": "C127", "title": "Pre-sampled and post-sampled losses agree on the same samples", "statement": "For a positive radius, a pre-sampled dual loss given samples, the same loss called again without samples, and a post-sampled dual loss whose sampler draws those samples return the same value or the same exception; the samples given are kept unchanged. Without samples and without kept ones, or without a sampler, the call raises ValueError.", "quantifier": "all losses, costs, samplers' densities, data, samples, multipliers and reductions", "why_tests_cant": "The tests exercise one of the two classes, with random samples.", "anchors": ["skwdro/solvers/oracle_torch.py: DualPreSampledLoss.forward", "skwdro/solvers/oracle_torch.py: DualPostSampledLoss.forward"]}
{"id": "C128", "title": "Estimators can be cloned after a fit, and the fits of a search are independent", "statement": "sklearn.base.clone of a fitted estimator succeeds whatever stopping condition it holds, and in a search that clones one estimator per candidate each candidate is fitted as it would be on its own.", "quantifier": "every stopping condition, every history of fits, every list of candidates", "why_tests_cant": "Whether a copy is possible depends on tensors the condition kept from an earlier fit; a test that clones a fresh estimator never sees them, and one search does not show what another would have done.", "anchors": ["skwdro/base/rho_tuners.py: RhoTunedEstimator.fit", "skwdro/solvers/optim_cond.py: OptCondTorch.check_t, check_l, get_flat_param", "skwdro/linear_models/_logistic_regression.py: DEFAULT_OCOND"]}
{"id": "C129", "title": "score ranks fitted models by the objective they were trained for", "statement": "Of two fitted models scored on the same data, the one with the smaller mean training loss has the larger score; every fitted estimator has a score.", "quantifier": "every pair of fitted parameters, every data set, every solver name", "why_tests_cant": "A test compares two or three models; that an order is kept, or can be reversed, concerns all pairs of them.", "anchors": ["skwdro/operations_research/_newsvendor.py: NewsVendor.score", "skwdro/operations_research/_portfolio.py: Portfolio.score", "skwdro/operations_research/_weber.py: Weber.score", "skwdro/linear_models/_linear_regression.py: LinearRegression", "skwdro/linear_models/_logistic_regression.py: LogisticRegression"]}
{"id": "C130", "title": "The template estimators are a nearest-neighbour rule, a square root and a constant", "statement": "TemplateClassifier.predict gives each query the label of its nearest training sample and gives the training labels back; TemplateTransformer takes entry-wise square roots; TemplateEstimator returns ones; all refuse data they cannot use, and predictions before a fit.", "quantifier": "every training set, every labelling, every query, every width", "why_tests_cant": "Nearest means nearest among all samples, ties included, for every query point; a test looks at a few points without ties.", "anchors": ["skwdro/_template.py: TemplateEstimator, TemplateClassifier, TemplateTransformer"]}
{"id": "C131", "title": "A given learning rate is the optimiser's, and adapt chooses the optimiser", "statement": "A learning rate given to an estimator or to dualize_primal_loss is the rate of the optimiser of the robust loss; without one Prodigy is used, or L-BFGS with rate 1 on pre-sampled losses; adapt selects the optimiser and an unknown name is refused. The rate bounds the first move of the parameters.", "quantifier": "every estimator, every argument and dataset, every rate, every adapt name, every gradient", "why_tests_cant": "Whether the rate is used at all depends on adapt, on post_sample and on the solver name together; trainings with and without it look alike.", "anchors": ["skwdro/solvers/oracle_torch.py: DualPostSampledLoss.__init__, DualPreSampledLoss.__init__", "skwdro/wrap_problem.py: dualize_primal_loss", "doc/pytorch.rst"]}
{"id": "C132", "title": "Misspelt options of the stopping condition are reported", "statement": "A stopping condition whose mode or metric is not one of the documented names raises ValueError when it is evaluated; with documented names it always answers: never stops at its first evaluation within the budget, stops when the iteration reaches n_iter, and goes on answering.", "quantifier": "every condition, every history of evaluations on every robust loss, every norm", "why_tests_cant": "The constructor accepts every string, and whether the comparison that raises is reached depends on the tolerances, on the metric and on how many evaluations came before.", "anchors": ["skwdro/solvers/optim_cond.py: OptCondTorch.__call__, check_t, check_l", "tests/torch_tests/test_optim_cond.py"]}
{"id": "C133", "title": "Predictions of the library's losses agree with what they penalise", "statement": "LogisticLoss.predict returns, sample by sample, a score strictly between -1 and 1 whose sign is the label of smaller loss and whose value is the hyperbolic tangent of the difference between the two labels' losses, so thresholding it gives LogisticRegression.predict; QuadraticLoss.regression returns the unique target of smallest loss. A new LogisticLoss predicts 0 and costs ln 2 everywhere. A dimension that is not positive raises AssertionError and data of another width RuntimeError.", "quantifier": "every weight vector, bias, penalty, batch shape and data; every dimension", "why_tests_cant": "The agreement between a score, a loss for each label and an estimator's decision (including ties) is a statement over all reals; the tests check only that the predictions lie in [-1, 1].", "anchors": ["skwdro/base/losses_torch/logistic.py: LogisticLoss.__init__, predict, value", "skwdro/base/losses_torch/quadratic.py: QuadraticLoss.__init__, regression, value", "tests/torch_tests/test_preimplemented_losses.py: TestLogisticLoss, TestQuadraticLoss"]}
{"id": "C134", "title": "AdamW moves every coordinate by a bounded amount, and keeps moving", "statement": "With the moments and constants of the AdamW built by the library (betas 0.99 and 0.999, no weight decay), no step moves a coordinate by more than eight learning rates whatever the gradients were; so after n steps the dual multiplier, which starts at 1e-3/rho, is within 8 n learning rates of it. A constant gradient g gives steps of exactly lr g/(|g| + 1e-8). After one gradient g, a step with gradient zero still moves by about 0.7 learning rates.", "quantifier": "every sequence of gradients, learning rate, radius and number of steps", "why_tests_cant": "The bound is over all gradient sequences (an adversarial one is needed to approach it); a test sees one trajectory and no bound.", "anchors": ["skwdro/solvers/oracle_torch.py:197-202 (DualPostSampledLoss.__init__)", "skwdro/solvers/_dual_interfaces/_misc_dual_interfaces.py"]}
{"id": "C135", "title": "The portfolio programme is exact under side constraints", "statement": "For every polyhedron containing the observed returns, every norm exponent in [1, inf] and every radius >= 0, the best feasible value of the dedicated solver's programme for a portfolio and a threshold is the worst case of its mean-risk loss over all transport plans staying in the polyhedron. So an optimal point carries a portfolio of smallest worst case and its value is that worst case; adding a constraint never raises the value.", "quantifier": "every number of assets, constraint matrix and vector, exponent, eta >= 0, alpha > 0, radius, sample, portfolio and threshold", "why_tests_cant": "Exactness is strong duality over all transport plans and all multipliers of the constraints; a test compares a few numbers and usually passes no constraint.", "anchors": ["skwdro/solvers/specific_solvers.py: WDROPortfolioSpecificSolver", "skwdro/operations_research/_portfolio.py: Portfolio.__init__ (C, d), fit"]}
{"id": "C136", "title": "The documented dual formula is the Wasserstein worst case, and the computed objective is on its right side", "statement": "For every loss, cost, allowed set and radius > 0, a number bounds the expected loss of every plan of average cost at most rho iff it bounds lambda rho + E[sup(L - lambda c)] for some lambda >= 0 (the documented WDRO dual, attained); at radius zero the same holds for losses growing at most linearly with the cost and the worst case is the average loss. Whatever allowed points are sampled, at some multiplier the objective computed by the library is at most the worst case with budget rho^p; and if all the allowed points are sampled, every computed value plus epsilon log(n_samples) bounds it.", "quantifier": "every space of points, loss, cost (zero at the data), allowed set, data, sample, radius, epsilon, power", "why_tests_cant": "It compares a computed number with a supremum over all transport plans; no test can evaluate that supremum.", "anchors": ["doc/wdro.rst", "doc/why_skwdro.rst", "skwdro/solvers/_dual_interfaces/dual_loss.py: compute_dual", "skwdro/solvers/oracle_torch.py: DualPostSampledLoss.forward"]}
{"id": "C137", "title": "The calls shown in the documentation are accepted, with each argument where it is meant to go", "statement": "For the signatures of the public constructors and functions, a call is accepted iff its positional arguments fit, its keywords are distinct free parameters and every parameter without default is given; each parameter then receives exactly what it is given, and any other call raises TypeError. So the documented calls of robustify, the costs, the samplers, the wrapped losses and the estimators bind as intended. Three documented lines do not: DualLoss with the keywords epsilon and sigma, default_sampler without a seed, and the unpacking of the first batch, which has a trailing comma.", "quantifier": "every list of positional and keyword arguments, every signature, batch length and estimator", "why_tests_cant": "The documentation is not executed, and acceptance concerns all combinations of positional and keyword arguments; a batch of three tensors is accepted by robustify and silently sets post_sample.", "anchors": ["doc/pytorch.rst:205", "doc/pytorch.rst:291", "doc/pytorch.rst:304", "doc/pytorch.rst:329", "skwdro/wrap_problem.py:85-110 (dualize_primal_loss)", "skwdro/solvers/oracle_torch.py:165-179, :402-416 (constructors)", "skwdro/base/losses_torch/logistic.py:110-116 (default_sampler)"]}
{"id": "C138", "title": "Portfolio: concentrated for small radii, equally divided over a critical radius", "statement": "The example of the portfolio estimator says that for small radii the portfolio is concentrated on the most rewarding assets and that over a critical radius it is equally divided. For the dedicated solver without side constraints: it minimises the average mean-risk loss plus rho (1 + eta/alpha) times the dual norm of the weights. With the default cost, when the returns are at most B in absolute value, every radius above 2 m B gives equal weights to the m assets and nothing else; with eta = 0 and an asset ahead of every other in average return by more than the radius, everything goes to it. With the exponent 2 there may be no critical radius at all, and with the exponent infinity the radius has no effect.", "quantifier": "every number of assets, data set, radius, eta >= 0, alpha > 0, threshold and optimal portfolio", "why_tests_cant": "The example draws one curve for one data set and a few radii; the claim concerns all radii beyond a bound and every optimiser of the programme.", "anchors": ["examples/builtin_models/portfolio.py:56-60", "skwdro/solvers/specific_solvers.py (WDROPortfolioSpecificSolver)"]}
{"id": "C139", "title": "The losses of the comparison examples are the classical ones their text describes", "statement": "The losses written in the regression and classification examples are convex in the prediction, are Lipschitz with constant 1, max(tau, 1 - tau) or |label| where the text says so, vanish exactly on the stated sets, and the pinball and absolute losses of a constant model are minimised exactly at the tau-quantiles and medians of the labels. The smooth hinge is within gamma/2 of the hinge. Lipschitz losses of a linear model stay bounded under every positive multiplier of the squared distance; the exponential loss is unbounded under every multiplier and is not Lipschitz, quadratic or strongly convex. Huber's loss subtracts q^3/2 instead of q^2/2: it is convex, or Lipschitz, only for q = 1, and jumps by q^2 (1 - q)/2 at the threshold. The displayed formulas of the pinball, Huber, quadratic insensitive and perceptron losses differ from the code. The zero model attains the least perceptron loss at every perturbed point.", "quantifier": "every prediction, label, parameter of the losses, data set, linear model, perturbed point and multiplier", "why_tests_cant": "The examples only plot one fit per loss; the discontinuity of Huber's loss is a jump of 0.02 for the threshold used, and convexity and quantiles concern all predictions and all label lists.", "anchors": ["examples/custom_models/regressors_comparison.py:92-385", "examples/custom_models/classifiers_comparison.py:142-390"]}
{"id": "C140", "title": "Labels 0 and 1 with the soft-margin loss", "statement": "The documentation introduces classification with labels in {0, 1} and the loss log(1 + exp(-y <theta, x>)), and two examples hand such labels to the soft-margin loss. With label 0 the loss is log 2 whatever the model, so the inputs of class 0 are ignored, and every linear model with an intercept is beaten by one that puts every observation in class 1, even on separable data. Recoded to {-1, 1}, an observation costs less than log 2 exactly when it is well classified, and raising the intercept costs as much as one likes once both classes occur.", "quantifier": "every data set, number of observations, linear model, score and label", "why_tests_cant": "The examples only draw the curves of the loss; that a class has no influence is a statement about all data sets and models.", "anchors": ["doc/wdro.rst:20", "examples/studying_skwdro/plot_lambda_landscape.py:54-100", "examples/studying_skwdro/__epsilon_convergence_to_wdro.py:124-160", "skwdro/base/losses_torch/logistic.py:20-22 (BiDiffSoftMarginLoss.forward)"]}
{"id": "C141", "title": "The cost and the samplers written in the tutorials do what the tutorials say", "statement": "The tutorial's custom cost takes its arguments in the order xi, xi_labels, zeta, zeta_labels while TorchCost.forward passes xi, zeta, xi_labels, zeta_labels: every call raises AssertionError. With the right order, several points at once raise RuntimeError, and points in opposite half-spaces cost 0 instead of infinity. Its half-sphere sampler draws in the half-space opposite to the center, normalises a batch as a whole so that two or more points are strictly inside the sphere, returns nan for noise orthogonal to the center and never averages to the center. The mixed-features sampler switches each discrete feature with probability 1 - p, p being documented as the probability of a switch.", "quantifier": "every batch of centers and noise, every pair of points, all labels, every probability and feature vector", "why_tests_cant": "The snippets are not executed by the project, and the printed outputs cannot come from them.", "anchors": ["doc/tutos/costs.rst:178-251", "doc/tutos/samplers.rst:116-244", "skwdro/base/costs_torch/base_cost.py:27-39 (forward)"]}
{"id": "C142", "title": "The documented training loops minimise over the model and a non-negative multiplier", "statement": "The training loops printed in README.md, the user guide and the examples solve the problem their text states, min over theta and lambda >= 0 of the dual objective (neural_net.py:131-135, wilds.rst:49): the multiplier is trained together with the model and stays non-negative. What each loop does instead is stated exactly: the README loop gives the optimiser the model's parameters only, so that the multiplier is the starting guess of the last epoch; the classifier and regressor examples clip it; the polynomial and neural network examples do not.", "quantifier": "all batches, gradients, objectives, optimisers (as functions), numbers of epochs, radii, powers and starting values; for the objective, all losses, costs and samples", "why_tests_cant": "A test runs one loop on one data set and sees a decreasing loss either way. That the multiplier is never moved, or that a negative multiplier gives a value below every admissible one, does not show in the loss curve.", "anchors": ["README.md:246-258", "doc/user_guide.rst:139-152", "examples/custom_models/classifiers_comparison.py:51-76", "examples/custom_models/regressors_comparison.py:50-78", "examples/custom_models/polynomial_regression.py:75-98", "examples/custom_models/neural_net.py:131-175", "skwdro/solvers/_dual_interfaces/dual_loss.py:143-178"]}
{"id": "C143", "title": "The epsilon study finds the best multiplier for each regularisation", "statement": "examples/studying_skwdro/__epsilon_convergence_to_wdro.py plots, for each epsilon, the value of the robust objective at the multiplier found by line_optim or by line_optim_Wolfe ('optimize it by hand with vanilla gradient descent', 'pick a satisfying multiplier'): the pair that is returned is a non-negative multiplier minimising the objective and the objective there. What the two functions return is stated exactly: when the loop stops, how far it can go, when it converges and at which rate, and what is returned when scipy finds no step.", "quantifier": "all objectives and derivatives, also with new samples at every evaluation; for the bounds, all losses, costs, samples, radii, powers and regularisations; every line search that keeps scipy's promises", "why_tests_cant": "A run draws one curve with nothing to compare it to. The best multiplier is an infimum over a half-line, and the rate of convergence is a statement about all objectives.", "anchors": ["examples/studying_skwdro/__epsilon_convergence_to_wdro.py:37-75", "examples/studying_skwdro/__epsilon_convergence_to_wdro.py:77-108", "skwdro/solvers/_dual_interfaces/dual_loss.py:11-141"]}
{"id": "C144", "title": "The robust loss does not depend on the unit of the data", "statement": "Multiplying the data (features, or features and labels), the radius and the scale of the samples by the same positive t, and reading the model in the new unit, changes nothing: the samples drawn are the same points in the new unit, the objective of compute_dual is the same with the multiplier divided by t^power, so the best multiplier and the best model correspond; this also holds with importance sampling and for the dedicated newsvendor solver. If only the features change unit, kappa is multiplied by t and the radius by t(1+kappa)/(1+t kappa). If the loss changes unit, so do multiplier, epsilon and value. What skwdro chooses itself (starting multiplier, guessed multiplier, scale and epsilon when not given) follows the unit.", "quantifier": "all data, samples, samplewise losses, norms, powers, kappas, radii, multipliers, regularisations and factors t > 0; for importance sampling the squared Euclidean cost and gradients below the threshold", "why_tests_cant": "Two runs in two units give two numbers each; the invariance is between functions of the multiplier, for all factors, and random draws must be paired.", "anchors": ["skwdro/wrap_problem.py:15-68", "skwdro/solvers/_dual_interfaces/dual_loss.py:11-141", "skwdro/solvers/_dual_interfaces/_misc_dual_interfaces.py:79-126", "skwdro/base/costs_torch/normcost.py:70-81", "skwdro/base/costs_torch/normlabelcost.py:98-128", "skwdro/solvers/specific_solvers.py:8-37", "skwdro/solvers/_dual_interfaces/_impsamp_interface.py:207-287", "tests/torch_tests/test_regularized_linear_exact.py:12-16"]}
{"id": "C145", "title": "The assertions of the test-suite reject wrong models", "statement": "The checks that tests/ makes on trained models accept right ones and reject wrong ones: the angle tests accept coefficients that separate the six points and refuse those that misclassify them; the multiclass test refuses coefficients that do not point to the centroids; test_autostop fails when the training raises or scores badly; test_consistency fails when runs with one seed differ; the comparison with the reference solutions fails when the direction or the loss is off; the portfolio test checks that the given risk level is the stored one.", "quantifier": "all coefficients, intercepts, accuracies, sets of runs, references, losses, stored values and levels", "why_tests_cant": "The tests do not test themselves: what an assertion accepts is a set of values, and a run shows one.", "anchors": ["tests/torch_tests/test_binary_separable_log_classif.py:5-39", "tests/torch_tests/test_binary_separable_log_classif_cvx.py:7-28", "tests/torch_tests/test_overfitting_separable.py:34-115", "tests/misc/test_auto_convergence.py:9-36", "tests/misc/test_consistency.py:18-25", "tests/torch_tests/test_regularized_linear_exact.py:43-52", "tests/torch_tests/test_preimplemented_losses.py:269-280"]}
{"id": "C146", "title": "On a separable problem the training has something to converge to", "statement": "tests/misc/test_auto_convergence.py says that on a separable problem with a convex loss the algorithm should converge in finite time: the logistic regression with l2_reg = 0 trained on points that a linear score separates has an optimal model, and the iterates can settle at it.", "quantifier": "all models, multipliers, temperatures, radii, costs, powers and samples of any number that a linear score puts on the right side", "why_tests_cant": "The test waits at most ninety seconds for one run to stop; whether there is a model to converge to is a statement about all models.", "anchors": ["tests/misc/test_auto_convergence.py:25-36", "tests/torch_tests/test_binary_separable_log_classif.py:7-14", "skwdro/solvers/_dual_interfaces/dual_loss.py:11-133", "skwdro/linear_models/_logistic_regression.py:262-337"]}
{"id": "C147", "title": "What the unit tests assert on the inputs they try holds for all inputs", "statement": "The assertions of tests/torch_tests/test_optim_cond.py, tests/torch_tests/test_hybrid_sgd.py, of the tests of the samplers and closed forms in tests/torch_tests/test_costs.py and of the log-probability tests in tests/dirac_test.py hold for every input of the kind they draw or list, not only for the inputs tried: documented settings of the stopping condition work and misspelt ones are reported, a hybrid step does what its two formulas say, the closed forms are right, and a location changed by any amount has log-probability minus infinity.", "quantifier": "all settings, tolerances, norms, models, gradients, parameters, rates, norms and powers of costs, points and locations", "why_tests_cant": "The tests are the instances; that the assertion would survive other instances is a statement about all of them.", "anchors": ["tests/torch_tests/test_optim_cond.py:32-128", "tests/torch_tests/test_hybrid_sgd.py:34-52", "tests/torch_tests/test_costs.py:137-179", "tests/torch_tests/test_costs.py:285-301", "tests/dirac_test.py:151-187", "skwdro/solvers/optim_cond.py:121-364", "skwdro/solvers/hybrid_opt.py:23-81"]}
{"id": "C148", "title": "The line drawn in the landscape of the multiplier is where the robust loss is smallest", "statement": "examples/studying_skwdro/plot_lambda_landscape.py writes the robust loss without regularisation as the mean loss plus rho times the norm of theta, and draws a vertical line at lambda = rho * ||theta||_2: that value is the smallest over the multipliers of the robust loss of the cost used, it is taken at the line, and the marks put on the curves can show it.", "quantifier": "all linear classifiers, samples with labels at most one in size, radii and multipliers", "why_tests_cant": "The script draws pictures and asserts nothing; which multiplier is best is a statement about suprema over all displacements.", "anchors": ["examples/studying_skwdro/plot_lambda_landscape.py:33-38", "examples/studying_skwdro/plot_lambda_landscape.py:67-68", "examples/studying_skwdro/plot_lambda_landscape.py:96-112", "examples/studying_skwdro/plot_lambda_landscape.py:131-142"]}
{"id": "C149", "title": "The general tuner estimates the law of the radius from the gradients at the samples", "statement": "BlanchetRhoTunedEstimator.fit collects in h_samples_ one row per sample, the gradient of the loss in the parameters at that sample and its label, and draws from a normal law with the covariance of these rows, made positive definite.", "quantifier": "all losses, datasets, labels, parameters and gradients left over by the first fit", "why_tests_cant": "fit stops before this code for every estimator of the package (C91), so no test can run it; with random data the wrong rows look like any other numbers.", "anchors": ["skwdro/base/rho_tuners.py:77-90 DiffLoss.convert, DiffLoss.value", "skwdro/base/rho_tuners.py:134-175 BlanchetRhoTunedEstimator.fit"]}
{"id": "C150", "title": "A ridge penalty gives the training one optimum, which solves the robust problem exactly", "statement": "With a positive l2_reg, and some adversary on the samples whose mean transport cost is below rho^p, the objective that LinearRegression and binary LogisticRegression minimise (pre-sampled, without importance weights) has a minimiser over weights, bias and multiplier, and so has the one of LogisticRegression with more classes; the weights and the biases are unique; and for the first two the optimal value is the worst case of the entropic payoff over all adversaries within the radius: the model and an adversary form a saddle point. For a fixed multiplier of any sign the best model exists and is unique too. If the samples cost more than rho^p, no best multiplier exists.", "quantifier": "every dataset, set of samples, l2_reg > 0, radius, cost and epsilon > 0; every model whose loss is bounded below and Lipschitz on boxes", "why_tests_cant": "existence of a minimum, its uniqueness and the absence of a gap are statements about all models and all adversaries; a test only runs the optimiser for a number of steps", "anchors": ["skwdro/solvers/_dual_interfaces/dual_loss.py: compute_dual", "skwdro/solvers/_dual_interfaces/_misc_dual_interfaces.py: reduce_loss_batch", "skwdro/linear_models/_linear_regression.py: LinearRegression.fit", "skwdro/linear_models/_logistic_regression.py: LogisticRegression.fit", "skwdro/base/losses_torch/base_loss.py:75-84 Loss.regularize"]}
{"id": "C151", "title": "The robust portfolio problem has a best portfolio, and the softmax parameters reach it", "statement": "For every sample of returns, risk aversion eta >= 0, level alpha in (0,1], radius and cost, some long-only fully invested portfolio and threshold minimise the objective that Portfolio trains (samples fixed), and the raw weights that SimplePortfolio passes through a softmax can take that best value at exactly one point.", "quantifier": "every number of assets, samples, multiplier, eta, alpha, radius, cost and epsilon > 0; every vector of raw weights", "why_tests_cant": "whether an infimum is attained, and by how many parameters, cannot be seen from a finite number of optimiser steps: the iterates improve at every step either way", "anchors": ["skwdro/base/losses_torch/portfolio.py: SimplePortfolio", "skwdro/operations_research/_portfolio.py:221-222 Portfolio.fit", "skwdro/solvers/_dual_interfaces/dual_loss.py: compute_dual"]}
{"id": "C152", "title": "Every class that derives from an abstract base can be instantiated", "statement": "A loss, cost, sampler or dual loss of the package that is meant to be used (every class other than the abstract bases) defines all the names its bases declare abstract and passes its base constructor the arguments it needs, so that an instance can be built; the bases cannot be instantiated, and what a new class must define is exactly what is left abstract.", "quantifier": "every class hierarchy (for the mechanism), every class of the package with an abstract ancestor, every class deriving from Loss, every call of Loss.__init__", "why_tests_cant": "a test only instantiates the classes it names: DiffLoss is built on a path that is never reached in the test suite", "anchors": ["skwdro/base/losses_torch/base_loss.py: Loss", "skwdro/base/rho_tuners.py:69-93 DiffLoss", "skwdro/base/costs_torch/base_cost.py: TorchCost", "skwdro/base/samplers/torch/base_samplers.py", "skwdro/solvers/_dual_interfaces/_misc_dual_interfaces.py", "skwdro/solvers/oracle_torch.py"]}
{"id": "C153", "title": "The general tuner differentiates each loss and conjugates Blanchet's function", "statement": "For every loss of the package and labelled or unlabelled sample, compute_phi_star takes the mixed derivatives of the loss in the sample and in the weights, and returns (up to the factor of C88) the largest value of <a, z> - 1/4 E |d/da grad_(x,y) loss|^2 over vectors a of weights.", "quantifier": "every linear model (weights, intercept, ridge), logistic or square loss, data set, labels, drawn vector and pseudo-inverse; every class and parameter names; every newsvendor sample", "why_tests_cant": "the value is one number of a random simulation with no reference value; whether the block of the Hessian that is taken is the right one cannot be seen from it", "anchors": ["skwdro/base/rho_tuners_computations.py:43-130 compute_phi_star", "skwdro/base/rho_tuners.py:178-190", "skwdro/base/losses_torch/logistic.py", "skwdro/base/losses_torch/quadratic.py", "skwdro/base/losses_torch/newsvendor.py", "skwdro/base/losses_torch/wrapper.py"]}
{"id": "C154", "title": "The robust newsvendor and location problems have a best decision", "statement": "For every data set and every set of samples, what NewsVendor and Weber minimise has a smallest value: a best order quantity, and a best location, exist at every multiplier (and together with the multiplier when some adversary stays strictly within the budget).", "quantifier": "every data set, samples, cost, multiplier, radius, regularisation, prices k and u, sampled weights, dimension and penalty", "why_tests_cant": "an optimiser stops after its number of steps whether or not there is anything to find: a run on an unbounded problem returns a number like any other", "anchors": ["skwdro/operations_research/_newsvendor.py:22-34 CustomNewsvendorLoss", "skwdro/operations_research/_newsvendor.py:75-199", "skwdro/base/losses_torch/weber.py: SimpleWeber", "skwdro/operations_research/_weber.py:59-165", "skwdro/solvers/oracle_torch.py: compute_dual"]}
{"id": "C155", "title": "There is one best multiplier, and it is the price of the radius", "statement": "As a function of the multiplier the robust objective is strictly convex as soon as one datum has two samples at different costs: at most one multiplier is best, one exists exactly when some weighting of the samples costs less than the budget, it does not grow with the radius (and shrinks strictly while it is positive), it bounds by how much the robust value changes with the radius, and it lies below an explicit bound. When every datum has its samples at one cost the objective is affine in the multiplier.", "quantifier": "every loss, cost, data set, set of samples, radius, power and regularisation", "why_tests_cant": "a run shows one sequence of multipliers; that no other multiplier would do, or that there is none to be found, is a statement about all of them", "anchors": ["skwdro/solvers/oracle_torch.py: compute_dual", "skwdro/solvers/_dual_interfaces/dual_loss.py: get_initial_guess_at_dual, lam", "skwdro/solvers/entropic_dual_torch.py:111-340 optim_presample, optim_postsample"]}
{"id": "C156", "title": "The network of the moons example is the documented one", "statement": "NeuralNetClassifier, 'almost a 1-to-1 copy of LogisticRegression', hands the same problem to the solver, builds the network described ('by default only 1 hidden layer of 32 neurons'), and its predictions and probabilities are those of that network, stable under small moves of the input; without an intercept it is positively homogeneous.", "quantifier": "every number of features, neurons and hidden layers, every data set and label set, every network of that shape, every input", "why_tests_cant": "the shape is only visible by counting layers, and the predictions of one trained network say nothing about what no network of this shape can separate", "anchors": ["examples/builtin_models/spatial_perturbation_moons.py:36-376 NeuralNetClassifier", "skwdro/linear_models/_logistic_regression.py: fit"]}
{"id": "C157", "title": "Over a critical radius robust logistic regression does not look at the features", "statement": "For the squared Euclidean cost on the features, the exact robust problem of LogisticRegression is solved by a constant model (loss: the entropy of the labels) exactly when rho is at least sqrt(p(1-p)) times the distance of the class means (without intercept: the length of the mean of label * features); strictly over it all best models have zero coefficients. For the dedicated solver the critical radius is half the length of the mean of label * features. The radius 2*4**2 'chosen analytically' in the example is the square of the critical radius.", "quantifier": "every labelled data set, dimension, class balance, radius, every linear model and every transport plan", "why_tests_cant": "a fit shows one model at one radius; that no linear model at all does better than a constant is a statement about all models and all plans", "anchors": ["skwdro/linear_models/_logistic_regression.py: fit", "skwdro/solvers/specific_solvers.py:112-151 WDROLogisticSpecificSolver", "examples/builtin_models/spatial_perturbation_logistic_regression.py:27-57"]}
{"id": "C158", "title": "Over a critical radius robust linear regression does not look at the features", "statement": "The programme of the dedicated linear regression, which is the exact worst case of the root mean square error, is solved by a constant model (value: the standard deviation of the targets, without intercept their root mean square) exactly when rho times that value is at least the length of the covariance of features and target (without intercept: of the mean of target * features). Strictly over it every solution has zero coefficients, below it none has.", "quantifier": "every data set, dimension, radius, with and without intercept, every linear model and every transport plan", "why_tests_cant": "a fit shows one model at one radius; that no linear model at all does better than a constant, and that this changes at one computable radius, is a statement about all models", "anchors": ["skwdro/solvers/specific_solvers.py:154-176 WDROLinRegSpecificSolver", "skwdro/linear_models/_linear_regression.py: fit"]}
{"id": "C159", "title": "Robust models do not depend on the position and orientation of the axes", "statement": "Moving all data and samples by a map that keeps the distances of the cost (a rotation for the Euclidean norm, a translation or a reordering of the features for every norm) and expressing the model in the new coordinates leaves the robust loss unchanged; for LinearRegression and LogisticRegression as fit builds them, with and without importance sampling, whose displacements turn with the data. The dedicated linear and logistic programmes have the rotated solutions for rotated data, and with an intercept the origin does not matter. The unit of the features does matter: doubling them turns a problem whose only solution is constant into one without constant solution at the same radius.", "quantifier": "every data set, dimension, rotation, translation and order of the features, every model, multiplier, radius, norm and grid of samples", "why_tests_cant": "tests compare a few fits on one data set; that the value is unchanged for every rotation and every sample is not a finite check, and the samples are random", "anchors": ["skwdro/base/costs_torch/normcost.py:70-81", "skwdro/base/costs_torch/normlabelcost.py:36-62", "skwdro/solvers/_dual_interfaces/dual_loss.py:11-141", "skwdro/linear_models/_linear_regression.py:125-223", "skwdro/linear_models/_logistic_regression.py", "skwdro/solvers/specific_solvers.py:112-176"]}
{"id": "C160", "title": "The figures of the classifier comparisons show what their titles and numbers say", "statement": "plot_classifier_comparison draws, for every data set and classifier, the classifier fitted on that data set in the panel of its row and column, under its own name, with accuracy, F1 and loss gap of that fit; the gap is relative to the first classifier fitted on the same data set; all panels use the same contour levels; the percentages are the numbers without decimals; and in the study of epsilon every title gives the radius and the epsilon of its classifier.", "quantifier": "every number of data sets and classifiers, all objects (also repeated or fitted before), all scores and losses, all level arguments", "why_tests_cant": "Tests run no example; a figure with a stale reference, a shifted panel or a wrong title looks as plausible as a right one.", "anchors": ["examples/builtin_models/utils/classifier_comparison.py:17-131", "examples/studying_skwdro/utils/classifier_comparison_utils.py:17-131", "examples/studying_skwdro/spatial_perturbation_logistic_regression_epsilon_study.py:45-83"]}
{"id": "C161", "title": "The radius of the moons example is the Wasserstein distance of its shift", "statement": "spatial_perturbation_moons.py calls 0.2 the right radius for the 2-Wasserstein distance between the variances of the training and test noise. For each of its data sets the distance between the law of the training noise and the law of the test noise is the radius.", "quantifier": "every coupling of the two noises, as an arbitrary expectation (any probability space), and all standard deviations", "why_tests_cant": "The distance is an infimum over all couplings of two continuous laws; no test computes it and samples only estimate it.", "anchors": ["examples/builtin_models/spatial_perturbation_moons.py:387-405", "examples/builtin_models/spatial_perturbation_logistic_regression.py:27-45"]}
{"id": "C162", "title": "The tags describe the classifier, and the estimators of the test table are checked", "statement": "LogisticRegression accepts two classes only, as its tag binary_only says; and test_all_estimators runs scikit-learn's check_estimator on every estimator of its table.", "quantifier": "every fit, solver and number of classes for the tag; every entry of the table and every outcome of check_estimator for the tests", "why_tests_cant": "the tag makes scikit-learn's own checks skip the data with more classes, so no test sees that they are accepted; an expected failure raised before the check reads like a passing run, whatever the estimator does", "anchors": ["skwdro/linear_models/_logistic_regression.py:429-433", "skwdro/linear_models/_logistic_regression.py:178-245", "skwdro/tests/test_common.py:10-48"]}
