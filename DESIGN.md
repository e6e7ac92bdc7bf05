# Verification of skwdro: design

`/repo` is skwdro at a pinned commit. Nothing is executed: the Python source is read as text and transcribed,
function by function, into Gallina. Properties are listed in `properties.jsonl` (C01, C02, ...), their status in
`MANIFEST.json`. This file says what is modelled, how each property is proved and what has to be trusted.

## Layout

`rocq/theories/`

| file | contents |
|---|---|
| `PyBase.v` | Python exceptions as values, results, `float`-like extended numbers |
| `XReal.v` | reals with infinities and NaN, IEEE comparisons |
| `Tensor.v` | tensors with explicit shapes, broadcasting, squeeze, reductions |
| `RList.v` | finite sums, dot products, norms over lists of reals, and their inequalities |
| `X_Model.v` | transcription of the code for topic X; every definition cites file and lines; no proofs |
| `X_Spec.v` | small independent specification for topic X, not using the helpers of the model |
| `X_Proofs.v` | lemmas |
| `Props_X.v` | only the property theorems `Cnn_...`, each closed by `exact lemma`, with `Print Assumptions` beneath and an `Example` that shows a concrete non-trivial case meeting the hypotheses |

## Modelling conventions

* Numbers. Where a formula is analysed (costs, dual loss, dedicated programmes) floats are mathematical reals
  (`Coq.Reals`): rounding, overflow and underflow are out of scope. Where control flow depends on non-finite values
  (NaN losses, infinite displacement, kappa = inf) the value type is an explicit sum `Fin r | PInf | MInf | NaN`
  with IEEE comparison rules.
* Tensors are nested lists; a batch of shape (n,m,1) is a list of m columns of n numbers when that is how the code
  consumes it. Shapes are modelled explicitly where shape is the property.
* Exceptions are values (`Raise ValueError`). Python `assert` is `Raise AssertionError`.
* Mutable objects (optimisers, stopping conditions, samplers, modules) are explicit state records; each method is a
  function from state and arguments to a new state and a result, and histories are lists of operations.
* External code is a Section variable, hence universally quantified in the theorems: `float()` on strings, the user's
  loss and its gradient, inner torch optimisers (arbitrary state transformers), random draws, LP/convex solvers.
* A property that is false of the transcription is settled by a theorem `..._refuted` with a witness; what does hold
  is proved beside it. Such properties have status `partial` in the manifest with a note starting `REFUTED`.

## Plan per property

| id | modelled code | method |
|---|---|---|
| C01, C02, C05 | `cost_decoder.py` in full, strings as `string`, `float()` as an oracle `string -> option F` | case analysis on the split list, split/join lemma |
| C03 | as above with a concrete decimal/exponent reader | witness `1e-3` |
| C04 | as above | witness 1-2 |
| C06, C07 | `NormCost.value` for every real p>=1 and inf | Minkowski by convexity of `x^p` |
| C08-C10 | `NormLabelCost.__init__/value` | algebra, limits; witness for kappa=inf |
| C11, C12 | `solve_max_series_exp` | completion of squares; witness |
| C13 | `normalize_just_vects`, `displace_samples` | norm algebra; extended numbers for the fallback |
| C14-C20 | `compute_dual`, `reduce_loss_batch` on arbitrary batches | Gibbs variational principle proved for finite lists, everything else derived |
| C21 | correction term with unlabelled/labelled Gaussian samplers | density algebra; witness |
| C22 | `CompositeOptimizer.step` over arbitrary inner optimisers | invariant by induction over step lists |
| C23, C24 | `get_initial_guess_at_dual` | explicit minimisation; power 1 with extended numbers; powers below 1 and 0 in `Props_Edges.v` |
| C25, C26 | mode flags, `freeze` | state machine; witnesses |
| C27-C32 | `OptCondTorch` in full as a state machine | invariants over call lists; witnesses |
| C33-C36 | solver loops with oracles for the optimiser, loss and stopping test | induction on the loop |
| C37 | `result.py` | case analysis |
| C38-C40 | `hybrid_opt.py` with several groups, arbitrary inner step | induction over step lists; witnesses |
| C41-C45 | samplers, Dirac | induction over reset lists; exact enumeration of Bernoulli draws; shapes |
| C46 | `expert_hyperparams`, `decide_on_impsamp` | real arithmetic |
| C47-C49, C74, C75 | `WDRONewsvendorSpecificSolver`, both SAA programmes, the dedicated branch of `NewsVendor.fit` | exact worst case from a greedy adversary (lower bound) and Lipschitz continuity (upper bound); LP equivalences; witnesses |
| C50-C52, C76 | dedicated convex programmes (objective and constraints; the solver itself is outside) | weak duality over all finite transport plans; Cauchy-Schwarz/Hoelder; attainment by explicit adversaries (pushes along the coefficients, fractional label flips, vanishing mass sent far away); witness |
| C53, C58-C60, C77, C78 | primal losses and their wrapper, on tensors with explicit shapes (`Tensor.v`) | losses as functions of the rows of a flat batch; LP duality for CVaR; tangent lines for convexity; witnesses |
| C54, C55, C82 | label encoding and prediction of `LogisticRegression`: `unique_labels`, encoders, shapes of `coef_`, `predict_proba_2Class`, `predict_proba`, `predict` | sorted lists, sigmoid, first maximum; witnesses |
| C56, C57, C79, C80, C83 | the five estimators: constructor arguments, defaults, dispatch on the solver name, what is handed to the dual loss or to the dedicated solvers | case analysis through `dualize_primal_loss`; witnesses |
| C81 | `eval` of `NewsVendor`, `Portfolio`, `Weber` through the wrapped loss | flat-batch lemmas of the wrapper, Jensen for `min`; witnesses |
| C84, C85 | `problems.py`, arrays as addresses in a heap | induction over the later writes; witnesses |
| C86-C91 | `rho_tuners.py`, `rho_tuners_computations.py`; derivatives, pseudo-inverse, draws and cross-validation are arguments | one-sided limits for the gradient, first-order condition for the conjugate, counting for the quantile; witnesses |
| C92, C93 | constructors' `opt_cond` arguments, their use in `fit`, `OptCondTorch.__init__` | store of condition objects, separation invariant over programs of fits; witnesses |
| C94 | `_sampler_data`, `_sampler_labels`, the samplers' `sample`, the post-sampled `forward` | shapes and entries by induction; densities by algebra; witnesses |
| C95 | `OptCondTorch` as for C27-C32 | invariant over evaluations |
| C64, C96-C98 | `CompositeOptimizer` with its schedulers, checkpoints, reset and copies (arbitrary inner updates) | torch's recursive cosine rate shown equal to the closed form; induction over call lists; witnesses |
| C99 | the rest of `Dirac` | shapes and indices by induction |
| C100 | solver loops, with the reset as an event | induction on the loops; witness |
| C101, C102 | the epsilon-study solver, on the same world as C33-C36 | induction on the loops; witnesses; which error in `Props_Edges.v` |
| C103-C105 | draws of the explicit-covariance samplers, default samplers, `Loss.__init__`, the sampler attributes and `generate_zetas` | entries by induction; induction over sequences of operations; witnesses |
| C106-C109 | `compute_dual` (model of C13-C20) | log-mean-exp bounds, convexity, permutations, derivatives |
| C110, C111 | as for C56, and `LinearRegression.predict` | every field of the record handed to the dual loss; algebra |
| C112 | `compute_dual`, `displace_samples`, the costs, the log-densities and the wrapped loss on tensors with shapes and broadcasting (`TDual_Model.v`); gradients are an argument | broadcasting lemmas for (1,m,d) against (n,m,d); refinement of the row-by-row model of C14-C20 |
| C113 | the composition of C56/C110 (what `fit` hands over), C58-C60 (losses), C06-C12 (costs) and C112 (`EstDual_Model.v`: the losses as the estimators call them, multi-class cross-entropy; `TDirac_Model.v`: importance sampling with the Dirac label sampler) | per-row lemmas for each loss, then C112 |
| C114 | `_impsamp_interface.py:79-205`: per-sample gradients by `functional_call`, `grad`, two `vmap`s (`Grads_Model.v`); the differentiation operator is an argument assumed to return the Frechet gradient where it exists | calculus of gradients on lists (`Gradient.v`), explicit gradients of the six losses, per-row lemmas, then C112/C113; witnesses. Example C114_operator (existence of such an operator) uses `ClassicalEpsilon.constructive_indefinite_description`; no theorem does |
| C115 | the objective of C14-C20 as a function of the multiplier and the parameters; LinearRegression and binary LogisticRegression through C113 | gradient of the soft maximum, convexity of the joint objective, weak duality with the Gibbs adversary as the other half of the saddle point |
| C116 | `dual_loss.py:143-178` with labels (`InitGuess_Model.v: grads_norms_labelled`); the linearised dual over pairs of displacements is in `InitLabel_Spec.v` | the labelled gain has the same supremum as that of the number (1+kappa) max(norm g, norm gl / kappa), so the unlabelled results of C23 apply; comparison of the two sizes; C114 for LinearRegression |
| C117 | `dual_loss.py: compute_dual` (`Dual_Model.v`) on rows whose samples are functions of a random outcome; expectations and the objective with exact integrals are in `SampleLaw_Spec.v` | tangent inequality of the logarithm for the bias (no independence needed); the average over the leave-one-out subsets for one more sample; Chebyshev's inequality for positive functionals for the deviations; C21 for importance weights |
| C118 | `dual_loss.py: compute_dual` as reached from each estimator's `fit` (C113), `specific_solvers.py` for the exact worst case (C50); distances, slopes and multipliers are in `Certificate_Spec.v` | a soft maximum is at most the maximum; Bernoulli's inequality for Lipschitz losses and any power; completing the square for squared residuals; composition with C113, C114 and C50 |
| C119, C120 | the cast of the encoded labels in `_logistic_regression.py: fit` (lines 187-199), `entropic_dual_torch.py: extract_data` and the same `pt.Tensor` conversions in each `fit`; dyadic numbers and IEEE rounding are written out in `Dtype_Model.v`, the numbers of a format in `Dtype_Spec.v` | integer division with ties to even; nearest among multiples of the last place, then among all numbers of the format; monotonicity from nearness and independence of the representation |
| C121 | `_impsamp_interface.py` and `dual_loss.py: compute_dual` as reached from `NewsVendor.fit` and `Portfolio.fit` (C113, C114); the exact worst case and the tilt are in `Weighted_Spec.v` | the weighted term is the exponential of an explicit quadratic in the sample (`Weighted_Proofs.v`), maximised in closed form; witnesses put every displaced sample on the data |
| C122-C124 | `__init__`, `fit`, `predict`, `predict_proba`, `eval` of the five estimators as programs on the object's attributes (`Lifecycle_Model.v`): assignments and reads in source order, inner calls (validation, cost decoding, dual building, solving) succeed or raise arbitrarily and return objects stamped with the call; documented attributes and provenance are in `Lifecycle_Spec.v` | each `fit` is a list of writes (`fit_writes`), a frame for the parameters on every outcome, then case analysis; witnesses. C91_attributes ties the table of the tuners' model to these programs |
| C125-C127 | `OptNorm_Model.v`: `float(order)` and `pt.linalg.norm` inside the condition of `OptCond_Model.v`, NaN and infinities included; `Predict_Model.v` now takes the fitted and the given width separately, with the `@`, `vstack`, `LabelEncoder` and linear-layer refusals; `DualPreSampledLoss.forward` and `DualPostSampledLoss.forward` of `Dual_Model.v` | monotonicity of p-norms in p and the closed form of the condition's answers; shapes by computation, the (d, 2n) array read off entry by entry; both forwards reduced to the same rows |
| C128, C129 | `Clone_Model.v`: `copy.deepcopy` of a stopping condition (refused for tensors attached to a graph), `clone`, and a search that fits one clone per candidate; `Score_Model.v`: the three `score` methods and the two inherited from scikit-learn | which memory fields each monitoring mode fills, then `deepcopy` by cases; scores as affine or monotone functions of the mean losses of C54, C81 and C126, order reversals by explicit numbers |
| C130 | `Template_Model.v`: the three classes of `_template.py` with the checks of `check_array` and `check_X_y` that dense finite data can fail | the expanded distance equals the sum of squared differences; invariant of the `argmin` loop: first smallest entry so far |
| C131 | `Install_Model.v`: the choice of optimiser in the constructors of the two robust losses, on the arguments that `Wrap_Model.v` and `Estim_Model.v` pass; the steps are those of `Oracle_Model.v` | fields followed through the dispatchers and `dualize_primal_loss`; first steps in closed form for every gradient |
| C132 | `OptCond_Model.v`, evaluated on histories of robust losses | each evaluation classified by how much the condition has stored: at most one stored value before the comparison that raises |
| C133 | `Predictor_Model.v`: `LogisticLoss` and `QuadraticLoss` with their weights, bias and penalty; the losses themselves are those of `Loss_Model.v` | the difference of the two softplus values is the score; tanh is increasing and odd; the square vanishes only at the regression value |
| C134 | `adamw_step` of `Oracle_Model.v` (one coordinate of AdamW with amsgrad, betas 0.99/0.999), run over a list of gradients | `AdamW_Proofs.v`: invariant bounding the first moment by the second through Cauchy-Schwarz on the exponential weights; bias corrections; closed forms for a constant gradient and for a gradient followed by zero |
| C135 | objective and constraints of the portfolio programme (`DedProg_Model.v`), with side constraints | `Farkas_Proofs.v` (multipliers for finitely many linear constraints under a sublinear bound), `Kantorovich_Proofs.v` (strong duality for finite data), `DedPfC_Proofs.v` (every sign pattern of the dual norm); the reverse inequality is C52's |
| C136 | no new code: the documented dual formula against plans, and `compute_dual` of `Dual_Model.v` | strong duality of `Kantorovich_Proofs.v`; the smoothed maximum lies between the maximum minus epsilon log n and the maximum |
| C137 | `Call_Model.v`: Python's argument binding and the signatures of `dualize_primal_loss`, both dual losses, `default_sampler`, the losses, costs, samplers, `OptCondTorch` and the estimators | `Call_Proofs.v`: a call is accepted iff legal, and what it binds; `Props_Call.v` states binding relationally (position or keyword) and applies it to the documented calls |
| C138 | the programme of `DedProg_Model.v` with the default side constraints | `PfEqual_Proofs.v`: value of the programme for given weights, Lipschitz bound on the mean-risk loss, distance to the equal weights, gain of the best asset; `Props_PfEqual.v` |
| C139 | `ExLoss_Model.v`: the thirteen losses written in the two comparison examples, entrywise | `ExLoss_Proofs.v`: convexity through suprema of affine functions, one-sided slopes of the pinball sum, growth of the exponential; `Props_ExLoss.v` states convexity, Lipschitz constants, quantiles and the displayed formulas separately |
| C140 | `softmargin` of `Loss_Model.v` on columns of scores and labels | `Props_ZeroLabel.v`: monotonicity of the logistic loss; the spec is the average of the tensor returned |
| C141 | `TutoCost_Model.v`: the half-sphere sampler, the custom cost and the mixed-features sampler of the tutorials, and `TorchCost.forward` | `Props_TutoCost.v`; the noise of the samplers is an argument, Bernoulli draws are enumerated with their probabilities |
| C142 | `TrainLoop_Model.v`: the training loops of the README, the user guide and four examples, over arbitrary optimisers, gradients and objectives, and torch's AdamW with its default options | `Props_TrainLoop.v`; progress bars, printing and test losses are left out; batches carry the samples of their forward pass |
| C143 | `EpsStudy_Model.v`: line_optim and line_optim_Wolfe of the epsilon study, over arbitrary objectives, derivatives and line searches | `Props_EpsStudy.v`, with `EpsStudy_Spec.v` (projected gradient descent, what scipy promises) and `EpsStudy_Proofs.v` (the derivative of the robust objective is Lipschitz); values are finite reals |
| C144 | no new model: `Dual_Model.v`, `TDual_Model.v`, `Samplers_Model.v`, `InitGuess_Model.v`, `Wrap_Model.v`, `NewsV_Model.v` | `Props_Units.v`: the objective, the draws, the choices made automatically and the newsvendor solver when the data change unit |
| C145 | `Suite_Model.v`: the assertions of seven test files on trained models, as functions of the coefficients, scores and stored values | `Props_Suite.v`, with `Suite_Spec.v` (all points right, all wrong); float32 as in `Dtype_Model.v` |
| C146 | the objective of `Dual_Model.v` and the module on tensors of `TDual_Model.v`, for the logistic loss; points of `Suite_Model.v` | `Props_Separable.v`, with `Suite_Spec.v`, `DedProg_Spec.v` and `Transport_Spec.v` |
| C147 | `Tests_Model.v`: four unit-test files as programs over `OptCond_Model.v`, `HybridOpt_Model.v`, `Costs_Model.v`, `Samplers_Model.v` and `Dtype_Model.v` | `Props_UnitTests.v` |
| C148 | `Landscape_Model.v` (plot_lambda_landscape.py), `Landscape_Spec.v` (suprema over displacements) | `Props_Landscape.v` |
| C149 | `TunerGrad_Model.v`: rho_tuners.py:77-90 and 134-175 with the memory it shares (theta.grad and h_samples_), `TunerGrad_Spec.v` | `Props_TunerGrad.v`: the loop in closed form, then entry by entry; witnesses |
| C150 | the objective of `Dual_Model.v`, `TDual_Model.v`, `EstDual_Model.v`; `Attain.v` (minima on R^d), `Best_Proofs.v`, `BestCore.v` | `Props_Best.v`, `BestMulti_Proofs.v`, `Props_BestMulti.v`: existence by coercivity, uniqueness by strict convexity, saddle point by C115, for any model and for the two linear estimators |
| C151 | `pf_forward`/`softmax` of `Loss_Model.v`, `pfd_call` of `EstDual_Model.v`, the objective of `Dual_Model.v`/`TDual_Model.v`; `BestPort_Proofs.v` | `Props_BestPort.v`: a best portfolio exists on the closed simplex; the softmax parameters reach it iff a best one holds every asset, and are never unique (refuted by data with a leading asset) |
| C152 | `AbstractCls_Model.v`: classes as trees with abstract flags, ABCMeta's set, argument binding, the class tables of losses, costs, samplers and dual losses | `Props_AbstractCls.v`: general mechanism and every class; refuted by `DiffLoss` |
| C153 | `PhiLoss_Model.v`: the dispatch on class and parameter names and the Hessian blocks of `compute_phi_star`; `PhiLoss_Proofs.v` | `Props_PhiLoss.v`: the blocks are the mixed derivatives; what is conjugated instead of Blanchet's function; refuted by a one-sample square loss, one feature, wrapped losses and the newsvendor |
| C154 | the newsvendor and location losses of `EstDual_Model.v`, `compute_dual`; `BestDecision_Proofs.v` on top of `Attain.v` | `Props_BestDecision.v`: a best order exists iff 0 <= k <= u; a best location exists with a penalty or when the average weight can be positive; refuted by NewsVendor(k=7, u=5) and by a negative weight |
| C155 | `compute_dual` as a function of the multiplier; `Multiplier_Proofs.v` | `Props_Multiplier.v`: strict convexity, uniqueness, existence iff some weighting of the samples costs less than the budget, monotone in the radius, price of the radius, explicit bound; affine when each datum has one cost |
| C156 | `NeuralNet_Model.v`: `NeuralNetClassifier` of the moons example, its layers, fit up to the solver, forward pass, predictions | `Props_NeuralNet.v`: number and sizes of the layers for all arguments, the documented depth refuted, what the extra layer adds, same hand-over as LogisticRegression, refusals, homogeneity without intercept, Lipschitz bound and certified predictions |
| C157 | the logistic losses against the plans of `Transport_Spec.v`, the programme of `DedProg_Model.v`; `CritLog_Proofs.v` | `Props_CritLog.v`: critical radius with and without intercept (iff), only constants over it, class means, the radius of the example, the dedicated programme (iff) |
| C158 | Props_CritLin.v. Same question as C157 for the linear programme of DedProg_Model.v. Lower bound: Cauchy-Schwarz on residuals against centred targets. Below the critical radius: a small step along the covariance, with 2 s A <= A^2 + s^2. C158_worst_case moves it to transport plans by C50. |
| C159 | Props_Rigid.v. A map that keeps the distances of the cost keeps every term of the objective (on tensors through C112_value_*, for the estimators through C113). With importance sampling the steps along the gradients commute with the map (turned), proved for rotations and translations. The dedicated programmes by transporting optima with the inverse map. The unit witness uses C158. |
| C160, C161 | `ClassComp_Model.v`: the loops of `plot_classifier_comparison` on a store of fitted objects, with the running panel number and the levels variable it reassigns; the settings of three examples | `Props_ClassComp.v`. Induction over the rows with the invariant that the first classifier is fitted on the current data set; expectations as in C117, and E ab <= (E a^2 + E b^2) / 2 for the couplings |
| C162 | `Tags_Model.v`: `_more_tags`, the table and the control flow of `tests/test_common.py`, `check_estimator` a parameter; the fit of `Lifecycle_Model.v` | `Props_Tags.v`. Inversion of the fit for the dedicated solver, its execution for any number of classes otherwise; the table by cases, `endswith` by induction on the string |
| C61-C73 | found while modelling: dual bounded below, lazy sampler, guess for other norms, schedulers, generators, `max_iter`, history, modes, units of sigma, usable costs, kappa, label cost without labels | see the files of the neighbouring properties |

## Trusted base

* Coq 8.16.1's kernel (and `coqchk`).
* The axioms of the standard library's classical reals, where `Print Assumptions` lists them (see the list per theorem
  in the section below, filled in as theorems are added).
* The transcription: that each Gallina definition says what the cited lines say, with the simplifications stated in
  its comment, and the semantics of torch/numpy primitives used (sum, mean, logsumexp, norm, clip, log, exp, squeeze...).
  `Conform_*.v` run the project's own tests on the models, as a check of the transcription: `Conform_Costs.v`
  (test_cost_parser_grammar), `Conform_Values.v` (test_costs, test_sampler), `Conform_Objects.v`
  (test_distrib_helper_classes, dirac_test), `Conform_Losses.v` (test_hybrid_sgd, test_losses_formats,
  test_preimplemented_losses, test_guards). Random data of a test is arbitrary data there.
* Not modelled: floating-point rounding, devices, dtypes, cvxpy/cvxopt solvers, scikit-learn input validation, plotting.
  Autograd is an argument: an arbitrary function in C13-C25 and C112, C113, and any operator returning the Frechet gradient
  where there is one in C114.

## Seeded bugs

`seeded/LOG.jsonl` has one row per attempt: `S` rows were written by hand, `A` rows made by an automatic search over the definitions. A theorem is listed as failed when its proof, or a lemma it uses, no longer goes through after the edit. That does not by itself show that the statement became false: a script can fail on an edit that changes nothing, and rows where this was noticed say so (S981, S1007). Not every row was examined for it. Edits that only changed a type, so that a file stopped compiling before any theorem was tried, are marked as not counted. Rows marked survived are wrong programs, or harmless edits, that no theorem tells apart.

## Print Assumptions, per theorem

Generated from the `Print Assumptions` commands of the `Props_*.v` files.

* No axioms (closed under the global context): `C152_abstract_iff`, `C152_instantiable`, `C152_library`, `C152_bases`, `C152_new_loss`, `C152_diff_loss_refuted`, `C152_diff_loss_never`, `C152_diff_loss_repair`, `C152_tuner_stops`, `C152_loss_call`, `C137_binding`, `C137_robustify`, `C137_dual_loss`, `C137_dual_loss_refuted`, `C137_dual_loss_fixed`, `C137_seventh_argument`, `C137_default_sampler`, `C137_default_sampler_refuted`, `C137_warmup_refuted`, `C137_estimators`, `C137_sampler_seed`, `C137_tutorial`, `C137_arities`, `C137_positions`, `C112_shapes_must_agree`, `C65_no_parameters`, `C65_unknown_name`, `C03_empty_exponent`, `C01_decoders_agree`, `C02_fields`, `C02_accepted`, `C02_rejected`, `C03_any_literal_refuted`, `C03_dash_free_partial`, `C03_numerals`, `C03_words`, `C03_numerals_in_cost`, `C03_kappa_text`, `C04_tutorial_order_never`, `C04_tutorial_order_refuted`, `C05_default`, `C05_engine_four_fields`, `C05_engine_five_fields_ignored`, `C05_engine_five_fields_refuted`, `C99_expand_accepts`, `C99_expand`, `C99_accepts`, `C84_labelled`, `C84_unlabelled`, `C84_set_then_get`, `C84_arrays_only`, `C84_arrays_only_refuted`, `C84_wrong_kind_refuted`, `C85_labelled_snapshot`, `C85_unlabelled_aliases`, `C93_orders`, `C93_built`, `C84_not_arrays`, `C97_lbd_lost`, `C91_only_portfolio`, `C124_set_params_is_unfitted`, `C156_depth`, `C25_eval_mode`, `C25_train_true`, `C25_train_is_eval`, `C25_erm_flag`, `C25_train_refuted`, `C25_roundtrip_refuted`, `C25_reading_the_loss_refuted`, `C26_flags_kept_iff`, `C26_everything_trainable`, `C26_after_failure`, `C26_frozen_parameter_refuted`, `C26_failure_refuted`, `C62_no_sampler_always_fails`, `C62_lazy_sampler_refuted`, `C62_given_sampler`, `C65_groups`, `C65_accepts`, `C65_groups_refuted`, `C153_parameters`, `C153_wrapped_refuted`, `C153_branches`, `C153_get_parameter`, `C153_names`, `C37_tuple`, `C37_other_tuples`, `C37_dict`, `C37_dict_reserved`, `C37_dict_extended_later`, `C37_passthrough`, `C45_rsample`, `C33_integer`, `C34_no_optimizer`, `C96_roundtrip`, `C96_own_checkpoint`, `C96_refused`, `C97_copy_contents`, `C101_no_optimizer`, `C102_presample`, `C145_autostop`, `C162_ends_with`, `C162_checked`, `C162_blind`, `C162_presampled_excused`, `C162_unknown`, `C162_every_class_refuted`, `C130_targets`, `C137_keywords`, `C137_single_keyword`, `C142_readme_multiplier`, `C142_readme_derivative_unused`, `C142_poly_steps`, `C142_nn_steps`, `C142_readme_steps`, `C142_poly_guess`, `C91_general_tuner_refuted`, `C91_general_tuner_never`, `C91_general_tuner_raises`, `C91_portfolio_tuner_refuted`, `C91_portfolio_tuner`, `C149_single`, `C141_call_raises`, `C105_delete_once`.
* `ClassicalDedekindReals.sig_forall_dec`: `C113_gradient_lengths`, `C99_entropy_shape_refuted`, `C85_unlabelled_refuted`, `C114_lengths`, `C43_priority`, `C43_error`, `C126_linear_refuses`, `C105_own_stale_refuted`.
* `ClassicalDedekindReals.sig_forall_dec`, `FunctionalExtensionality.functional_extensionality_dep`: `C160_percent`, `C160_panels`, `C160_reference_gap`, `C160_names_required`, `C161_moons_shift`, `C161_blobs_shift`, `C161_moons_radius_refuted`, `C161_blobs_radius`, `C128_gradient_clones`, `C128_parameter_clone_raises`, `C128_candidates_independent`, `C128_search_raises`, `C128_search_refuted`, `C11_other_costs`, `C12_zero_kappa_not_finite`, `C12_other_costs`, `C52_pieces_are_the_mean_risk_loss`, `C99_moments`, `C99_mode`, `C99_support`, `C92_separate`, `C92_none_first_fit`, `C92_default_refuted`, `C92_refit_refuted`, `C92_defaults_watch`, `C93_max_iter_unused`, `C94_unlabelled`, `C94_labels_fixed`, `C94_labels_moved`, `C94_no_draw_at_zero`, `C94_labels_required`, `C120_nearest`, `C120_exact`, `C120_relative`, `C120_order`, `C120_overflow`, `C120_data_kept`, `C120_integers`, `C120_distinct_refuted`, `C120_finite_refuted`, `C120_radius_refuted`, `C119_signed_types`, `C119_multiclass`, `C119_boolean`, `C119_labels_refuted`, `C119_unsigned`, `C20_reduces_columns`, `C101_which_error`, `C143_stopping`, `C143_not_negative`, `C143_wolfe_found`, `C143_wolfe_nothing`, `C143_wolfe_at_best`, `C54_two_classes`, `C54_one_class`, `C54_more_classes`, `C54_predict_multi`, `C55_multiclass_scores`, `C55_multiclass_refuted`, `C57_default_problems`, `C81_newsvendor`, `C81_newsvendor_refuted`, `C82_multiclass_shape`, `C82_multiclass_refuted`, `C83_linear_radius_zero_refuted`, `C83_linear_radius_positive_partial`, `C83_negative_radius`, `C139_huber`, `C139_huber_refuted`, `C139_lipschitz`, `C139_finite`, `C139_pinball`, `C139_median`, `C139_vanish`, `C139_smooth_hinge`, `C139_documented_refuted`, `C139_perceptron_trivial`, `C124_fit_succeeds`, `C114_function_labelled`, `C114_function_flat`, `C114_function_unlabelled`, `C114_newsvendor_loss_never`, `C111_predictions`, `C90_covariances`, `C39_clip`, `C131_first_move_lbfgs`, `C136_zero_radius`, `C91_attributes`, `C122_documented_attributes`, `C122_weber_position_never`, `C122_weber_position_refuted`, `C123_constructor`, `C123_clone`, `C123_parameters_kept`, `C123_radius_value`, `C123_unchanged`, `C123_parameters_refuted`, `C123_radius_type_refuted`, `C124_answers_read_only`, `C124_new_is_unfitted`, `C124_predict_before_fit`, `C124_eval_before_fit`, `C124_eval_after_failed_fit`, `C124_refused_data`, `C124_answers_from_last_fit`, `C124_eval_not_fitted_error_refuted`, `C124_failed_first_fit_refuted`, `C124_stale_answer_refuted`, `C124_untrained_answer_refuted`, `C124_renamed_solver_refuted`, `C124_solver_name_refuted`, `C53_constructor_checks`, `C59_newsvendor`, `C59_portfolio_convex`, `C59_portfolio_is_mean_cvar`, `C60_zetas_labelled`, `C60_no_trailing_axis`, `C60_zetas_unlabelled`, `C60_point`, `C60_flat_batch_unlabelled`, `C60_flat_batch_labelled`, `C60_wrong_calls_raise`, `C60_label_axes`, `C60_refused_axes`, `C60_regularisation_switch`, `C77_quadratic_per_sample`, `C77_flat_labels_refuted`, `C78_value_with_labels`, `C78_newsvendor_loss_refuted`, `C77_label_count`, `C95_no_multiplier_gradient`, `C95_no_parameter_gradient`, `C95_answers`, `C132_metric`, `C132_mode`, `C132_never_reported`, `C132_mode_refuted`, `C132_metric_refuted`, `C132_suite`, `C156_documented_depth_refuted`, `C156_extra_layer`, `C156_one_output`, `C156_constructor`, `C156_homogeneous`, `C156_lipschitz`, `C47_saa_answer_optimal`, `C47_zero_optimal_iff`, `C47_saa_optimal_iff`, `C47_large_radius_answer_not_optimal`, `C47_solver_optimal_refuted`, `C47_solver_optimal_positive_radius_refuted`, `C48_search_total`, `C48_critical_index`, `C48_sorted`, `C49_programme_value`, `C49_programme_solutions`, `C49_some_demand_optimal`, `C74_programmes_agree`, `C74_unbounded_when_k_above_u`, `C75_certificate`, `C75_certificate_exact`, `C27_first_evaluation`, `C27_second_evaluation`, `C28_theta_gradient`, `C28_theta_parameter`, `C28_lambda_gradient`, `C29_both`, `C29_one`, `C29_synonyms`, `C29_unknown_name`, `C30_one_ignores_lambda`, `C30_one_ignores_theta`, `C30_both_never_stops`, `C30_both_refuted`, `C31_lambda_parameter`, `C31_absolute_refuted`, `C31_relative_refuted`, `C32_second_fit`, `C32_reuse_refuted`, `C32_reuse_other_size`, `C66_max_iter_ignored`, `C66_budget_stops`, `C66_max_iter_refuted`, `C22_composite_step`, `C22_error_unclamped`, `C22_error_refuted`, `C22_starts_not_negative`, `C22_starting_value`, `C22_lbfgs_refuted`, `C153_newsvendor`, `C153_newsvendor_refuted`, `C23_power_limit_unique`, `C133_regression`, `C41_resets`, `C41_reset_fails_only_without_labels`, `C41_covariance_resets`, `C41_classification_resets`, `C42_seeded_passes_reuse_noise`, `C42_new_noise_refuted`, `C42_generator_overwritten`, `C42_unseeded_partial`, `C42_no_reset_partial`, `C70_sigma_is_std`, `C70_sigma_valid`, `C70_docstring_refuted`, `C44_outputs`, `C44_switch_probability`, `C44_documented_p_refuted`, `C45_log_prob_whole`, `C45_per_element_refuted`, `C45_one_wrong_label`, `C45_nonfinite_location`, `C46_sigma`, `C71_supported_costs`, `C71_sigma_not_positive`, `C72_power_one_partial`, `C72_power_two_ignores_kappa`, `C72_kappa_refuted`, `C129_newsvendor`, `C129_linear`, `C129_linear_constant_targets`, `C33_postsample`, `C33_presample`, `C34_result`, `C34_no_iterations`, `C35_nan_stops`, `C36_success`, `C36_every_path`, `C36_parameter_metric_refuted`, `C67_presample`, `C67_postsample_refuted`, `C68_success`, `C68_postsample`, `C68_presample_refuted`, `C69_modes`, `C69_postsample_refuted`, `C69_evaluations`, `C100_presample`, `C100_presample_other`, `C100_postsample_never`, `C100_postsample_ignores`, `C100_postsample_refuted`, `C96_all_or_nothing_refuted`, `C101_presample_never`, `C101_refuted`, `C102_postsample`, `C102_evaluations`, `C102_sign_refuted`, `C102_first_stop_refuted`, `C145_autostop_refuted`, `C145_consistency_same`, `C145_consistency_small`, `C145_consistency_guarantees`, `C145_alpha_accepts`, `C145_alpha`, `C145_alpha_refuted`, `C145_eta`, `C112_losses_labelled`, `C112_losses_flat`, `C112_losses_unlabelled`, `C162_dedicated_is_binary`, `C162_dedicated_refuses`, `C162_more_classes`, `C162_binary_only_refuted`, `C66_tests`, `C102_tests`, `C102_multiplier`, `C15_construction_limits`, `C15_fit_not_a_number`, `C122_intercept`, `C139_quadratic_slope`, `C142_clipped_value`, `C142_clip_infinite_refuted`, `C142_stopping`, `C86_grid`, `C86_ends_refuted`, `C86_lower_end_missing`, `C87_gradient`, `C87_fails_where_no_gradient`, `C88_scalar_scale`, `C88_scalar_infinite`, `C88_matrix_scale`, `C88_value_refuted`, `C90_covariance_size`, `C90_range_refuted`, `C149_rows`, `C149_right_iff`, `C149_rows_refuted`, `C149_equal_gradients`, `C149_covariance`, `C149_portfolio_rows`, `C149_portfolio_refuted`, `C149_labels`, `C149_labels_refuted`, `C149_positive_definite`, `C149_refusals`, `C149_fit`, `C141_mixed_features`, `C141_mixed_features_refuted`, `C147_opt_cond`, `C147_opt_cond_wrong`, `C147_opt_cond_wrong_refuted`, `C147_solve`, `C147_dirac`, `C147_small_difference`, `C147_small_difference_lost`, `C147_small_difference_refuted`, `C147_exact_sum`, `C144_draws`, `C144_start`, `C144_default_sigma`, `C144_newsvendor`, `C126_multiclass_refuses`, `C126_newsvendor_answers`, `C103_factor`, `C103_matrix`, `C103_sigma`, `C103_labels_gauss`, `C103_labels_bernoulli`, `C103_labels_id`, `C104_class`, `C104_newsvendor`, `C104_labels_refuted`, `C104_no_sampler`, `C104_best_effort_refuted`, `C104_constructor_radius`, `C104_labels_required`, `C105_last_set`, `C105_count`, `C105_init`, `C105_own_unread`, `C105_endless`.
* `ClassicalDedekindReals.sig_forall_dec`, `ClassicalDedekindReals.sig_not_dec`, `FunctionalExtensionality.functional_extensionality_dep`: `C134_every_step`, `C134_reach`, `C134_constant_gradient`, `C134_momentum`, `C158_constant`, `C158_critical`, `C158_only_constants`, `C158_below`, `C158_worst_case`, `C50_objective_is_worst_case`, `C50_solution_is_robust`, `C99_perplexity`, `C13_clipped`, `C13_negative_multiplier`, `C13_not_finite_undisplaced`, `C13_zero_gradient`, `C13_zero_multiplier`, `C13_moved`, `C13_default_threshold`, `C13_moved_labels`, `C55_binary_with_intercept_partial`, `C55_without_intercept`, `C55_one_feature_refuted`, `C81_portfolio_torch`, `C81_portfolio_dedicated`, `C81_portfolio_dedicated_ignores_risk_refuted`, `C81_portfolio_dtype_refuted`, `C81_other_names`, `C114_gradients_labelled`, `C114_gradients_unlabelled`, `C111_training_error`, `C50_with_intercept`, `C50_without_intercept`, `C131_first_move_adamw`, `C136_documented_dual`, `C53_weights_are_a_portfolio`, `C59_portfolio`, `C59_weber`, `C59_weber_any_batch`, `C59_weber_refuses`, `C59_weber_refuted`, `C156_probas`, `C22_adamw_first_step`, `C22_adamw_given_rate`, `C22_adamw_refuted`, `C64_schedules`, `C64_parameters`, `C64_multiplier_refuted`, `C153_defined`, `C153_one_feature_refuted`, `C153_one_feature`, `C153_value`, `C153_features`, `C153_at_least`, `C153_refuted`, `C153_draw_refuted`, `C159_dedicated_linear_rotated`, `C159_dedicated_linear_shifted`, `C159_units_matter`, `C129_portfolio_torch`, `C129_portfolio_dedicated`, `C129_portfolio_dedicated_refuted`, `C64_recursion`, `C64_pretraining_only_refuted`, `C96_after_step`, `C96_resume_without_schedule`, `C96_resume_refuted`, `C97_copy_unusable`, `C97_copy_refuted`, `C98_reset`, `C98_schedule_goes_on`, `C98_restart_refuted`, `C145_angle`, `C145_angle_of_zero`, `C145_centroids_sign`, `C145_consistency_refuted`, `C145_exact_direction`, `C145_exact_guarantees`, `C145_exact_not_opposite`, `C130_only_matrices`, `C130_nearest_neighbour`, `C130_training_labels`, `C130_repeated_row_refuted`, `C130_refusals`, `C130_square_roots`, `C142_momentum`, `C142_nan_forever`, `C149_scale`, `C149_scale_refuted`, `C141_half_sphere`, `C141_one_center`, `C141_batch_inside`, `C141_expectation_refuted`, `C126_logistic_refuses`, `C126_portfolio_refuses`, `C126_one_feature`, `C126_one_feature_refuted`.
* `ClassicalDedekindReals.sig_forall_dec`, `Classical_Prop.classic`, `FunctionalExtensionality.functional_extensionality_dep`: `C147_sampler_data`.
* `ClassicalDedekindReals.sig_forall_dec`, `ClassicalDedekindReals.sig_not_dec`, `Classical_Prop.classic`, `FunctionalExtensionality.functional_extensionality_dep`: `C150_fixed`, `C150_joint`, `C150_unique`, `C150_saddle`, `C150_unbounded`, `C150_linear`, `C150_logistic`, `C154_order_iff`, `C154_order_unbounded`, `C154_order_range`, `C154_order_joint`, `C154_site_fixed`, `C154_site_joint`, `C154_site_unbounded`, `C154_newsvendor`, `C154_weber`, `C154_refuted`, `C154_weber_refuted`, `C150_multinomial`, `C118_below_worst_case`, `C118_portfolio`, `C118_newsvendor`, `C118_logistic`, `C118_weber`, `C118_linear`, `C118_linear_worst_case`, `C118_linear_importance`, `C160_colours`, `C160_epsilon_titles`, `C160_radius_titles_refuted`, `C113_density_labels`, `C15_infinite_power`, `C57_default_values`, `C57_default_values_logistic`, `C57_named_solvers`, `C06_transport_cost`, `C06_usual_norms`, `C06_power_zero`, `C07_triangle`, `C07_square_no_triangle`, `C07_square_relaxed`, `C07_power_relaxed`, `C07_labelled_triangle`, `C08_between`, `C08_limits`, `C08_errors`, `C09_kappa_inf_refuted`, `C09_features_ignored`, `C10_same_labels`, `C10_shrinks`, `C11_optimal`, `C12_labelled_optimal_refuted`, `C12_additive_cost_partial`, `C157_constant`, `C157_intercept`, `C157_only_constants`, `C157_more_freedom`, `C157_no_intercept`, `C157_class_means`, `C157_script`, `C157_dedicated_over`, `C157_dedicated`, `C157_dedicated_zero`, `C135_exact`, `C135_solution_is_robust`, `C135_constraints_help`, `C51_feasible_points_bound_the_worst_case`, `C51_programme_is_exact`, `C51_solution_is_robust`, `C52_feasible_points_bound_the_worst_case`, `C52_programme_is_exact_without_constraints`, `C76_default_cost_guarded`, `C76_other_norms_refuted`, `C94_rank`, `C94_gibbs`, `C94_labelled_gibbs`, `C94_supnorm_refuted`, `C94_labelled_square_refuted`, `C21_density`, `C21_labelled_density`, `C119_one_class_learned`, `C14_zero_radius`, `C14_zero_radius_presampled`, `C14_erm_mode`, `C14_presampled_reuse_fails`, `C14_presampled_reuse_refuted`, `C15_negative`, `C15_nan`, `C15_positive_finite`, `C15_infinite`, `C16_sandwich`, `C17_weak_duality`, `C17_tight`, `C17_strong_duality`, `C18_monotone_radius`, `C18_convex_multiplier`, `C18_monotone_epsilon`, `C18_zero_radius_refuted`, `C19_shift`, `C19_monotone`, `C19_order`, `C20_mean_and_gap`, `C20_zero_radius`, `C20_sum_refuted`, `C20_unknown_reduction_fails_late`, `C20_unknown_reduction_refuted`, `C21_density_ratio`, `C21_weighted_estimate`, `C21_labelled_no_correction`, `C21_labelled_refuted`, `C61_unbounded`, `C61_unbounded_refuted`, `C61_bounded_when_feasible`, `C127_same_value`, `C127_no_samples`, `C106_gap`, `C106_small_eps`, `C106_large_eps`, `C107_jointly_convex`, `C107_stable`, `C108_rows_order`, `C108_samples_order`, `C108_two_batches`, `C108_samples_twice`, `C109_derivative`, `C109_best`, `C23_power_below_one`, `C23_power_below_one_flat`, `C23_power_zero`, `C23_only_norm_costs`, `C143_travel`, `C143_stays_at_zero`, `C143_converges`, `C143_best_refuted`, `C143_value_refuted`, `C143_wolfe_refuted`, `C113_linear`, `C113_logistic_binary`, `C113_logistic_multi`, `C113_weber`, `C113_newsvendor`, `C113_portfolio`, `C113_default_cost`, `C113_gaussian_sampler`, `C113_labels_required`, `C113_class_targets`, `C54_predict`, `C54_round_trip`, `C55_agrees_with_predict`, `C55_no_intercept_refuted`, `C56_labelled_estimators`, `C56_newsvendor`, `C56_portfolio_inverted`, `C56_portfolio_refuted`, `C57_weber_linear_logistic_portfolio`, `C57_newsvendor_default`, `C57_newsvendor_refuted`, `C57_logistic_intercept`, `C57_linear_intercept_refuted`, `C79_names_without_torch_partial`, `C79_which_error`, `C79_dedicated`, `C79_misspelt_means_pre`, `C79_misspelt_accepted_refuted`, `C80_weber_kappa_refuted`, `C80_newsvendor_l2_refuted`, `C80_portfolio_reparam_refuted`, `C80_passed_on_partial`, `C81_weber_eval`, `C81_weber_refuted`, `C81_name_accepted_by_fit_only_refuted`, `C82_binary_shape_partial`, `C139_convex`, `C139_exponential`, `C110_newsvendor`, `C110_portfolio`, `C110_weber`, `C110_linear`, `C110_logistic`, `C110_polyhedron`, `C110_importance_sampling`, `C38_mwu_positive`, `C38_simplex`, `C38_mwu_factor`, `C38_simplex_factor`, `C38_training`, `C39_non_neg`, `C39_projected`, `C39_ascent`, `C39_clipped`, `C39_no_rules`, `C39_unlabelled_group`, `C40_untransformed`, `C40_logarithms`, `C40_refuted`, `C40_two_rules`, `C40_training_ends`, `C39_bound_needs_gradients`, `C40_not_positive`, `C116_best`, `C116_too_small`, `C116_linear`, `C116_free_moves`, `C116_initial_multiplier_refuted`, `C131_estimators`, `C131_plain`, `C131_rate_ignored`, `C131_rate_ignored_refuted`, `C131_adapt_names`, `C131_adapt_names_refuted`, `C136_never_above`, `C136_all_points`, `C148_first_power`, `C148_first_power_best`, `C148_second_power`, `C148_second_power_best`, `C148_second_power_line`, `C148_line_refuted`, `C148_best_exists`, `C148_marked`, `C148_off_grid`, `C53_every_portfolio_reachable`, `C58_values`, `C58_sizes_must_agree`, `C58_shape_of_the_loss`, `C60_flat_batch_labelled_refuted`, `C77_logistic_per_sample`, `C77_labels_required`, `C155_strictly_convex`, `C155_unique`, `C155_spending`, `C155_exists_iff`, `C155_one_cost`, `C155_radius`, `C155_price`, `C155_bound`, `C156_predict`, `C156_copy`, `C156_two_classes`, `C156_refused`, `C156_rays`, `C156_intercept_needed`, `C156_certified`, `C156_defaults`, `C125_default`, `C125_maximum_norm`, `C125_order`, `C125_relative_order_refuted`, `C125_scale_free`, `C125_not_finite`, `C22_composite_history`, `C23_guess_is_optimal`, `C23_guess_value`, `C23_no_radius`, `C23_zero_gradients`, `C24_ignores_gradients`, `C24_value`, `C24_linearised_dual`, `C24_power_one_refuted`, `C63_other_norm_refuted`, `C138_what_is_minimised`, `C138_equal_weights`, `C138_concentrated`, `C138_no_critical_radius_refuted`, `C138_radius_ignored`, `C153_feature_derivatives`, `C153_label_derivatives`, `C23_power_limits`, `C23_power_nan`, `C133_logistic`, `C133_estimator`, `C133_start`, `C133_dimensions`, `C159_labelled`, `C159_unlabelled`, `C159_rotations`, `C159_shifts`, `C159_reorderings`, `C159_linear`, `C159_logistic`, `C159_dedicated_logistic_rotated`, `C117_leave_one_out`, `C117_underestimates`, `C117_more_samples`, `C117_concentrates`, `C117_importance_underestimates`, `C46_epsilon`, `C46_epsilon_values`, `C46_negative_radius`, `C46_given_values`, `C46_construction`, `C46_defaults`, `C71_accepted_cost_has_no_sampler_refuted`, `C73_label_cost_without_labels_refuted`, `C129_weber_raises`, `C129_logistic`, `C129_logistic_refuted`, `C129_weber_refuted`, `C146_always_lower`, `C146_no_minimiser`, `C146_no_minimiser_lin`, `C146_penalty`, `C146_infimum`, `C146_ridge_bounded`, `C146_exact_bounded`, `C146_exact_zero`, `C146_tensor`, `C146_refuted`, `C98_rate_explodes`, `C115_gradient`, `C115_stationary`, `C115_necessary`, `C115_linear`, `C115_logistic`, `C145_cvx_accepts_all`, `C145_fit_accepts`, `C145_quadrant`, `C145_right_passes`, `C145_opposite_passes`, `C145_wrong_model_refuted`, `C145_intercept_refuted`, `C145_overfitting_accepts`, `C145_centroids_refuted`, `C113_fixed_linear`, `C113_fixed_logistic_binary`, `C113_fixed_logistic_multi`, `C113_fixed_weber`, `C113_importance_samplers`, `C118_linear_importance_fixed`, `C112_unlabelled`, `C112_labelled`, `C112_labels_missing`, `C112_value_unlabelled`, `C112_value_labelled`, `C112_importance`, `C112_importance_other_cost`, `C112_importance_labelled`, `C112_importance_off`, `C112_importance_off_labelled`, `C46_optimiser_defaults`, `C142_readme_not_negative`, `C142_clipped`, `C142_clipped_stopping`, `C142_rectify`, `C142_rectify_not_finite`, `C142_rectify_refuted`, `C142_unbounded`, `C142_unprojected`, `C142_constraint_idle`, `C142_constraint_needed`, `C142_readme_refuted`, `C142_unprojected_refuted`, `C89_defined`, `C89_bounds`, `C89_coverage`, `C90_covariance_refuted`, `C141_call_refuted`, `C141_right_order`, `C147_hybrid_sgd`, `C147_hybrid_sgd_refuted`, `C144_features`, `C144_labelled`, `C144_features_of_labelled`, `C144_loss`, `C144_best_multiplier`, `C144_importance`, `C144_guess`, `C144_start_refuted`, `C144_default_epsilon_power_1`, `C144_default_epsilon_refuted`, `C144_half_cost`, `C121_portfolio`, `C121_portfolio_iff`, `C121_newsvendor`, `C121_newsvendor_exceeds`, `C140_zero_label_ignored`, `C140_one_observation`, `C140_everything_in_class_1`, `C140_recoded`, `C140_separable_refuted`.
* `ClassicalDedekindReals.sig_forall_dec`, `ClassicalDedekindReals.sig_not_dec`, `Classical_Prop.classic`, `functional_extensionality_dep`: `C151_fixed`, `C151_joint`, `C151_reached_iff`, `C151_always_lower`, `C151_no_minimiser`, `C151_infimum`, `C151_shift`, `C151_tensor`, `C151_refuted`.
* `ClassicalDedekindReals.sig_forall_dec`, `ClassicalDedekindReals.sig_not_dec`, `FunctionalExtensionality.functional_extensionality_dep`, `classic`: `C114_linear`, `C114_logistic_binary`, `C114_logistic_multi`, `C114_weber`, `C114_newsvendor`, `C114_portfolio`, `C114_linear_importance`, `C114_direct_never`, `C114_direct_refuted`.
* `ClassicalDedekindReals.sig_forall_dec`, `ClassicalDedekindReals.sig_not_dec`, `ClassicalEpsilon.constructive_indefinite_description`, `Classical_Prop.classic`, `FunctionalExtensionality.functional_extensionality_dep`: `C121_refuted`.

## Outcome per property

| id | status | note |
|---|---|---|
| C01 | proved | Holds for every behaviour of float(); the restriction to 4 or 5 fields is necessary (Example C01_six_fields). |
| C02 | proved | Exact acceptance and meaning; every string has exactly one list of fields. |
| C03 | partial | REFUTED: t-NC-1e-3-2 is split inside the literal and raises ValueError. Proved part: dash-free literals are read back. |
| C04 | partial | REFUTED for every pair of distinct numbers: the first number is the power, the second the norm. |
| C05 | partial | Default and four-field engine check proved. REFUTED for five fields: the engine field is ignored. |
| C06 | proved | All p in [1,inf], all powers > 0, exact reals. |
| C07 | proved | Minkowski for every real p>=1 and inf; power-2 failure and relaxed form. |
| C08 | proved | Two-sided bound, limits at 0 and infinity, error branches. |
| C09 | partial | REFUTED: with kappa=inf the features move for free. |
| C10 | proved | Exact factor and strict shrinking. |
| C11 | proved | Unique global maximiser; other costs raise NotImplementedError. |
| C12 | partial | REFUTED for the cost the class computes (witness in dimension 1+1) and for kappa=0 (non-finite labels). Proved part: the formula is optimal for the additive cost //dx//^2+kappa//dy//^2. |
| C13 | proved | All clauses, with kappa > 0 as in C12. One sample with zero gradient at lambda = 0 (0/0) leaves the whole batch undisplaced; a negative multiplier flips the direction. |
| C14 | partial | Proved for the post-sampled path, the ERM mode and the pre-sampled path with samples given. REFUTED on one path: the pre-sampled loss called again without samples at radius 0 raises AssertionError. |
| C15 | proved | Every radius: negative, -inf, NaN, 0 (C14), finite, +inf. The constructors: C15_construction_limits gives the exact limits of all five estimators; C15_fit_not_a_number what fit does when set_params has put a value that is no number. |
| C16 | proved | Sandwich for every batch. |
| C17 | proved | Weak duality, tightness for each lambda, and strong duality at the best multiplier under strict feasibility. |
| C18 | partial | Monotone in the radius on (0,inf), convex in lambda, antitone in epsilon. REFUTED across radius 0, where the objective can drop. |
| C19 | proved | Shift, monotonicity and order invariance. |
| C20 | partial | Mean and none agree; REFUTED for sum (constant added once instead of per sample; exact gap proved) and for unknown names (accepted at construction). |
| C21 | partial | Unlabelled Gaussian sampler proved, with the log-densities those of the Gaussian laws. REFUTED for labelled samplers: the correction is identically 0. |
| C22 | partial | Composite optimisers: invariant over every history. REFUTED for AdamW (adapt=None) and LBFGS (pre-sampled), whose first step can make lambda negative. torch's AdamW and LBFGS first steps are modelled from torch's documentation. |
| C23 | proved | Unique minimiser for every power > 1 and the Euclidean norm. Props_Edges adds what the same formula returns for powers below one, positive between 0 and 1 and negative below 0 (C23_power_below_one, C23_power_below_one_flat), and for the power zero (C23_power_zero). C23_only_norm_costs: with a positive radius a cost that is not one of the library's norm costs ends with RuntimeError. C23_power_limits (Props_PowLim): the power used in the guess is the limit of powers of positive reals at 0 and at infinite values, along the paths listed there, C23_power_limit_unique that this fixes it, C23_power_nan when a NaN does not spread; that Tensor.pow follows these rules is an assumption about torch. |
| C24 | partial | REFUTED for every batch: the value is 1/(m rho). |
| C25 | partial | REFUTED: train() without argument is eval(). Proved: eval() and train(True) set the modes. |
| C26 | partial | REFUTED: user-frozen parameters become trainable; after an exception everything stays frozen. Flags kept iff all were trainable. |
| C27 | proved | First evaluation with the gradient metric, first two with the parameter metric, from a fresh condition. |
| C28 | proved | Parameter and gradient metrics of theta, gradient metric of lambda, relative and absolute. |
| C29 | proved | Exact meaning of each name and its synonyms; unknown names rejected. |
| C30 | partial | REFUTED for 'both': with a disabled tolerance it never stops. 'one' ignores a disabled tolerance (proved). |
| C31 | partial | REFUTED: the multiplier is kept by reference, so the relative test never stops and the absolute test stops at the third evaluation whatever happens. |
| C32 | partial | REFUTED: references of the first fit are kept, and the estimators share a default instance. |
| C33 | proved | Both solvers; losses, optimisers and stopping tests are arbitrary and may raise. An integer n is n robust steps plus 3n/10 of pretraining. |
| C34 | proved | Also: without robust iterations the solver raises (IndexError) instead of returning. |
| C35 | proved | Both solvers, robust phase. |
| C36 | partial | Proved on every successful path and, with the gradient metric or post-sampling, on every path. REFUTED when the forward pass raises with the parameter metric: importance sampling stays off. |
| C37 | proved | All tuples, all dicts with distinct keys. The keys iterated over are a live view on the solver's dict (C37_dict_extended_later). |
| C38 | proved | Exact reals: rounding (exp underflowing to 0, which would make the next step raise) is not modelled. SGD without momentum for the formulas, any inner optimiser for positivity and normalisation. |
| C39 | proved | Any inner optimiser for non_neg and unlabelled groups, SGD without momentum for the formulas. |
| C40 | partial | REFUTED: weights are left in logarithms; a group with mwu and non_neg fails at every step after the update. Proved for groups without transformed parameters. |
| C41 | proved | Cost samplers, the three Gaussian samplers, the three classification samplers. Factorisations (Cholesky) are arbitrary functions returning valid factors. |
| C42 | partial | REFUTED for a seeded sampler (default seed 42): every pass reuses the same noise, whatever the generator, and the caller's generator state is overwritten. Proved without a seed or with reset_sampler=False: each pass draws from the state left by the previous one. |
| C43 | proved | All combinations. |
| C44 | partial | Outputs proved. REFUTED for p: the probability of a switch is 1-p. |
| C45 | partial | Sampling proved for all shapes. REFUTED for log_prob per element: one scalar for the whole batch, -inf as soon as one entry differs. |
| C46 | proved | Exact reals, rho >= 0, powers >= 1; the whole of dualize_primal_loss up to the constructor of the dual loss. C46_optimiser_defaults: the defaults of dualize_primal_loss that C46_defaults leaves out. |
| C47 | partial | REFUTED, already at rho=0 on demands 1, 10, 10 (answer 0, optimum 1), and for every dataset whose mean is at most rho (answer SAA, optimum 0). Proved: the answer of the T<0 branch is optimal; exactly when each of the two possible answers is. Adversaries are all finitely supported transport plans with non-negative demands; the LP solver's answer is any minimiser. |
| C48 | proved | All data (also empty, negative), rho>=0; the branch 'no upper bound' is dead code. |
| C49 | proved | Programme as passed to cvxpy; the numerical solver is outside. k<=u is not needed. |
| C50 | proved | Exact reals; the numerical solver (CLARABEL) is outside: theorems speak of the programme handed to cvxpy. Adversaries: all finitely supported transport plans. |
| C51 | proved | As C50, any kappa>0 (the code uses 1000), rho>=0, labels +-1, with or without intercept. Weak duality, exactness and robust optimality of solutions. |
| C52 | proved | As C50, any norm exponent p in [1,inf], any polyhedron for the bound; exactness for the default (no) constraints only, which is all the property claims. |
| C53 | proved | Constructor checks of rho, eta, alpha, solver_reg, n_zeta_samples. Portfolios with a zero weight are only approached; what that means for training is C151. |
| C54 | proved | Integer labels; coefficients of either solver, with or without intercept, any number of features; multiclass ties go to the first class. |
| C55 | partial | REFUTED three ways: without intercept TypeError, with one feature shape (1,2n), with more than two classes raw scores. Proved for two classes with intercept and at least two features (or dedicated). |
| C56 | partial | Proved for NewsVendor, Weber, LinearRegression, LogisticRegression. REFUTED for Portfolio: inverted for every input. |
| C57 | partial | Proved for Weber, LinearRegression, LogisticRegression, Portfolio on every dataset. REFUTED for NewsVendor (deprecated default solver) and for fit_intercept of the robust LinearRegression. |
| C58 | proved | Elementwise; margin function proved positive, strictly decreasing, convex, 1-Lipschitz. |
| C59 | partial | Newsvendor and portfolio proved for every batch shape; mean-CVaR equivalence by LP duality, CVaR defined through reweightings. REFUTED for Weber on batches of more than two axes called directly (extra factor: size of the second axis); proved for the flat batches the wrapper passes. |
| C60 | partial | The wrapped loss is any function treating rows separately. REFUTED for labelled flat batches of a loss with one value per sample: the batch mean is returned (squeeze before the mean). Proved for three or more axes, points, unlabelled batches (without trailing axis) and losses without trailing axis. |
| C61 | partial | REFUTED: unbounded below as soon as every sample is too far on average; bounded (and attained, C17) when some weighting of the samples is within the budget. |
| C62 | partial | REFUTED for every loss: the sampler property raises before the None test. |
| C63 | partial | REFUTED (max norm); the Euclidean case is C23. |
| C64 | partial | REFUTED for lambda: period = training steps, but it is also stepped during pretraining; and a run with pretraining steps only raises ZeroDivisionError at its first step. Proved for the model's parameters, and that torch's recursion gives exactly the cosine curves whatever the inner optimisers do. |
| C65 | partial | REFUTED: the generator has been consumed, only lambda is listed. |
| C66 | partial | REFUTED: the limit is overwritten by the training budget of the loss at every call; only that budget counts (proved). |
| C67 | partial | Pre-sampling proved (without importance sampling when the parameter metric is used). REFUTED for post-sampling: the loss is recorded before the last step. |
| C68 | partial | Proved for successful solves and for post-sampling. REFUTED when the pretraining of the pre-sampled solver raises. |
| C69 | partial | Pre-sampling proved; C69_evaluations gives what each step evaluates. REFUTED for post-sampling: erm_mode is set to False before the pretraining. |
| C70 | partial | REFUTED as documented (Id/sigma**2); sigma^2 Id proved. |
| C71 | partial | REFUTED: exactly the costs 1-1, 1-2, 1-inf and 2-2 have a sampler. |
| C72 | partial | Proved for power 1 (sigma/kappa). REFUTED for 2-2: independent of kappa. |
| C73 | partial | REFUTED: a label cost is accepted without labels and then always raises AssertionError. |
| C74 | proved | Also: for k>u the first programme is unbounded below while the second has a solution. |
| C75 | proved | Upper bound for every fit, exact on the branches that computed T. |
| C76 | partial | REFUTED for 't-NC-1-2': fit passes the power of the cost as norm exponent, so the optimal value is below the loss of an adversary in the Euclidean ball. Proved for the default 't-NC-1-1'. |
| C77 | partial | REFUTED for labels of shape (N,): QuadraticLoss broadcasts to all pairs. Proved for labels on the axes of the data. C77_label_count: a wrong number of labels is refused. |
| C78 | partial | REFUTED: value asserts labels, which it then ignores; the formula is proved for the call with labels. |
| C79 | partial | REFUTED: any name containing 'torch' is accepted and silently means pre-sampling. Proved: names without 'torch' other than 'dedicated' raise. |
| C80 | partial | REFUTED: Weber's kappa, NewsVendor's l2_reg, Portfolio's reparam and fit_intercept have no effect. Proved for rho, n_zeta_samples, learning_rate, and l2_reg of the labelled estimators. |
| C81 | partial | REFUTED: NewsVendor with several features (Jensen gap, direction proved), dedicated Portfolio with eta>0, Portfolio with data of another dtype, Weber (always raises), names without 'entropic'. Proved: NewsVendor with one feature, robust Portfolio with matching dtype. |
| C82 | partial | REFUTED for more than two classes: (n,1) for every model. Proved for two classes. |
| C83 | partial | REFUTED: dedicated LinearRegression with rho=0. Positive and negative radii proved. |
| C84 | partial | Proved for arrays; REFUTED twice: the unlabelled constructor accepts anything, and a property of the wrong kind can be assigned but never read. |
| C85 | partial | Proved for labelled distributions (copies, any later writes). REFUTED for unlabelled ones, which alias the caller's array. |
| C86 | partial | REFUTED: the end min_power is never tried. The rest (which radii, how many, order, sign) is proved. |
| C87 | proved | Differentiability in every direction, and no gradient at the kink (eta, alpha non-zero). |
| C88 | partial | REFUTED: (1/2*n) instead of 1/(2*n) gives the conjugate divided by n^2; this exact relation is proved in one dimension (with the infinite case) and in several for z in the range, pinv being any Moore-Penrose inverse. Derivatives are arguments of the model. |
| C89 | proved | Draws are an arbitrary function of the covariance matrix; the quantile is NumPy's linear interpolation, characterised by counting. |
| C90 | partial | REFUTED twice: covariance n x n over samples (np.cov of rows), and `isclose(...) is False` never detects a vector out of the range. |
| C91 | partial | REFUTED: no estimator has problem_, so the general tuner always raises; the portfolio one works exactly with the dedicated solver (robust fits never set tau_). |
| C92 | partial | Proved when no two estimators hold the same condition, and for a first fit with opt_cond=None. REFUTED for default conditions (one object per class) and for refits. |
| C93 | proved | Integer or string orders. |
| C94 | partial | Draws proved exactly, for any generator. Law: proved decreasing in the cost for the 1- and 2-norms and exactly Gibbs for 1-norm, squared 2-norm and labelled 1-norm. REFUTED for the sup norm (Gaussian) and for the labelled squared cost (kappa and the cross term ignored). |
| C95 | proved | Any norm and any history. The documented settings include infinite and non-positive tolerances (NaN tolerances are excluded). |
| C96 | partial | Round trip and refusals proved; without a schedule a resumed training continues exactly (C96_resume_without_schedule). REFUTED: the schedulers are not saved, so a resumed training differs; and a refused checkpoint may have been half loaded. |
| C97 | partial | REFUTED: __getstate__ stores the inner state dictionaries under the names of the optimisers and not 'opts', so a copy has no inner optimisers and every method raises AttributeError (proved for all). C97_lbd_lost (Props_Edges): the copy holds no multiplier at all. |
| C98 | partial | The reset itself is proved for all histories. REFUTED: the scheduler is not restarted; the rate after a reset is rescaled by the remaining curve and can exceed 1+4T^2/pi^2 (proved). |
| C99 | partial | Proved, except REFUTED: entropy and perplexity are scalars, not one value per batch element. |
| C100 | partial | Proved for pre-sampling. REFUTED for post-sampling, which never resets. |
| C101 | partial | REFUTED: never returns (the list of losses is unpacked into four values). C101_which_error (Props_Edges): which error is raised for which input. |
| C102 | partial | The whole log is characterised, and what each step evaluates (C102_evaluations). REFUTED: absolute values are reported, the stopping step is dropped, and stopping at the first step gives IndexError. |
| C103 | proved | For any generator; the Cholesky factorisations are arguments. |
| C104 | partial | REFUTED: Gaussian labels leave {-1,1}; losses of the library pass no data to the base constructor so have no sampler; the wrapper's constructor raises. Acceptance and draws are proved. |
| C105 | partial | Proved for the sampler used, counts and iteration. REFUTED for the dual loss's own attribute, which is stale after the setter (and never read). |
| C106 | proved |  |
| C107 | proved |  |
| C108 | proved | Mean reduction. |
| C109 | proved |  |
| C110 | proved |  C110_importance_sampling says when importance sampling is used, for the five estimators. |
| C111 | proved | Input validation by scikit-learn is left out. |
| C112 | proved | Mean reduction for the explicit values; C112_unlabelled and C112_labelled identify the tensor program with the row-by-row model used by C14-C20 and C106-C109, for every reduction. Gradients are an arbitrary function. |
| C113 | proved | Exact numbers; the trained parameters are arbitrary values of the right shape. Input validation by scikit-learn is left out. Importance sampling when the cost keeps the labels (Dirac label sampler) is in TDirac_Model.v: the objective is then NaN unless every sampled label equals its datum's. |
| C114 | partial | Differentiation is any operator that returns the Frechet gradient where there is one (autograd itself is trusted to be one); the gradients of the six losses are derived. Proved for wrapped losses and for every estimator, and composed with C112 for LinearRegression. REFUTED for losses used without the wrapper: LogisticLoss and QuadraticLoss keep an axis of length 1, which torch.func.grad refuses, for every model and data set (C114_direct_never); NewsVendorLoss_torch fails its assertion. |
| C115 | proved | Mean reduction; the estimator instances are for training without importance sampling, where the drawn samples do not depend on the parameters. Stationarity is of the exact gradient on fixed samples; whether the optimiser reaches it is not claimed. |
| C116 | partial | REFUTED: the code measures the gradients with the cost itself instead of the dual norm, so with 0 < kappa < infinity its multiplier is always strictly too small, by the factor (1+kappa^2)/(1+kappa)^2 or more (proved for all gradients and powers; C116_best gives the minimiser). For LinearRegression the exact ratio is proved: with weights of norm at least 1 it is too small by 1 + kappa or more, 10^8 with the default cost. With kappa 0 or infinite there is in general no minimiser (C116_free_moves). Euclidean norms. |
| C117 | proved | Expectations are arbitrary positive linear functionals (every law of the samples, the Gaussian ones included); finiteness and positivity of the exact integrals are hypotheses. Mean reduction. The importance-sampling part is for the unlabelled Gaussian sampler. |
| C118 | proved | Exact numbers, mean reduction. The slope of the linear map in the norm of the cost is a hypothesis (Cauchy-Schwarz gives it for the Euclidean norm, as used in C118_linear_worst_case, C118_linear_importance and C118_linear_importance_fixed). For LogisticRegression and Weber the labels of the samples are those of the data (what a cost without labels samples); importance sampling is covered for LinearRegression, with labels that move or stay. |
| C119 | partial | REFUTED for boolean and unsigned integer features (C119_labels_refuted, C119_boolean, C119_unsigned, C119_one_class_learned). What holds is proved: C119_signed_types, C119_multiclass. The value of -1 stored as an unsigned integer is any function of the width. |
| C120 | partial | REFUTED for float64 data (C120_distinct_refuted, C120_finite_refuted, C120_radius_refuted). What holds is proved for every binary format and used at float32: C120_nearest, C120_exact, C120_relative, C120_order, C120_overflow, C120_data_kept, C120_integers. Numbers are exact dyadics; NaN and infinite entries are refused by scikit-learn's validation before. |
| C121 | partial | REFUTED (C121_refuted, NewsVendor with the squared cost at multiplier 1/10; C121_newsvendor_exceeds and C121_portfolio_iff say when). What holds for all draws is proved: C121_newsvendor, C121_portfolio. Unlabelled Gaussian sampler with the default scale rho / 2, squared Euclidean cost, mean reduction; data on a kink of the loss are left out, as there is no gradient there. |
| C122 | partial | REFUTED for Weber's position_ (C122_weber_position_refuted; C122_weber_position_never: by no sequence of fits). Proved for the other classes that document attributes. The inner calls (data checks, cost, solver) succeed or raise arbitrarily. C122_intercept: intercept_ of the logistic regression is None exactly when a torch solver was given a false fit_intercept. |
| C123 | partial | REFUTED: opt_cond None is replaced by a condition object and an integer rho by a float. Proved: the constructor and clone, everything else is kept on every outcome (C123_parameters_kept), and nothing changes for a float radius and a given condition. |
| C124 | partial | REFUTED by five witnesses (wrong exception, stale and untrained answers, solver names). Proved: answers are read-only, come from the last successful fit if that was the last call, and raise for objects never fitted. Only the attributes are tracked here; that Weber.eval then fails for another reason is C81. C124_fit_succeeds (Props_FitOk): with accepted arguments and a known solver name, fit succeeds whenever the data checks, the cost, the dual loss and the solver do, so the statements about fitted objects are about all such calls. |
| C125 | partial | REFUTED in relative mode (C125_relative_order_refuted: order 1 stops where 'inf' does not). Proved: the norms of the default conditions, the maximum norm, the comparison of orders with an absolute tolerance, invariance under scaling with a relative one, and what NaN and infinite gradients do. Exact norms; the metric is the gradient of theta. |
| C126 | partial | REFUTED for one-feature torch fits of LogisticRegression (C126_one_feature_refuted; C126_one_feature gives the array returned) and for NewsVendor.eval (C126_newsvendor_answers). Proved for the others. Weber is left out: its eval is C81. |
| C127 | proved | Positive radius; at radius 0 the kept samples are unusable, which is C14. The samples of the post-sampled loss are those its sampler draws. |
| C128 | partial | REFUTED: a used condition that watches the parameter keeps tensors attached to a graph, so clone raises RuntimeError (C128_parameter_clone_raises), and candidates inherit the memory of earlier fits (C128_search_refuted). Proved: gradient conditions always clone, and candidates do not see each other's fits. clone is modelled by the deepcopy of the condition; the other parameters are plain values. |
| C129 | partial | REFUTED for the dedicated Portfolio solver (score is the mean return, the risk term is ignored), for LogisticRegression (accuracy) and for Weber (no score). Proved for NewsVendor, the torch Portfolio solvers and, on targets that are not all equal, LinearRegression. r2_score and accuracy_score are modelled from the scikit-learn documentation. |
| C130 | partial | REFUTED only for 'gives the training labels back' when a row is repeated with another label (C130_repeated_row_refuted); proved when equal rows have equal labels, and everything else. Dense finite data, exact distances. |
| C131 | partial | REFUTED: dualize_primal_loss uses Prodigy by default and Prodigy and Mechanic take no learning rate, so a rate given without adapt=None has no effect on post-sampled losses (C131_rate_ignored); pre-sampled losses accept and ignore any adapt name (C131_adapt_names). Proved: the estimators, which drop adapt when a rate is given; dualize_primal_loss without adapt; refused names of post-sampled losses; first moves of AdamW and L-BFGS. |
| C132 | partial | REFUTED: a misspelt mode is reported only at the first comparison (second evaluation with the gradient metric, third with the parameter metric), so shorter runs never report it (C132_mode_refuted); with no positive tolerance neither mode nor metric is ever reported (C132_metric_refuted). Proved: a misspelt metric is reported at every evaluation when something is watched; C132_suite is the project's own test for every loss. Monitoring names are C29. |
| C133 | proved | Real arithmetic: in floating point tanh reaches 1 for large scores. The starting weights of the quadratic loss (kaiming initialisation of nn.Linear) are a parameter of the model; those of the logistic loss are zero. |
| C134 | proved | About one coordinate of torch.optim.AdamW as modelled in Oracle_Model.v (torch's published update with amsgrad); gradients are arbitrary reals. The constant 8 is not claimed to be the smallest. |
| C135 | proved | Strong duality for finite data is proved here from scratch (Farkas lemma with a sublinear objective, then Kantorovich duality), so the programme is exact; that a minimiser exists and that the external solver finds it is not claimed. |
| C136 | proved | Transport plans are finite laws, one per data point. The second half is about the objective of the mean reduction for any sampled points; nothing is said here about the expectation over the draw (C117). |
| C137 | partial | REFUTED for three documented lines (C137_dual_loss_refuted, C137_default_sampler_refuted, C137_warmup_refuted): the DualLoss of doc/pytorch.rst:329 is given epsilon= and sigma=, which are not parameters of either constructor; default_sampler at :291 lacks the required seed; :304 unpacks a tuple of one element. Proved: the binding rule for every signature, what robustify does with a batch of any length, and that the other documented calls bind as intended. Signatures are transcribed from the sources; the values of defaults are in C57. C137_keywords and C137_single_keyword list the keyword names every class takes. |
| C138 | partial | REFUTED for the exponent 2 (C138_no_critical_radius_refuted: equal weights are never optimal) and, for the exponent infinity, the radius has no effect (C138_radius_ignored). Proved for the default cost (exponent 1), with the critical radius 2 m B; concentration is proved for eta = 0. The side constraints are the default ones (none), as in the example; the external solver is assumed to return an optimum. |
| C139 | partial | REFUTED for Huber's loss with the threshold 0.95 of the example (C139_huber_refuted; C139_huber says exactly when it is convex or Lipschitz) and for four displayed formulas (C139_documented_refuted). Proved for the other losses. Entrywise real model; the training loops of the examples are not modelled. C139_quadratic_slope fixes the scale of the quadratic loss. |
| C140 | partial | REFUTED for labels in {0, 1} (C140_separable_refuted; C140_everything_in_class_1 for every data set and C140_zero_label_ignored say what happens). Proved for labels recoded to {-1, 1}. Empirical loss of linear models; scores and labels are columns of one length. |
| C141 | partial | REFUTED: C141_call_refuted (and C141_call_raises for every call), C141_expectation_refuted, C141_mixed_features_refuted; the other theorems say what the snippets compute. The noise is an argument of the model, and nan is modelled by None; dtypes and devices are left out. |
| C142 | partial | REFUTED: C142_readme_refuted (the README loop leaves the multiplier at the guess although another is better, after any number of epochs), C142_unprojected_refuted (neural_net.py: one AdamW step gives a negative multiplier with a value below all admissible ones), C142_rectify_refuted, C142_clip_infinite_refuted. Proved for all optimisers: what the multiplier is after each loop, that it stays non-negative in the README loop and in the clipping examples, when the constraint matters, and that without it the objective can be unbounded below. LBFGS and SGD are arbitrary functions; AdamW with torch's default options is modelled. |
| C143 | partial | REFUTED: C143_best_refuted (one hundred steps of 1/100: the value plotted is above 8 where the best multiplier gives at most 5, which is also the exact worst case), C143_value_refuted (the value returned belongs to the multiplier before the last step), C143_wolfe_refuted (at a best multiplier the Wolfe variant returns infinity twice: its two branches are swapped). Proved: when the loop stops (ten small changes in all, not in a row), the multiplier is never negative and never above the largest cost minus the radius to the power, it is 0 when no sample costs more than that, and with costs C and C^2 <= 400 epsilon it grows towards the best multiplier l* without passing it, with a value at most 25 l*^2 / k above the smallest after k steps. scipy's line search is an argument with the promises listed in EpsStudy_Spec.v. |
| C144 | partial | REFUTED for two automatic choices with the power 2: the starting multiplier 1e-3/rho is divided by t and not by t^2 (C144_start_refuted; C144_start for every power), and the automatic epsilon, which follows the radius for the power 2, changes with the unit of the data although the loss did not (C144_default_epsilon_refuted: the objective goes from above 0.99 to below 0.51). Proved: the objective without and with labels, with importance sampling, the draws, the best multiplier, the guess of the multiplier, the automatic scale, the automatic epsilon for the power 1, a change of unit of the loss, the dedicated newsvendor solver and the factor sqrt(2) the test-suite uses for a cost with one half. Exact numbers; mean reduction for the tensor-level statements. |
| C145 | partial | REFUTED: a model that is wrong on all six points passes (C145_wrong_model_refuted), as does one with an intercept that puts all in one class (C145_intercept_refuted); the assertion with ten times the tolerance accepts every model that was trained at all (C145_cvx_accepts_all); the multiclass test accepts coefficients at right angles to all centroids (C145_centroids_refuted); test_autostop does not read the exit code (C145_autostop_refuted); test_consistency accepts opposite classifiers (C145_consistency_refuted); the assertion on the risk level compares with == inside abs, so it fails exactly when the level was stored exactly (C145_alpha, C145_alpha_refuted). Proved: right models pass, what passing does guarantee, and that the reference test never accepts an opposite direction in up to ten dimensions. Accuracy and score are arguments of the model. |
| C146 | partial | REFUTED (C146_refuted, C146_no_minimiser, C146_tensor for the module on tensors): when a linear score separates the samples, a step of any length along it lowers the objective at every model, multiplier, radius and cost, so no model is optimal; if the samples cost at most the radius on average, the infimum is 0 and is not attained (C146_infimum). What stops the training is the stopping rule, not convergence. Proved beside it: with an l2 penalty the models at least as good as the zero model are bounded (C146_ridge_bounded), and so they are for the exact worst case that the objective stands for, even without a penalty and although the data are separable (C146_exact_bounded, C146_exact_zero): it is the finite set of samples that loses the optimum. That a best model then exists, and only one, is C150. |
| C147 | partial | REFUTED in three places: a misspelt mode or metric is not reported when the tolerances are zero, values the same test uses elsewhere (C147_opt_cond_wrong_refuted); torch.rand can return 0, where the hybrid step stops with an AssertionError (C147_hybrid_sgd_refuted); in float32 the change of 1e-7 is lost at every location of whole numbers from 2 on (C147_small_difference_lost, C147_small_difference_refuted; the test passes only through its first entry 1). Proved for all inputs: every documented setting passes (C147_opt_cond), misspelt names always and misspelt modes and metrics with positive tolerances are reported (C147_opt_cond_wrong), the hybrid step from positive parameters, exactly which norms and powers pass the sampler test, both closed forms, and the log-probability in exact numbers. pytest.approx and allclose are equality; messages of errors and the verbose flag are left out. |
| C148 | partial | REFUTED (C148_line_refuted: with the radius of the script, every multiplier that reaches the value of the comment is more than 30000 times the one drawn, and the value at the line is more than 30 above it). Proved: for the first power of the distance the comment's value is the smallest and is taken at the norm of theta, while at the line the robust loss is infinite for radii below one (C148_first_power, C148_first_power_best); for the squared distance the script uses, two-sided bounds at every multiplier, what they say about the best one (C148_second_power, C148_second_power_best, C148_second_power_line), that a best multiplier exists in that bracket when some label is not 0 (C148_best_exists), what the marks are (C148_marked) and when the best multiplier is outside of the grid (C148_off_grid). Labels do not move (the script makes moving them cost 100000); the sampled curves are not part of these statements. |
| C149 | partial | REFUTED in four places: h_samples_ holds running totals, because theta.grad is never cleared and its first row is the tensor theta.grad itself (C149_rows for every dataset, C149_rows_refuted; with three samples or more the rows are right only if all gradients but the last vanish, C149_right_iff; equal gradients get a positive variance, C149_equal_gradients); the first row of a Portfolio is its parameters (C149_portfolio_refuted); labels given as an array are replaced by their mean (C149_labels_refuted); with one parameter the variance is used as the standard deviation (C149_scale_refuted). Proved: one sample is right (C149_single), labels given as tensors are kept (C149_labels), the lifted matrix is positive definite (C149_positive_definite), what is refused (C149_refusals). No estimator of the package reaches this code (C91); float32 rounding, eigvalsh and the differentiation are outside. torch adds gradients in place when no graph is created, as its documentation says. C149_fit states the rows of the whole fit for the portfolio and the other classes; C149_covariance the covariance in terms of differences of rows. |
| C150 | proved | Existence: the objective is Lipschitz on boxes (through the soft maximum), is at least a multiple of the penalty plus a multiple of the multiplier, and a locally Lipschitz coercive function on R^d has a minimum (Attain.v, by induction on d from the extreme value theorem on the line). Uniqueness: the value at the midpoint is lower by l2_reg/8 times the squared distance. Saddle point: C115_necessary and C115_stationary at the minimum. C150_multinomial has existence and uniqueness for more than two classes, for samples whose labels are not negative (cross entropy is not convex otherwise). C150_linear and C150_logistic state all this of the value that compute_dual returns on the tensors of the estimators. The hypotheses are needed: without a penalty separable data have no best model (C146), and when the samples cost too much the objective is unbounded below in the multiplier (C150_unbounded). Not covered: importance weights (solver 'entropic_torch' with a squared cost), where samples move with the model. |
| C151 | partial | REFUTED (C151_refuted; C151_tensor on tensors): when one asset does at least as well as every other in all samples and better than some, raising its raw weight always lowers the objective, so no raw weights are best (C151_always_lower, C151_no_minimiser); the infimum is the value of holding that asset only, approached and never reached (C151_infimum). And parameters are never unique: adding a number to all raw weights changes nothing for any tensor (C151_shift). Proved: a best portfolio always exists among weights that may vanish, at every multiplier and together with the multiplier under the budget condition of C150 (C151_fixed, C151_joint; the simplex is the image of a cube and thresholds can be cut at the largest return); the raw weights reach the best value exactly when some best portfolio holds every asset (C151_reached_iff). Not covered: importance weights, where samples move with the model. |
| C152 | partial | REFUTED for DiffLoss (C152_diff_loss_refuted): intercept and default_sampler stay abstract, so no instance exists (C152_diff_loss_never), and deriving a class that defines them would not do, because its constructor leaves out has_labels (C152_diff_loss_repair); the general tuner would stop there even on an estimator with the attribute it asks for (C152_tuner_stops). Proved: Python's bookkeeping from class to class is the set of names whose definition in effect is abstract, for every hierarchy (C152_abstract_iff, C152_instantiable); all the other classes with an abstract ancestor can be built (C152_library); what the bases leave to define (C152_bases, C152_new_loss: default_sampler, presented as optional, is required and value is not); which calls of Loss.__init__ are accepted (C152_loss_call). Names are looked up depth first, which is Python's order on these hierarchies. |
| C153 | partial | REFUTED in five places: with labels the derivative in the label is appended as one more column instead of one more row, so the conjugate is taken in d + 1 variables of another function (C153_value says which, C153_refuted for every pseudo-inverse) and depends on a random number added to make the sizes agree (C153_draw_refuted: at one data set it takes every non-negative value); with one feature the concatenation fails (C153_one_feature, C153_one_feature_refuted); for every wrapped loss, so for Portfolio, Weber and NewsVendor, the parameter is not found (C153_parameters, C153_wrapped_refuted); the newsvendor loss asserts labels (C153_newsvendor_refuted) and with labels another block of the Hessian is taken (C153_newsvendor). Proved: the blocks used are the mixed derivatives of the logistic and square losses with any intercept and ridge (C153_feature_derivatives, C153_label_derivatives); when there is a value (C153_defined); the value is never below the conjugate for transports that keep the labels (C153_features, C153_at_least); which names let any class through (C153_branches, C153_names, C153_get_parameter). C153_value and C153_at_least need the supremum to be attained; where it is infinite the code returns a number (C90). |
| C154 | partial | REFUTED: NewsVendor takes any prices, and with a buying price above the selling price (k=7, u=5) what fit minimises has no lower bound, for all samples and multipliers (C154_refuted); Weber takes any weights, and with a negative weight the objective falls without end as the location moves away (C154_weber_refuted). Proved: a best order exists exactly when 0 <= k <= u (C154_order_iff, C154_order_unbounded; C154_newsvendor on the tensors of the estimator), can be found in the range of the sampled demands and, when 0 < k < u, nowhere else (C154_order_range), and exists together with the multiplier under the budget condition of C150 (C154_order_joint). A best location exists whenever there is a penalty or some adversary makes the average sampled weight positive, at each multiplier and jointly (C154_site_fixed, C154_site_joint), and none exists without a penalty when every adversary makes it negative (C154_site_unbounded; C154_weber on tensors). Between the two, where the largest average weight is exactly 0, either may happen and nothing is stated. Not covered: importance weights, where samples move with the decision (so Weber with its default cost t-NLC-2-2, whose samples are moved; the theorems are about the same class with a first-power cost). |
| C155 | proved | Exact numbers, mean reduction, no importance weights. Strict convexity comes from the tangent of the soft maximum, whose slope is the budget left by the Gibbs adversary (C109). C155_exists_iff completes C61: with samples at different costs a best multiplier exists exactly when some weighting costs strictly less than the budget (at equality it escapes to infinity). C155_one_cost is the remaining case, which a single sample per datum (n_zeta_samples=1) is always in: 0, every multiplier, or none is best. |
| C156 | partial | REFUTED for the depth: n_hidden_layers=1 gives two hidden layers of 32 neurons (C156_documented_depth_refuted; C156_depth for all sizes: n+1 hidden layers), and the extra layer does give functions that the documented network cannot (C156_extra_layer). Proved: on two classes the problem handed over is that of LogisticRegression but for the steps 50 and 200 and the specialised solver (C156_copy, C156_defaults); more classes are refused although they are encoded and predict has a branch for them, and the documented solver 'dedicated' is refused (C156_two_classes, C156_refused); predictions and probabilities (C156_one_output, C156_predict, C156_probas); without intercept the output is positively homogeneous, so no two points of a ray are told apart and the origin is always in the second class (C156_homogeneous, C156_rays; with intercept C156_intercept_needed); the output moves at most by the product of the Frobenius norms times the move of the input, which certifies a radius per prediction (C156_lipschitz, C156_certified). Training itself is the solver of C30-C35; exact numbers. |
| C157 | proved | The exact problem is the worst case over all plans of Transport_Spec.v (what the sampled objective stands for, C118); with labels that move or cheaper moves the models do no better (C157_more_freedom). The dedicated programme is the one handed to cvxpy (DedProg_Model.v), and its two cases are without intercept, or balanced classes; samples no longer than kappa, 1000 by default. C157_script: for balanced data with the class means of the example, the critical radius is sqrt(32) and the script uses 32, where only the zero coefficients are optimal. The objective on a finite number of draws is weaker than the exact one, so a trained model need not vanish. |
| C158 | proved | The objective is the one handed to cvxpy (DedProg_Model.v), equal to the exact worst case by C50, which C158_worst_case uses. The solver itself is external: the theorems speak about every best point of the programme. The critical radius is /cov(x, y)/ / sd(y) with intercept and /mean of y x/ / rms(y) without; when the targets are constant the constant model is best at every radius. |
| C159 | proved | The samples are moved with the data: the sampler itself draws coordinate by coordinate, so a fit on rotated data uses other samples of the same law. C159_linear and C159_logistic compare two fits of the same estimator; the ridge penalty includes the intercept, so with l2_reg > 0 a translation changes it and the equal penalties are a hypothesis (true for rotations and reorderings, and for l2_reg <= 0). C159_units_matter is a witness that nothing of the kind holds for the units of the features at a fixed radius (C144 says how the radius has to change). |
| C160 | partial | REFUTED for the titles of the epsilon study: five of them say rho=32, their classifiers have the radius 1 (C160_radius_titles_refuted); the exponents of epsilon are right (C160_epsilon_titles). Proved of the figure itself for any data: place, title, reference and levels of every panel (C160_panels, C160_reference_gap, C160_names_required), what a percentage can hide (C160_percent: a gap below one percent loses its sign) and that the two functions of the colour scale are inverse and increasing (C160_colours). fit is a function of the object and the data; scores, losses and the contour levels of matplotlib are arbitrary functions, with the one law that given levels are used; scatter plots and axes are left out. |
| C161 | partial | REFUTED (C161_moons_radius_refuted): the squared distance is 2 (s1 - s2)^2 exactly (C161_moons_shift: a lower bound for every coupling, reached by moving points in proportion), which is below (0.2 / 2)^2 for the first data set and above (2 * 0.2)^2 for the second. C161_blobs_shift is the same for the Gaussian blobs, whose radius 32 is more than five times the distance (C161_blobs_radius). Only the second moments of the noise are used, so the lower bound holds for every noise of unit variance; the shape of the moons, which is common to both sets, is left out. |
| C162 | partial | REFUTED twice: with the default solver any number of classes from two on is fitted (C162_more_classes, C162_binary_only_refuted), and test_all_estimators excuses four of its eight entries before looking the estimator up, the only one of Weber among them (C162_every_class_refuted). Proved: with the dedicated solver a fit that succeeds had two classes (C162_dedicated_is_binary) and more are refused with NotImplementedError (C162_dedicated_refuses); the checks are run on exactly the entries with the dedicated solver (C162_checked), a name outside the table is a KeyError (C162_unknown), every name with the suffix of the presampled ones is excused (C162_presampled_excused, with str.endswith specified by C162_ends_with), so that no fault of another solver changes an outcome (C162_blind). check_estimator itself is scikit-learn's and is a parameter; the cost arguments of the table are left out. |
