(* Model of Python's argument binding and of the signatures of the public constructors and functions.
   Arguments are values of any type; annotations and the values of the defaults are left out (C57 has the latter). *)
From Coq Require Import List Bool String Arith.
From Verif Require Import PyBase Tuner_Model Lifecycle_Model.
Import ListNotations.
Local Open Scope string_scope.

(* name of a parameter and whether it has a default *)
Definition param : Type := string * bool.
(* def f(positional, *, keyword_only), without self or cls; extra_keywords for **kwargs *)
Record pysig := mkSig { positional : list param; keyword_only : list param; extra_keywords : bool }.
Definition params (s : pysig) : list param := positional s ++ keyword_only s.
Definition req (n : string) : param := (n, false).
Definition opt (n : string) : param := (n, true).

(* what a parameter receives *)
Inductive received (A : Type) := Given (a : A) | Default.
Arguments Given {A} a.
Arguments Default {A}.

Section Binding.
Variable A : Type.
Fixpoint assoc (k : string) (l : list (string * A)) : option A :=
  match l with [] => None | (k', a) :: l' => if String.eqb k k' then Some a else assoc k l' end.
Definition known (k : string) (l : list param) : bool := existsb (fun p => String.eqb k (fst p)) l.
(* The Python language reference, section "Calls": positional arguments fill the first parameters *)
Fixpoint fill_positional (ps : list param) (args : list A) : Result (list (string * A)) :=
  match args, ps with
  | [], _ => Ok []
  | _ :: _, [] => Raise TypeError
  | a :: args', p :: ps' => do r <- fill_positional ps' args'; Ok ((fst p, a) :: r)
  end.
(* keyword arguments fill the parameter of their name, which must exist and be free; others go to **kwargs *)
Fixpoint fill_keywords (s : pysig) (bound : list (string * A)) (kw : list (string * A)) : Result (list (string * A)) :=
  match kw with
  | [] => Ok bound
  | (k, a) :: kw' =>
      match assoc k bound with
      | Some _ => Raise TypeError
      | None => if known k (params s) || extra_keywords s then fill_keywords s (bound ++ [(k, a)]) kw' else Raise TypeError
      end
  end.
(* the parameters left take their default *)
Fixpoint fill_defaults (bound : list (string * A)) (ps : list param) : Result (list (string * received A)) :=
  match ps with
  | [] => Ok []
  | (n, d) :: ps' =>
      match assoc n bound with
      | Some a => do r <- fill_defaults bound ps'; Ok ((n, Given a) :: r)
      | None => if d then do r <- fill_defaults bound ps'; Ok ((n, Default) :: r) else Raise TypeError
      end
  end.
(* a call with positional arguments pos and keyword arguments kw: the value of each named parameter *)
Definition call (s : pysig) (pos : list A) (kw : list (string * A)) : Result (list (string * received A)) :=
  do b <- fill_positional (positional s) pos;
  do b' <- fill_keywords s b kw;
  fill_defaults b' (params s).

(* x, y = t : unpacking into two names *)
Definition unpack2 (t : list A) : Result (A * A) := match t with [x; y] => Ok (x, y) | _ => Raise ValueError end.
End Binding.
Arguments assoc {A} k l.
Arguments call {A} s pos kw.
Arguments unpack2 {A} t.

(* ---------- signatures ---------- *)
(* robustify = dualize_primal_loss, torch.py:3, wrap_problem.py:85-110 *)
Definition robustify_sig : pysig := mkSig
  [req "loss_"; req "transform_"; req "rho"; req "xi_batchinit"; req "xi_labels_batchinit"; opt "post_sample"; opt "cost_spec"; opt "n_samples"; opt "seed"]
  [opt "reduction"; opt "learning_rate"; opt "epsilon"; opt "sigma"; opt "l2reg"; opt "adapt"; opt "n_iter"; opt "imp_samp"; opt "loss_reduces_spatial_dims"] false.
(* DualPostSampledLoss.__init__ (alias DualLoss), oracle_torch.py:165-179 *)
Definition dual_post_sig : pysig := mkSig
  [req "loss"; req "cost"; req "n_samples"; req "epsilon_0"; req "rho_0"; opt "n_iter"]
  [opt "reduction"; opt "gradient_hypertuning"; opt "learning_rate"; opt "imp_samp"; opt "adapt"] false.
(* DualPreSampledLoss.__init__, oracle_torch.py:402-416 *)
Definition dual_pre_sig : pysig := mkSig
  [req "loss"; req "cost"; req "n_samples"; req "epsilon_0"; req "rho_0"; opt "n_iter"; opt "gradient_hypertuning"]
  [opt "reduction"; opt "imp_samp"; opt "learning_rate"; opt "adapt"] false.
(* default_sampler of Loss, WrappedPrimalLoss, LogisticLoss, QuadraticLoss, NewsVendorLoss_torch and _SampledDualLoss:
   base_loss.py:135-141, wrapper.py:90-94, logistic.py:110-116, quadratic.py:44-48, newsvendor.py:85-90,
   _misc_dual_interfaces.py:359-365 *)
Definition default_sampler_sig : pysig := mkSig [req "xi"; req "xi_labels"; req "epsilon"; req "seed"] [] false.
(* LogisticLoss.__init__, logistic.py:46-52, and QuadraticLoss.__init__, quadratic.py:18-25 *)
Definition regloss_sig : pysig := mkSig [req "sampler"] [opt "d"; opt "l2reg"; opt "fit_intercept"] false.
(* WrappedPrimalLoss.__init__, wrapper.py:19-31 *)
Definition wrapped_sig : pysig := mkSig
  [req "loss"; req "transform"; req "sampler"; req "has_labels"; opt "reduce_spatial_dims"] [opt "l2reg"] false.
(* NormCost.__init__, normcost.py:13-18, and NormLabelCost.__init__, normlabelcost.py:19-25 *)
Definition normcost_sig : pysig := mkSig [opt "p"; opt "power"; opt "name"] [] false.
Definition normlabelcost_sig : pysig := mkSig [opt "p"; opt "power"; opt "kappa"; opt "name"] [] false.
(* NoLabelsCostSampler.__init__ and LabeledCostSampler.__init__, cost_samplers.py:9-15 and :50-57 *)
Definition nolabels_sampler_sig : pysig := mkSig [req "cost"; req "xi"; req "sigma"; opt "seed"] [] false.
Definition labeled_sampler_sig : pysig := mkSig [req "cost"; req "xi"; req "xi_labels"; req "sigma"; opt "seed"] [] false.
(* ClassificationNormalNormalSampler, ClassificationNormalIdSampler, ClassificationNormalBernouilliSampler: classif_sampler.py:12-25,
   :86-95, :155-165; the first two of the three have a covariance in four forms, the third takes p first *)
Definition covariance : list param := [opt "sigma"; opt "tril"; opt "prec"; opt "cov"].
Definition normal_sig : pysig := mkSig [req "xi"; req "xi_labels"]
  (covariance ++ [opt "l_sigma"; opt "l_tril"; opt "l_prec"; opt "l_cov"; opt "seed"]) false.
Definition id_sig : pysig := mkSig [req "xi"; req "xi_labels"] (covariance ++ [req "seed"]) false.
Definition bernoulli_sig : pysig := mkSig [req "p"; req "xi"; req "xi_labels"] (covariance ++ [req "seed"]) false.
(* PortfolioNormalSampler, PortfolioLaplaceSampler, NewsVendorNormalSampler: portfolio_sampler.py:11-20, :67-76,
   newsvendor_sampler.py:11-20 *)
Definition unlabelled_sig : pysig := mkSig [req "xi"] (covariance ++ [opt "seed"]) false.
(* OptCondTorch.__init__, optim_cond.py:81-92 *)
Definition optcond_sig : pysig := mkSig [req "order"; opt "tol_theta"; opt "tol_lambda"; opt "max_iter"]
  [opt "monitoring"; opt "mode"; opt "metric"; opt "verbose"] false.
(* solve_dual_wdro, entropic_dual_torch.py:46 *)
Definition solve_sig : pysig := mkSig [req "loss"; req "p_hat"; req "opt"] [] false.
(* _DualFormulation.get_initial_guess_at_dual, dual_loss.py:143-147 *)
Definition initial_guess_sig : pysig := mkSig [req "xi"; req "xi_labels"] [] false.
(* the estimators, whose parameters (Lifecycle_Model.v) are all positional with defaults: _linear_regression.py:93-107,
   _logistic_regression.py:99-113, _newsvendor.py:77-92, _portfolio.py:83-104, _weber.py:59-74 *)
Definition estimator_sig (e : estimator) : pysig := mkSig (map opt (Lifecycle_Model.signature e)) [] false.
(* everything above *)
Definition library : list pysig :=
  [robustify_sig; dual_post_sig; dual_pre_sig; default_sampler_sig; regloss_sig; wrapped_sig; normcost_sig; normlabelcost_sig; nolabels_sampler_sig;
   labeled_sampler_sig; normal_sig; id_sig; bernoulli_sig; unlabelled_sig; optcond_sig; solve_sig; initial_guess_sig]
  ++ map estimator_sig [ELinear; ELogistic; ENewsVendor; EPortfolio; EWeber].
