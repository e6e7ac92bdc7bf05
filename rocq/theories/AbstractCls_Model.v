(* Model of which classes can be instantiated: the abstract base classes of skwdro/base/losses_torch/base_loss.py,
   skwdro/base/costs_torch/base_cost.py, skwdro/base/samplers/torch/base_samplers.py,
   skwdro/solvers/_dual_interfaces/*.py and the classes deriving from them. *)
From Coq Require Import List Bool String.
From Verif Require Import PyBase.
Import ListNotations.
Local Open Scope string_scope.
Local Open Scope list_scope.

(* A class: its name, its bases, the methods and properties of its body in order with their __isabstractmethod__ flag (the
   class attributes that are not functions play no part). *)
Inductive pyclass := Class (name : string) (bases : list pyclass) (body : list (string * bool)).
Definition cls_name (c : pyclass) : string := match c with Class n _ _ => n end.

(* the namespace of the body: a later definition of the same name replaces the earlier one *)
Fixpoint own (body : list (string * bool)) (m : string) : option bool :=
  match body with
  | [] => None
  | (n, a) :: r => match own r m with Some b => Some b | None => if String.eqb n m then Some a else None end
  end.

(* getattr(cls, m): the body, then the bases from left to right. Python walks the C3 order; on the hierarchies below, where no
   base with methods is reached twice, that is the depth-first order used here. *)
Fixpoint resolve (c : pyclass) (m : string) : option bool :=
  match c with
  | Class _ bs body =>
    match own body m with
    | Some a => Some a
    | None => (fix first (l : list pyclass) : option bool :=
                 match l with [] => None | b :: r => match resolve b m with Some a => Some a | None => first r end end) bs
    end
  end.

(* ABCMeta.__new__ (Python's abc.py, _abc_init): the abstract names of the body, and those of the abstract sets of the bases
   that still resolve to an abstract function *)
Definition is_abs (o : option bool) : bool := match o with Some true => true | _ => false end.
Fixpoint abstract_set (c : pyclass) : list string :=
  match c with
  | Class _ bs body =>
    filter (fun m => is_abs (own body m)) (map fst body) ++
    filter (fun m => is_abs (resolve c m)) ((fix all (l : list pyclass) : list string := match l with [] => [] | b :: r => abstract_set b ++ all r end) bs)
  end.

(* object.__new__: TypeError while an abstract name is left; then the constructor *)
Definition instantiate {A} (c : pyclass) (init : Result A) : Result A :=
  match abstract_set c with [] => init | _ => Raise TypeError end.

(* binding the arguments of a call to a signature: the positional parameters in order (with their "has a default" flag), then
   the keyword-only ones; a missing parameter without default, a surplus or unknown argument is a TypeError *)
Record signature := mkSig { positional : list (string * bool); kwonly : list (string * bool) }.
Definition mem (s : string) (l : list string) : bool := existsb (String.eqb s) l.
Definition bind_call (sg : signature) (npos : nat) (kws : list string) : Result unit :=
  let filled := map fst (firstn npos (positional sg)) in
  let rest := skipn npos (positional sg) ++ kwonly sg in
  if Nat.ltb (List.length (positional sg)) npos then Raise TypeError
  else if existsb (fun k => negb (mem k (map fst rest))) kws then Raise TypeError
  else if existsb (fun p => negb (snd p) && negb (mem (fst p) kws)) rest then Raise TypeError
  else Ok tt.

(* ---------- the classes ---------- *)
Definition d (m : string) := (m, false).   (* a definition *)
Definition a (m : string) := (m, true).    (* under @abstractmethod *)
(* torch.nn.Module and abc.ABC *)
Definition nnModule := Class "Module" [] [d "__init__"; d "forward"].
Definition ABC := Class "ABC" [] [].

(* base_loss.py:10-162 *)
Definition LossC := Class "Loss" [nnModule; ABC]
  [d "__init__"; d "regularize"; d "value_old"; d "value"; d "sample_pi0"; d "sampler"; a "default_sampler"; d "forward"; a "theta"; a "intercept"].
(* base_loss.py:15-24: (self, sampler, has_labels, *, l2reg, xi, xi_labels, sigma) *)
Definition loss_sig := mkSig [("sampler", false); ("has_labels", false)] [("l2reg", true); ("xi", true); ("xi_labels", true); ("sigma", true)].
(* logistic.py:25-135, quadratic.py:17-60, newsvendor.py:11-100, wrapper.py:14-230 *)
Definition LogisticLossC := Class "LogisticLoss" [LossC] [d "__init__"; d "predict"; d "value"; d "default_sampler"; d "theta"; d "intercept"].
Definition QuadraticLossC := Class "QuadraticLoss" [LossC] [d "__init__"; d "regression"; d "value"; d "default_sampler"; d "theta"; d "intercept"].
Definition NewsVendorLossC := Class "NewsVendorLoss_torch" [LossC] [d "__init__"; d "value_old"; d "value"; d "theta"; d "intercept"; d "default_sampler"].
Definition WrappedC := Class "WrappedPrimalLoss" [LossC]
  [d "__init__"; d "default_sampler"; d "theta"; d "intercept"; d "_flat_value_w_labels"; d "_flat_value_wo_labels"; d "_reduce_flat_spatial_dims_loss"; d "value"].
(* rho_tuners.py:69-93 *)
Definition DiffLossC := Class "DiffLoss" [LossC] [d "__init__"; d "convert"; d "value"; d "theta"].

(* base_cost.py:13-140, normcost.py:9-, normlabelcost.py:9-; the overloads of a name are replaced by its last definition *)
Definition TorchCostC := Class "TorchCost" [nnModule; ABC]
  [d "__init__"; d "forward"; a "value"; d "sampler"; a "_sampler_data"; a "_sampler_labels"; a "_sampler_labels"; a "_sampler_labels"; d "__str__"; a "solve_max_series_exp"].
Definition NormCostC := Class "NormCost" [TorchCostC] [d "__init__"; d "value"; d "_sampler_data"; d "_sampler_labels"; d "solve_max_series_exp"].
Definition NormLabelCostC := Class "NormLabelCost" [NormCostC] [d "__init__"; d "_label_penalty"; d "_data_penalty"; d "value"; d "_sampler_labels"; d "solve_max_series_exp"].

(* base_samplers.py:10-117, :120-158, :161-222, :225- *)
Definition BaseSamplerC := Class "BaseSampler" [ABC]
  [d "__init__"; a "sample"; d "__iter__"; d "__next__"; a "produces_labels"; a "reset_mean"; a "log_prob"; a "log_prob_recentered"; d "_format_logprobs"].
Definition NoLabelsSamplerC := Class "NoLabelsSampler" [BaseSamplerC; ABC] [d "__init__"; d "sample"; d "produces_labels"; d "log_prob"; d "log_prob_recentered"].
Definition LabeledSamplerC := Class "LabeledSampler" [BaseSamplerC; ABC]
  [d "__init__"; d "sample"; d "sample_data"; d "sample_labels"; d "produces_labels"; d "log_prob"; d "log_prob_recentered"].
Definition OptCovC := Class "IsOptionalCovarianceSampler" [ABC] [d "init_covar"].
(* classif_sampler.py:8, :82, :151; cost_samplers.py:8, :49; newsvendor_sampler.py:8; portfolio_sampler.py:8, :63 *)
Definition NormalNormalC := Class "ClassificationNormalNormalSampler" [LabeledSamplerC; OptCovC] [d "__init__"; d "reset_mean"].
Definition NormalIdC := Class "ClassificationNormalIdSampler" [LabeledSamplerC; OptCovC] [d "__init__"; d "sample_labels"; d "reset_mean"].
Definition NormalBernouilliC := Class "ClassificationNormalBernouilliSampler" [LabeledSamplerC; OptCovC] [d "__init__"; d "sample_labels"; d "reset_mean"].
Definition NoLabelsCostC := Class "NoLabelsCostSampler" [NoLabelsSamplerC] [d "__init__"; d "reset_mean"].
Definition LabeledCostC := Class "LabeledCostSampler" [LabeledSamplerC] [d "__init__"; d "reset_mean"].
Definition NewsVendorSamplerC := Class "NewsVendorNormalSampler" [NoLabelsSamplerC; OptCovC] [d "__init__"; d "reset_mean"].
Definition PortfolioNormalC := Class "PortfolioNormalSampler" [NoLabelsSamplerC; OptCovC] [d "__init__"; d "reset_mean"].
Definition PortfolioLaplaceC := Class "PortfolioLaplaceSampler" [NoLabelsSamplerC; OptCovC] [d "__init__"; d "reset_mean"].

(* _misc_dual_interfaces.py:15-298, :300-327, :329-405; _impsamp_interface.py:17; dual_loss.py:10; oracle_torch.py:100, :323 *)
Definition DualLossBaseC := Class "_DualLossBase" [nnModule; ABC]
  [d "__init__"; d "reduce_loss_batch"; d "init_sampler"; d "iterations"; a "forward"; a "forward"; a "forward"; d "freeze"; d "eval"; d "train"].
Definition OptimizeableC := Class "_OptimizeableDual" [DualLossBaseC] [d "optimizer"].
Definition SampledC := Class "_SampledDualLoss" [OptimizeableC] [d "generate_zetas"; d "default_sampler"; a "presample"; d "sampler"].
Definition DisplacerC := Class "_SampleDisplacer" [SampledC] [d "get_optimal_displacement"; d "compute_functional_grads"; d "get_displacement_direction"; d "displace_samples"].
Definition DualFormC := Class "_DualFormulation" [DisplacerC] [d "compute_dual"; d "get_initial_guess_at_dual"; d "theta"; d "intercept"; d "lam"].
Definition PostSampledC := Class "DualPostSampledLoss" [DualFormC] [d "__init__"; d "reset_sampler_mean"; d "forward"; d "__str__"; d "presample"].
Definition PreSampledC := Class "DualPreSampledLoss" [DualFormC] [d "__init__"; d "forward"; d "__str__"; d "presample"; d "current_samples"].

(* DiffLoss(loss=loss), rho_tuners.py:73-75: the constructor calls Loss.__init__ with the one argument None; the value built is
   the loss kept in the attribute. [c] is DiffLoss or a class deriving from it without a constructor of its own. *)
Definition diff_loss {L} (c : pyclass) (loss : L) : Result L := instantiate c (do _ <- bind_call loss_sig 1 []; Ok loss).
(* the calls of Loss.__init__ by the other losses: logistic.py:54 and quadratic.py:27 (sampler, True, l2reg=...),
   newsvendor.py:49 (sampler, False, l2reg=...), wrapper.py:69 (sampler, has_labels, l2reg=...) *)
Definition loss_super : Result unit := bind_call loss_sig 2 ["l2reg"].
(* rho_tuners.py:129-134 once estimator.problem_ exists: the attribute is read, then DiffLoss is built *)
Definition tuner_diff {L} (problem_loss : Result L) : Result L := do l <- problem_loss; diff_loss DiffLossC l.
