(* Model of the robust losses that the estimators train: the wrapped loss, the cost and the settings built from what fit hands over
   (Estim_Model, Wrap_Model), on tensors (TDual_Model). Parameters are the current values of the trained tensors. *)
From Coq Require Import Reals List Bool Arith String.
From Verif Require Import PyBase RList XReal Tensor Loss_Model Costs_Model CostDecoder_Model Samplers_Model Wrap_Model Dual_Model TDual_Model.
Import ListNotations.
Local Open Scope R_scope.

(* ---------- from the arguments ---------- *)
(* the attributes p, power and kappa of the cost as numbers; other values cannot reach a cost sampler *)
Definition nexp_of (p : xr) : option nexp := match p with Fin q => Some (PFin q) | PInf => Some PInfty | _ => None end.
Definition kap_of (k : xr) : option kap := match k with Fin k => Some (KFin k) | PInf => Some KInf | _ => None end.
Definition tcost_of (c : cost xr) : option tcost :=
  match nexp_of (c_p c), c_power c with
  | Some p, Fin w =>
      match c_kind c, c_kappa c with
      | NLC, Some k => match kap_of k with Some k => Some (TNLC p w k) | None => None end
      | _, _ => Some (TNC p w)
      end
  | _, _ => None
  end.
(* WrappedPrimalLoss, wrap_problem.py:208-211 and wrapper.py:66-87: the losses of the estimators are modules *)
Definition wrapped_of (d : dual_args) (loss_params transform_params : list (list R)) : wrapped :=
  {| w_oop := true; w_has_labels := a_has_labels d; w_reduce := a_reduce_spatial d; w_l2 := l2reg_of (a_l2reg d);
     w_loss_params := loss_params; w_transform_params := transform_params |}.
(* the dual loss, wrap_problem.py:213-230 and _misc_dual_interfaces.py:80-127, once its multiplier is lam *)
Definition dual_of (d : dual_args) (power e lam : R) : dual :=
  {| d_rho := Fin (a_rho d); d_lam := lam; d_eps := e; d_power := power; d_reduction := init_reduction (a_reduction d);
     d_imp := a_imp_samp d; d_erm := false |}.
(* the Gaussian samplers, as tensors of m rows of width k (labels: kl) *)
Definition tsampler_of (d : dual_args) (k kl : nat) : option tsampler :=
  match cs_data (a_sampler d), cs_labels (a_sampler d) with
  | LocScale FNormal loc (Fin s), None => Some (TPlain (Tensor.batch [List.length loc] k loc) s)
  | LocScale FNormal loc (Fin s), Some (LocScale FNormal lloc (Fin ls)) =>
      Some (TLabelled (Tensor.batch [List.length loc] k loc) s (Tensor.batch [List.length lloc] kl lloc) ls)
  | _, _ => None
  end.

(* ---------- the losses ---------- *)
(* nn.MSELoss(reduction="none") after nn.Linear(d, 1), _linear_regression.py:183-184 *)
Definition lr_call (wt : vec) (b : R) (xi : Tensor.tensor) (y : option Tensor.tensor) : Result Tensor.tensor :=
  match y with None => Raise TypeError | Some y => do s <- linear [wt] [b] (List.length wt) xi; mse s y end.
(* BiDiffSoftMarginLoss after nn.Linear(d, 1, bias), _logistic_regression.py:266-276 *)
Definition lg_call (wt : vec) (b : R) (xi : Tensor.tensor) (y : option Tensor.tensor) : Result Tensor.tensor :=
  match y with None => Raise TypeError | Some y => do s <- linear [wt] [b] (List.length wt) xi; softmargin s y end.
(* nn.CrossEntropyLoss(reduction='none') on scores and class probabilities of the same shape (N, C) *)
Definition log_softmax (v : vec) : vec := map (fun a => a - ln (rsum (map exp v))) v.
Definition cross_entropy (input target : Tensor.tensor) : Result Tensor.tensor :=
  if list_eq_dec Nat.eq_dec (shp input) (shp target)
  then match shp input with
       | [n; _] => Ok (mkT [n] (map2 (fun s t => - rsum (map2 (fun a b => a * b) (log_softmax s) t)) (trows input) (trows target)))
       | _ => Raise NotImplementedError                      (* other numbers of axes are not modelled *)
       end
  else Raise RuntimeError.
(* the same after nn.Linear(d, C, bias), _logistic_regression.py:266-276 *)
Definition mc_call (wts : list vec) (bs : vec) (d : nat) (xi : Tensor.tensor) (y : option Tensor.tensor) : Result Tensor.tensor :=
  match y with None => Raise TypeError | Some y => do s <- linear wts bs d xi; cross_entropy s y end.
(* SimpleWeber, _weber.py:135 *)
Definition wb_call (pos : vec) (xi : Tensor.tensor) (y : option Tensor.tensor) : Result Tensor.tensor :=
  match y with None => Raise TypeError | Some y => weber_forward pos xi y end.
(* CustomNewsvendorLoss, _newsvendor.py:159 *)
Definition nvd_call (k u theta : R) (xi : Tensor.tensor) (y : option Tensor.tensor) : Result Tensor.tensor :=
  match y with None => Ok (nv_forward k u theta xi) | Some _ => Raise TypeError end.
(* SimplePortfolio, _portfolio.py:221-222 *)
Definition pfd_call (eta alpha : R) (raw : vec) (tau : R) (xi : Tensor.tensor) (y : option Tensor.tensor) : Result Tensor.tensor :=
  match y with None => pf_forward eta alpha raw tau xi | Some _ => Raise TypeError end.
