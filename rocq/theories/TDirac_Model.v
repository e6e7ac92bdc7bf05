(* Model of the robust loss with importance sampling when the labels are sampled by skwdro's Dirac law: a labelled problem with a cost
   that ignores labels (NormCost) or forbids moving them (NormLabelCost with kappa infinite). TDual_Model covers Gaussian samplers; the
   other parts of compute_dual are shared with it. The log-density of the Dirac law is one number for the whole tensor of labels, 0 or
   -inf, so either it changes nothing or the difference of the two log-densities is -inf - -inf, nan for every sample. Numbers are exact
   reals otherwise. *)
From Coq Require Import Reals List Bool Arith String.
From Verif Require Import PyBase RList XReal Tensor Loss_Model Costs_Model Displace_Model ImpSamp_Model Dual_Model TDual_Model Samplers_Model CostDecoder_Model Wrap_Model Estim_Model.
Import ListNotations.
Local Open Scope R_scope.

(* Dirac(lloc).log_prob(zl) = 0, dirac_distribution.py:87-91: (zl - lloc).abs().sum() == 0, otherwise it is -inf *)
Definition at_labels (lloc zl : Tensor.tensor) : Result bool :=
  do diff <- bcast Rminus zl lloc; Ok (Reqb (rsum (map Rabs (dat diff))) 0).

(* LabeledSampler.log_prob, base_samplers.py:197-206, where the log-density of the labels is 0: _format_logprobs (:105-117) makes it a
   tensor of shape (1,) *)
Definition td_log_prob (loc : Tensor.tensor) (scale : R) (zeta : Tensor.tensor) : Result Tensor.tensor :=
  do a <- normal_lp scale loc zeta; bcast Rplus a (mkT [1%nat] [0]).

Section TDirac.
(* the wrapped primal loss, the cost, get_displacement_direction *)
Variable loss_call : Tensor.tensor -> option Tensor.tensor -> Result Tensor.tensor.
Variable w : wrapped.
Variable c : tcost.
Variable grads : Tensor.tensor -> option Tensor.tensor -> Result (list (list xr) * option (list (list xr))).
(* the sampler: location and scale of the data, location of the labels *)
Variables (loc : Tensor.tensor) (scale : R) (lloc : Tensor.tensor).

(* the integrand, zeta.size(0) and whether it is made of numbers (false: all nan), dual_loss.py:59-126 with importance sampling;
   log_prob_recentered, base_samplers.py:208-220, does not use the displaced data, so both log-densities are the same *)
Definition td_integrand (d : dual) (xi : Tensor.tensor) (xi_labels : option Tensor.tensor) (zeta : Tensor.tensor) (zeta_labels : option Tensor.tensor)
  : Result (Tensor.tensor * nat * bool) :=
  do (g, gl) <- grads xi xi_labels;
  do (xs, xls, z, zl) <- t_displace c threshold_default (Fin (d_lam d)) g gl xi xi_labels zeta zeta_labels;
  do i <- t_penalised loss_call w c d xi xi_labels z zl;
  match xls, zl with
  | Some _, Some zl =>
      do p <- td_log_prob loc scale z;
      do q <- td_log_prob loc scale z;
      do b <- at_labels lloc zl;
      do correction <- bcast Rminus p q;
      do i' <- bcast Rplus i correction;
      Ok (i', size0 z, b)
  | _, _ => Raise AssertionError
  end.

(* compute_dual, dual_loss.py:11-141, with importance sampling; the logarithm of a sum of nans is nan *)
Definition td_compute_dual (d : dual) (xi : Tensor.tensor) (xi_labels : option Tensor.tensor) (zeta : Tensor.tensor) (zeta_labels : option Tensor.tensor) : Result out :=
  if xeq (d_rho d) (Fin 0) || d_erm d then t_erm loss_call w d xi xi_labels
  else if xlt (Fin 0) (d_rho d) then
    do (i, n, b) <- td_integrand d xi xi_labels zeta zeta_labels;
    let values := if b then snd (logsumexp0 i) else map (fun _ => NaN) (snd (logsumexp0 i)) in
    do v <- reduce_loss_batch (d_reduction d) (fst (logsumexp0 i)) values;
    Ok (out_map (fun v => xadd (xmul (Fin (d_lam d)) (xpow_pos (d_rho d) (tc_power c)))
                               (xmul (Fin (d_eps d)) (xsub v (xlog_nat n)))) v)
  else if isnan (d_rho d) then Ok (Scalar NaN)
  else Raise ValueError.
End TDirac.

(* the sampler built by dualize (Samplers_Model), when its data are Gaussian and its labels fixed: tensors of rows of width k (labels: kl) *)
Definition dsampler_of (d : dual_args) (k kl : nat) : option (Tensor.tensor * R * Tensor.tensor) :=
  match cs_data (a_sampler d), cs_labels (a_sampler d) with
  | LocScale FNormal loc (Fin s), Some (DiracAt lloc) => Some (Tensor.batch [List.length loc] k loc, s, Tensor.batch [List.length lloc] kl lloc)
  | _, _ => None
  end.
