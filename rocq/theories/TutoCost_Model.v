(* The code shown in the tutorials doc/tutos/costs.rst and doc/tutos/samplers.rst.  Batches are lists of points. *)
From Coq Require Import Reals List Bool Arith.
From Verif Require Import PyBase RList XReal.
Import ListNotations.
Local Open Scope R_scope.

(* torch.sign (external) *)
Definition tsign (a : R) : R := if Rltb 0 a then 1 else if Rltb a 0 then -1 else 0.

(* HalfSphereUniform.rsample, costs.rst:188-200, for one element of sample_shape: center and noise have the same shape.  The sum of :199 and
   the norm of :200 run over dim_range, that is over every axis of the center, the batch axis included.  None stands for the
   tensor of nan that 0/0 gives. *)
Definition half_sphere (center noise : list vec) : option (list vec) :=
  let sg := tsign (- rsum (map2 dot center noise)) in
  let projected := map (vscal sg) noise in
  let norm := sqrt (rsum (map sqnorm projected)) in
  if Reqb norm 0 then None else Some (map (vscal (/ norm)) projected).

(* (xi * zeta).sum(dim=-1): the rows of xi against those of zeta, which may have leading sample axes *)
Definition scalar_prods (xi zeta : list vec) : list R :=
  map2 dot (List.concat (repeat xi (length zeta / length xi))) zeta.
(* GaussianPrescriptionCost.value, costs.rst:222-238.  Its parameters are, in order, xi, xi_labels, zeta, zeta_labels; None is
   Python's None. The condition of [if] must be a tensor with one element, torch raises RuntimeError otherwise. *)
Definition tuto_value (xi xi_labels zeta zeta_labels : option (list vec)) : Result (list R) :=
  match xi_labels, zeta_labels with
  | None, None =>
      match xi, zeta with
      | Some x, Some z =>
          match scalar_prods x z with
          | [s] => if Rleb s 0 then Ok [0] else Ok [- ln (Rmax s 0)]
          | _ => Raise RuntimeError
          end
      | _, _ => Raise TypeError
      end
  | _, _ => Raise AssertionError
  end.
(* TorchCost.forward, skwdro/base/costs_torch/base_cost.py:27-39: what calling the cost runs *)
Definition cost_forward {A B} (value : option A -> option A -> option A -> option A -> Result B) (xi zeta xi_labels zeta_labels : option A) : Result B :=
  value xi zeta xi_labels zeta_labels.

(* MixedFeaturesSampler.sample_discrete_features, samplers.rst:182-190 and :210-218: AffineTransform(-xi, 2 xi) of Bernoulli draws *)
Definition mixed_features (xi : vec) (draws : list bool) : vec := map2 (fun x (u : bool) => - x + 2 * x * (if u then 1 else 0)) xi draws.
(* all draws of n independent Bernoulli variables of parameter p, with their probabilities (external law) *)
Fixpoint bernoulli_draws (p : R) (n : nat) : list (list bool * R) :=
  match n with
  | O => [([], 1)]
  | S m => map (fun d => (true :: fst d, p * snd d)) (bernoulli_draws p m) ++ map (fun d => (false :: fst d, (1 - p) * snd d)) (bernoulli_draws p m)
  end.
