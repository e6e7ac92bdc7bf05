(* Model of the choice of optimiser in the constructors of the robust losses: oracle_torch.py:191-204 (DualPostSampledLoss) and
   :417-436 (DualPreSampledLoss). The optimisers themselves are in Oracle_Model. *)
From Coq Require Import Reals List Bool ZArith String.
From Verif Require Import PyBase RList XReal CostDecoder_Model OptCond_Model Samplers_Model Wrap_Model Oracle_Model Solver_Model.
Import ListNotations.
Local Open Scope R_scope.

Inductive installed (A : Type) :=
| IComposite (c : composite A)
| IAdamW (lr : R)
| ILbfgs (lr : R).
Arguments IComposite {A}. Arguments IAdamW {A}. Arguments ILbfgs {A}.

(* if adapt: (None and '' are falsy); pt.optim.AdamW refuses a negative lr (torch code) *)
Definition post_install {A} (params : list A) (lam : A) (n_iter : steps) (adapt : option string) (learning_rate : option R) : Result (installed A) :=
  let plain := let lr := adamw_lr learning_rate in if Rltb lr 0 then Raise ValueError else Ok (IAdamW lr) in
  match adapt with
  | None => plain
  | Some name =>
      if String.eqb name "" then plain
      else if String.eqb name "mechanic" || String.eqb name "prodigy" then do c <- composite_init params lam (interpret_steps n_iter) name; Ok (IComposite c)
      else Raise AssertionError
  end.
(* del adapt; pt.optim.LBFGS takes any lr (the releases of torch that check it refuse negative ones) *)
Definition pre_install {A} (learning_rate : option R) : installed A := ILbfgs (lbfgs_lr learning_rate).
Definition install {A} (params : list A) (lam : A) (d : dual_args) : Result (installed A) :=
  if a_post d then post_install params lam (a_n_iter d) (a_adapt d) (a_lr d) else Ok (pre_install (a_lr d)).
