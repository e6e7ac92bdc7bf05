(* Model of examples/studying_skwdro/plot_lambda_landscape.py: a linear classifier at fixed parameters, the quantities the script
   computes about it, and what it draws. Numbers are exact reals. The curves themselves are the objective of Dual_Model.v and TDual_Model.v. *)
From Coq Require Import Reals List.
From Verif Require Import RList.
Import ListNotations.
Local Open Scope R_scope.

(* BiDiffSoftMarginLoss on linear_model(X), :96-100: ln(1 + exp(-y (w.x + b))), per sample *)
Definition sample_loss (w : vec) (b : R) (xy : vec * R) : R := ln (1 + exp (- (snd xy * (dot w (fst xy) + b)))).
(* wdro_loss, :110-112: mean of the losses plus rho times the Euclidean norm of the weight *)
Definition wdro_loss (w : vec) (b : R) (data : list (vec * R)) (rho : R) : R := rmean (map (sample_loss w b) data) + rho * norm2 w.
(* the vertical line, :142 *)
Definition drawn_at (rho : R) (w : vec) : R := rho * norm2 w.
(* test_ls, :131: np.logspace(-5, 3, base=10, num=100) *)
Definition test_ls : list R := map (fun k => Rpower 10 (-5 + INR k * (8 / 99))) (seq 0 100).

(* plt.scatter([test_ls[np.argmin(ls)]], ...), :141: the multiplier marked on a curve, the first of the smallest *)
Fixpoint argmin_from (best : R * R) (pts : list (R * R)) : R * R :=
  match pts with
  | [] => best
  | p :: r => argmin_from (if Rlt_dec (snd p) (snd best) then p else best) r
  end.
Definition marked (f : R -> R) : option R :=
  match map (fun l => (l, f l)) test_ls with [] => None | p :: r => Some (fst (argmin_from p r)) end.
