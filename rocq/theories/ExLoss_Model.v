(* The losses written in the examples examples/custom_models/regressors_comparison.py and classifiers_comparison.py.  All have reduction
   'none' and act entrywise on the prediction x and the label y, so they are written here for one entry; broadcasting is not modelled.
   (c).float() is 1 or 0, as in the code. *)
From Coq Require Import Reals Bool.
From Verif Require Import XReal.
Local Open Scope R_scope.

(* torch.nn.functional.relu on one entry (external) *)
Definition ex_relu (a : R) : R := Rmax 0 a.
(* bool tensor .float() (external) *)
Definition ex_float (b : bool) : R := if b then 1 else 0.

(* regressors_comparison.py:92-96 *)
Definition ex_quadratic (x y : R) : R := let a := y - x in (1 / 2) * a ^ 2.
(* regressors_comparison.py:148-157 *)
Definition ex_insensitive (tau x y : R) : R := ex_relu (Rabs (y - x) - tau).
(* regressors_comparison.py:208-219 *)
Definition ex_pinball (quantile x y : R) : R :=
  let a := y - x in
  let pos := ex_float (Rleb 0 a) in
  (quantile * pos + (1 - quantile) * (1 - pos)) * Rabs a.
(* regressors_comparison.py:268-282 *)
Definition ex_huber (quantile x y : R) : R :=
  let a := y - x in
  let r := Rabs a in
  let pos := ex_float (Rleb quantile r) in
  let outer := quantile * r - (1 / 2) * quantile ^ 3 in
  let inner := (1 / 2) * a ^ 2 in
  outer * pos + inner * (1 - pos).
(* regressors_comparison.py:327-331 *)
Definition ex_l1 (x y : R) : R := let a := y - x in Rabs a.
(* regressors_comparison.py:376-385 *)
Definition ex_l2_insensitive (tau x y : R) : R := ex_relu (Rabs (y - x) - tau) ^ 2.

(* classifiers_comparison.py:142-145 *)
Definition ex_hinge (x y : R) : R := ex_relu (1 - y * x).
(* classifiers_comparison.py:191-204 *)
Definition ex_smooth_hinge (gamma x y : R) : R :=
  let a := y * x in
  let quad_part := ((1 / 2) / gamma) * ex_relu (1 - a) ^ 2 in
  let lin_part := 1 - (1 / 2) * gamma - a in
  let dec := Rleb (1 - gamma) a in
  quad_part * ex_float dec + lin_part * ex_float (negb dec).
(* classifiers_comparison.py:249-252 *)
Definition ex_perceptron (x y : R) : R := ex_relu (- y * x).
(* classifiers_comparison.py:295-298 *)
Definition ex_l2_margin (x y : R) : R := (1 - y * x) ^ 2.
(* classifiers_comparison.py:339-345 *)
Definition ex_l2_hinge (x y : R) : R := ex_relu (1 - y * x) ^ 2.
(* classifiers_comparison.py:387-390 *)
Definition ex_exp (x y : R) : R := exp (- y * x).
