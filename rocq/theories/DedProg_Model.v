(* Model of the dedicated convex programmes of skwdro/solvers/specific_solvers.py:112-235: the objective and the constraints that
   the code hands to cvxpy. The numerical solver is outside: theorems speak of feasible points and of solutions of the
   programme. Numbers are exact reals, data are lists of rows. *)
From Coq Require Import Reals List Bool.
From Verif Require Import PyBase RList XReal Costs_Model.
Import ListNotations.
Local Open Scope R_scope.

(* ---------- linear regression, specific_solvers.py:154-176 ---------- *)
(* X @ coeff + intercept - y, :165, one row *)
Definition lin_residual (coeff : vec) (b : R) (xy : vec * R) : R := dot (fst xy) coeff + b - snd xy.
(* loss, :165-166 *)
Definition lin_objective (rho : R) (data : list (vec * R)) (coeff : vec) (b : R) : R :=
  norm2 (map (lin_residual coeff b) data) / sqrt (INR (length data)) + rho * norm2 coeff.
(* variables and constraints, :162-171 *)
Definition lin_feasible (d : nat) (fit_intercept : bool) (coeff : vec) (b : R) : Prop :=
  length coeff = d /\ (fit_intercept = false -> b = 0).
(* the whole function: the assertion of :160, then the solver's answer, coeff.value, intercept.value, None *)
Definition lin_solver (answer : vec * R) (rho : R) : Result (vec * R) :=
  do _ <- assert_ (Rltb 0 rho); Ok answer.

(* ---------- logistic regression, specific_solvers.py:112-151 ---------- *)
(* cp.logistic *)
Definition cp_logistic (z : R) : R := ln (1 + exp z).
(* objective, :121 and :140 *)
Definition log_objective (rho lam : R) (s : list R) : R := lam * rho + 1 / INR (length s) * rsum s.
(* constraints, :123-129 (with intercept) and :142-147 (without: b is not a variable, here b = 0) *)
Definition log_feasible (d : nat) (fit_intercept : bool) (kappa : R) (data : list (vec * R)) (beta : vec) (b lam : R) (s : list R) : Prop :=
  length beta = d /\ (fit_intercept = false -> b = 0) /\ norm2 beta <= lam /\
  Forall2 (fun (xy : vec * R) si =>
     cp_logistic (snd xy * (dot (fst xy) beta + b)) - kappa * lam <= si /\
     cp_logistic (- snd xy * (dot (fst xy) beta + b)) <= si) data s.

(* ---------- portfolio, specific_solvers.py:179-235 ---------- *)
(* a and b, :188-189 *)
Definition pf_a (eta alpha : R) (k : bool) : R := if k then -1 - eta / alpha else -1.
Definition pf_b (eta alpha : R) (k : bool) : R := if k then eta * (1 - 1 / alpha) else eta.
(* q, :212-216: p = 1, a finite p <> 1, or inf (1 / inf is 0. in floats) *)
Definition pf_q (p : nexp) : nexp :=
  match p with
  | PFin p => if Reqb p 1 then PInfty else PFin (1 / (1 - (1 / p)))
  | PInfty => PFin (1 / (1 - 0))
  end.
(* C @ x and C.T @ gamma, for a matrix given by rows of length m *)
Definition matvec (C : list vec) (x : vec) : vec := map (fun c => dot c x) C.
Fixpoint tmatvec (m : nat) (C : list vec) (g : vec) : vec :=
  match C, g with
  | c :: C', a :: g' => vadd (vscal a c) (tmatvec m C' g')
  | _, _ => repeat 0 m
  end.
(* objective, :202 *)
Definition pf_objective (rho lam : R) (s : list R) : R := lam * rho + (1 / INR (length s)) * rsum s.
(* constraints, :205-225; the variables gamma of sample i are a pair, for k = 0 (false) and k = 1 (true) *)
Definition pf_row (C : list vec) (dv : vec) (p : nexp) (eta alpha : R) (theta : vec) (tau lam : R) (x : vec) (si : R) (k : bool) (g : vec) : Prop :=
  length g = length dv /\
  pf_b eta alpha k * tau + pf_a eta alpha k * dot theta x + dot g (vsub dv (matvec C x)) <= si /\
  pnorm (pf_q p) (vsub (tmatvec (length theta) C g) (vscal (pf_a eta alpha k) theta)) <= lam /\
  Forall (fun a => 0 <= a) g.
Definition pf_feasible (m : nat) (C : list vec) (dv : vec) (p : nexp) (eta alpha : R) (samples : list vec)
           (theta : vec) (tau lam : R) (s : list R) (gamma : list (vec * vec)) : Prop :=
  length theta = m /\ rsum theta = 1 /\ 0 <= lam /\ Forall (fun t => 0 <= t) theta /\
  length s = length samples /\ length gamma = length samples /\
  Forall (fun xsg => pf_row C dv p eta alpha theta tau lam (fst xsg) (fst (snd xsg)) false (fst (snd (snd xsg))) /\
                     pf_row C dv p eta alpha theta tau lam (fst xsg) (fst (snd xsg)) true (snd (snd (snd xsg))))
         (List.combine samples (List.combine s gamma)).
(* Portfolio.fit, operations_research/_portfolio.py:170-176: the matrix and vector when C or d is None (the (1,1) array of zeros
   for d broadcasts like a vector of length 1) *)
Definition pf_default_C (m : nat) : list vec := [repeat 0 m].
Definition pf_default_d : vec := [0].
(* Portfolio.fit, _portfolio.py:168 and :197: the exponent handed to the solver is the power of the cost *)
Definition pf_exponent_of_cost (cost_p : nexp) (cost_power : R) : nexp := PFin cost_power.
