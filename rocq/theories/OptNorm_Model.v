(* Model of the vector norm of the stopping condition, solvers/optim_cond.py: float(order) and pt.linalg.norm(., order). *)
From Coq Require Import Reals List Bool String ZArith.
From Verif Require Import PyBase RList XReal Costs_Model OptCond_Model EstCond_Model.
Import ListNotations.

(* self.order = float(order), optim_cond.py:95: float('inf') is infinity. Only orders accepted by oc_init reach a norm. *)
Definition norm_order (o : order) : nexp := match o with OrdInt n => PFin (IZR n) | OrdStr _ => PInfty end.

(* pt.linalg.norm(v, self.order) on a flat tensor, optim_cond.py:249, 254, 269, 280: NaN if an entry is, infinite if an entry is, and the
   p-norm of the entries otherwise. The maximum norm of a tensor without entries, which torch refuses, is 0 here: parameters have entries. *)
Definition finite_part (x : xr) : R := match x with Fin r => r | _ => 0%R end.
Definition vector_norm (o : order) (v : list xr) : xr :=
  if existsb isnan v then NaN
  else if existsb (fun x => negb (isfinite x)) v then PInf
  else Fin (pnorm (norm_order o) (map finite_part v)).

(* the conditions of EstCond_Model with the norm they use *)
Definition default_evals (hs : list (obs * Z)) : Result (list (Result bool)) := do c <- default_cond; Ok (evals (vector_norm default_order) c hs).
Definition logistic_evals (hs : list (obs * Z)) : Result (list (Result bool)) := do c <- logistic_cond; Ok (evals (vector_norm logistic_order) c hs).
