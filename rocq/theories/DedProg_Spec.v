(* What the dedicated programmes are for. *)
From Coq Require Import Reals List.
From Verif Require Import RList Transport_Spec.
Import ListNotations.
Local Open Scope R_scope.

(* squared error of the prediction x.coef + b for the target y; adversaries move x only, at squared Euclidean price *)
Definition sq_error (coef : vec) (b : R) (xy : vec * R) : R := (dot coef (fst xy) + b - snd xy) * (dot coef (fst xy) + b - snd xy).
Definition feature_only (d : nat) (u v : vec * R) : Prop := length (fst v) = d /\ snd v = snd u.
Definition feature_sq (u v : vec * R) : R := sqnorm (vsub (fst v) (fst u)).
Definition lin_worst_le (d : nat) (rho : R) (data : list (vec * R)) (coef : vec) (b c : R) : Prop :=
  forall p, tplan_ok feature_sq (feature_only d) data (rho * rho) p -> sqrt (tplan_value (sq_error coef b) p) <= c.

(* logistic loss of the score x.beta + b for a label y in {-1,1}; adversaries move x at Euclidean price and flip y at price kappa *)
Definition log_loss (beta : vec) (b : R) (xy : vec * R) : R := ln (1 + exp (- (snd xy * (dot beta (fst xy) + b)))).
Definition flip_or_keep (d : nat) (u v : vec * R) : Prop := length (fst v) = d /\ (snd v = snd u \/ snd v = - snd u).
Definition flip_price (kappa : R) (u v : vec * R) : R := norm2 (vsub (fst v) (fst u)) + (if Req_EM_T (snd v) (snd u) then 0 else kappa).
Definition log_worst_le (d : nat) (kappa rho : R) (data : list (vec * R)) (beta : vec) (b c : R) : Prop :=
  tworst_le (flip_price kappa) (flip_or_keep d) data rho (log_loss beta b) c.

(* mean-risk loss of the portfolio theta with threshold tau *)
Definition mean_risk (eta alpha : R) (theta : vec) (tau : R) (x : vec) : R :=
  - dot theta x + eta * (tau + Rmax (- dot theta x - tau) 0 / alpha).
Definition in_polyhedron (m : nat) (C : list vec) (dv : vec) (_ x : vec) : Prop :=
  length x = m /\ Forall2 (fun c di => dot c x <= di) C dv.
Definition pf_worst_le (dist : vec -> R) (m : nat) (C : list vec) (dv : vec) (eta alpha rho : R) (samples : list vec) (theta : vec) (tau c : R) : Prop :=
  tworst_le (fun x y => dist (vsub y x)) (in_polyhedron m C dv) samples rho (mean_risk eta alpha theta tau) c.
