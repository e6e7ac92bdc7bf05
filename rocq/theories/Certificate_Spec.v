(* Specification side for worst-case bounds: the distance behind a transport cost and the multipliers at which the bounds are attained. *)
From Coq Require Import Reals List.
From Verif Require Import RList Costs_Model TDual_Model.
Import ListNotations.
Local Open Scope R_scope.

(* the distance whose power the cost is *)
Definition tdist (c : tcost) (a b : vec * vec) : R :=
  match c with
  | TNC p _ => pnorm p (vsub (fst a) (fst b))
  | TNLC p _ (KFin k) => (pnorm p (vsub (fst a) (fst b)) + k * pnorm p (vsub (snd a) (snd b))) / (1 + k)
  | TNLC p _ KInf => pnorm p (vsub (snd a) (snd b))
  end.

(* the multiplier that is best against a slope of W, for the radius rho and the power p of the cost *)
Definition lip_multiplier (W rho p : R) : R := W * Rpower rho (1 - p) / p.
(* the one for squared residuals of mean square S^2 that a move of length t changes by at most W t *)
Definition quad_multiplier (W S rho : R) : R := W * W + W * S / rho.

(* moving the features alone by h costs (|h| / D)^power *)
Definition features_price (c : tcost) (D : R) : Prop :=
  match c with TNC _ _ => D = 1 | TNLC _ _ (KFin k) => 0 <= k /\ D = 1 + k | TNLC _ _ KInf => False end.
(* a move of norm t changes the linear form w by at most W t *)
Definition slope (p : nexp) (w : vec) (W : R) : Prop := forall h, length h = length w -> Rabs (dot w h) <= W * pnorm p h.
(* squared residuals: by how much a move of length 1 can change the residual of a linear model, when the labels stay, or when moving them
   is priced with the weight k *)
Definition residual_slope (c : tcost) (w : vec) (same_labels : Prop) (W : R) : Prop :=
  match c with
  | TNC p _ => same_labels /\ slope p w W
  | TNLC p _ (KFin k) => 0 < k /\ exists W1, slope p w W1 /\ W = (1 + k) * Rmax W1 (/ k)
  | TNLC _ _ KInf => False
  end.
