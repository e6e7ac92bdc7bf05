(* Model of skwdro/base/costs_torch/{normcost,normlabelcost}.py: values and closed-form displacements.
   A call is modelled on one row (the code reduces over dim=-1 only, rows are independent); broadcasting between
   different batch shapes is left out. Numbers are exact reals. *)
From Coq Require Import Reals List Bool.
From Verif Require Import PyBase RList XReal.
Import ListNotations.
Local Open Scope R_scope.

(* The exponent of pt.norm: a float or float('inf'). *)
Inductive nexp := PFin (p : R) | PInfty.

(* pt.norm(x, p=p, dim=-1, keepdim=True), for p >= 1 or inf (torch's special cases p = 0 and p < 0 are not modelled).
   Used at normcost.py:79, normlabelcost.py:44 and :49. *)
Definition pnorm (p : nexp) (x : vec) : R :=
  match p with
  | PFin q => ppow (rsum (map (fun a => ppow (Rabs a) q) x)) (/ q)
  | PInfty => rmax0 (map Rabs x)
  end.

(* d**power on a non-negative d (normcost.py:79): 1 at power 0, 0 at d = 0 for positive powers.
   Negative powers at d = 0 (infinite in torch) are not modelled. *)
Definition tpow (d power : R) : R := if Reqb power 0 then 1 else ppow d power.

(* NormCost.value, normcost.py:70-81; the labels are deleted *)
Definition nc_value (p : nexp) (power : R) (xi zeta : vec) : R := tpow (pnorm p (vsub xi zeta)) power.

(* kappa: a float >= 0 or inf *)
Inductive kap := KFin (k : R) | KInf.

(* the assertion of NormLabelCost.__init__, normlabelcost.py:34 *)
Definition nlc_init_ok (k : kap) : bool := match k with KFin k => Rleb 0 k | KInf => true end.

(* NormLabelCost.value, normlabelcost.py:98-128 *)
Definition nlc_value (p : nexp) (power : R) (k : kap) (xi zeta : vec) (xi_labels zeta_labels : option vec) : Result R :=
  match xi_labels, zeta_labels with
  | Some y, Some y' =>
      match k with
      | KInf => Ok (tpow (pnorm p (vsub y y')) power)
      | KFin k =>
          if Reqb k 0 then Ok (tpow (pnorm p (vsub xi zeta)) power)
          else Ok (tpow ((pnorm p (vsub xi zeta) + k * pnorm p (vsub y y')) / (1 + k)) power)
      end
  | _, _ => Raise AssertionError
  end.

Definition nexp_is_2 (p : nexp) : bool := match p with PFin q => Reqb q 2 | PInfty => false end.

(* NormCost.solve_max_series_exp, normcost.py:169-185: the same result in both branches *)
Definition nc_solve_max (p : nexp) (power : R) (xi : vec) (xi_labels : option vec) (rhs : vec) (rhs_labels : option vec)
  : Result (vec * option vec) :=
  if nexp_is_2 p && Reqb 2 power then Ok (vadd xi (vscal (/ 2) rhs), xi_labels) else Raise NotImplementedError.

(* xi_labels + .5 * rhs_labels / self.kappa, normlabelcost.py:221, per coordinate, with kappa possibly 0 or inf *)
Definition label_shift (k : kap) (y r : R) : xr :=
  xadd (Fin y) (xdiv (Fin (/ 2 * r)) (match k with KFin k => Fin k | KInf => PInf end)).

(* NormLabelCost.solve_max_series_exp, normlabelcost.py:212-225 *)
Definition nlc_solve_max (p : nexp) (power : R) (k : kap) (xi : vec) (xi_labels : option vec) (rhs : vec)
           (rhs_labels : option vec) : Result (vec * option (list xr)) :=
  match xi_labels, rhs_labels with
  | Some y, Some r =>
      if nexp_is_2 p && Reqb 2 power
      then Ok (vadd xi (vscal (/ 2) rhs), Some (map2 (label_shift k) y r))
      else Raise NotImplementedError
  | _, _ =>
      do (x, y) <- nc_solve_max p power xi xi_labels rhs rhs_labels;
      Ok (x, option_map (map Fin) y)
  end.
