(* Model of the displacement of samples for importance sampling: solvers/utils.py:57-80 and
   solvers/_dual_interfaces/_impsamp_interface.py:22-77, 207-287.
   The gradients (autograd, _impsamp_interface.py:79-205) are an input: one row per data point. *)
From Coq Require Import Reals List Bool.
From Verif Require Import PyBase RList XReal.
Import ListNotations.
Local Open Scope R_scope.

Definition xsqrt (x : xr) : xr :=
  match x with Fin a => if Rltb a 0 then NaN else Fin (sqrt a) | PInf => PInf | MInf | NaN => NaN end.

(* pt.linalg.norm(tensor, dim=-1, keepdims=True) on one row, utils.py:63 *)
Definition xnorm (g : list xr) : xr := xsqrt (xsum (map (fun a => xmul a a) g)).

(* normalize_just_vects on one row, utils.py:57-65: tensor / n * pt.min(threshold, n) / scaling *)
Definition normalize_row (threshold : R) (scaling : xr) (g : list xr) : list xr :=
  let n := xnorm g in map (fun a => xdiv (xmul (xdiv a n) (xmin (Fin threshold) n)) scaling) g.

(* the default threshold of get_optimal_displacement, _impsamp_interface.py:26 *)
Definition threshold_default : R := 10000000000.

(* get_optimal_displacement, _impsamp_interface.py:22-77, with scaling = self._lam.item();
   normalize_maybe_vects (utils.py:43-54) maps None to None *)
Definition get_optimal_displacement (threshold : R) (lam : xr) (grads : list (list xr))
           (grads_labels : option (list (list xr))) : list (list xr) * option (list (list xr)) :=
  (map (normalize_row threshold lam) grads, option_map (map (normalize_row threshold lam)) grads_labels).

(* check_tensor_validity, utils.py:79-80: True iff some entry is not finite *)
Definition check_tensor_validity (t : list (list xr)) : bool := existsb (existsb (fun a => negb (isfinite a))) t.

(* _check, _impsamp_interface.py:251-254 *)
Definition invalid_displacement (d : list (list xr) * option (list (list xr))) : bool :=
  check_tensor_validity (fst d) || match snd d with Some l => check_tensor_validity l | None => false end.

(* entries of a tensor already known to be finite *)
Definition fin_val (x : xr) : R := match x with Fin r => r | _ => 0 end.

Section Displace.
(* cost.solve_max_series_exp on one row (Costs_Model.nc_solve_max / nlc_solve_max); a row is features + optional labels *)
Variable Row : Type.
Variable solve : Row -> vec -> option vec -> Result Row.

(* the i-th row of the displacement, broadcast along the first axis of zeta (n_samples, m, d) *)
Definition disp_row (d : list (list xr) * option (list (list xr))) (i : nat) : vec * option vec :=
  (map fin_val (nth i (fst d) []), option_map (fun l => map fin_val (nth i l [])) (snd d)).

Fixpoint traverse {A B} (f : A -> Result B) (l : list A) : Result (list B) :=
  match l with
  | [] => Ok []
  | x :: r => do y <- f x; do ys <- traverse f r; Ok (y :: ys)
  end.

Definition solve_at (d : list (list xr) * option (list (list xr))) (p : nat * Row) : Result Row :=
  solve (snd p) (fst (disp_row d (fst p))) (snd (disp_row d (fst p))).

Definition indexed {A} (l : list A) : list (nat * A) := combine (seq 0 (length l)) l.

(* displace_samples, _impsamp_interface.py:207-287. xi: m rows; zeta: n_s lists of m rows. *)
Definition displace_samples (threshold : R) (lam : xr) (grads : list (list xr)) (grads_labels : option (list (list xr)))
           (xi : list Row) (zeta : list (list Row)) : Result (list Row * list (list Row)) :=
  let d := get_optimal_displacement threshold lam grads grads_labels in
  if invalid_displacement d then Ok (xi, zeta)
  else
    do xi' <- traverse (solve_at d) (indexed xi);
    do zeta' <- traverse (fun row => traverse (solve_at d) (indexed row)) zeta;
    Ok (xi', zeta').
End Displace.
