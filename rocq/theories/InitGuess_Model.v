(* Model of the initial multiplier, solvers/_dual_interfaces/dual_loss.py:143-178 (get_initial_guess_at_dual).
   The per-sample gradients of the primal loss (get_displacement_direction) are arbitrary inputs; its effect on the
   trainability flags is modelled in Oracle_Model. *)
From Coq Require Import Reals List Bool.
From Verif Require Import PyBase RList XReal Costs_Model.
Import ListNotations.
Local Open Scope R_scope.

(* Tensor.pow on a non-negative (or NaN) base, with IEEE rules: x^0 = 1 even for NaN and inf, 0^inf = 0, 1^inf = 1 *)
Definition xpow (x e : xr) : xr :=
  match e with
  | Fin e =>
      if Reqb e 0 then Fin 1 else
      match x with
      | Fin r => if Reqb r 0 then (if Rltb 0 e then Fin 0 else PInf) else Fin (Rpower r e)
      | PInf => if Rltb 0 e then PInf else Fin 0
      | MInf | NaN => NaN
      end
  | PInf =>
      match x with
      | Fin r => if Rltb r 1 then Fin 0 else if Reqb r 1 then Fin 1 else PInf
      | PInf => PInf
      | MInf | NaN => NaN
      end
  | MInf =>
      match x with
      | Fin r => if Rltb r 1 then PInf else if Reqb r 1 then Fin 1 else Fin 0
      | PInf => Fin 0
      | MInf | NaN => NaN
      end
  | NaN => match x with Fin r => if Reqb r 1 then Fin 1 else NaN | _ => NaN end
  end.

(* pt.zeros_like, dual_loss.py:162 *)
Definition zeros_like (g : vec) : vec := map (fun _ => 0) g.

(* c.value(grads, 0, ...), dual_loss.py:160-166, row by row, for NormCost (labels ignored) *)
Definition grads_norms (p : nexp) (power : R) (grads : list vec) : list R :=
  map (fun g => nc_value p power g (zeros_like g)) grads.

(* the same for NormLabelCost with label gradients *)
Fixpoint grads_norms_labelled (p : nexp) (power : R) (k : kap) (grads : list (vec * vec)) : Result (list R) :=
  match grads with
  | [] => Ok []
  | (g, h) :: r =>
      do v <- nlc_value p power k g (zeros_like g) (Some h) (Some (zeros_like h));
      do vs <- grads_norms_labelled p power k r;
      Ok (v :: vs)
  end.

(* get_initial_guess_at_dual, dual_loss.py:143-178: the new value of _lam. [lam] is its old value ( .mul_(0.).add_(lam0) );
   [is_norm_cost] is the issubclass test, whose failure reaches a bare raise; [gnorms] are the values of grads_norms *)
Definition initial_guess (rho lam : xr) (is_norm_cost : bool) (power : R) (gnorms : list R) : Result xr :=
  if xlt (Fin 0) rho then
    if is_norm_cost then
      let rho_N := xmul (Fin (INR (length gnorms))) (xpow rho (Fin power)) in
      let q := if Reqb power 1 then PInf else Fin (power / (power - 1)) in
      let s := xsum (map (fun g => xpow (xmul (Fin g) rho_N) (xsub q (Fin 1))) gnorms) in
      let lam0 := xdiv (xpow s (xdiv (Fin 1) q)) (xmul (Fin power) rho_N) in
      Ok (xadd (xmul lam (Fin 0)) lam0)
    else Raise RuntimeError
  else Ok (xmul lam (Fin 0)).
