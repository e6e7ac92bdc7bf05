(* Model of the robust (dual) loss: solvers/_dual_interfaces/{dual_loss,_misc_dual_interfaces}.py and the two forward
   methods of solvers/oracle_torch.py.
   A data point (features and optional label) is an element of an arbitrary type P. The primal loss is an arbitrary
   real function of one point, the cost of two points; both are assumed to act row by row and to be finite, and the
   forward and value methods of the primal loss are the same function. Tensors of shape (n, m, 1) are lists of m columns
   of n entries. Division by epsilon is exact real division: epsilon = 0 is out of scope. *)
From Coq Require Import Reals List Bool String.
From Verif Require Import PyBase RList XReal.
Import ListNotations.
Local Open Scope R_scope.

(* value of a tensor expression: a scalar, or the (m,) vector of reduction 'none' *)
Inductive out := Scalar (v : xr) | Vector (v : list xr).
Definition out_map (f : xr -> xr) (o : out) : out :=
  match o with Scalar v => Scalar (f v) | Vector l => Vector (map f l) end.

(* the reduction attribute set by __init__, _misc_dual_interfaces.py:105; nothing is checked there *)
Definition init_reduction (r : option string) : string := match r with None => "mean"%string | Some s => s end.

(* reduce_loss_batch, _misc_dual_interfaces.py:128-171, on a tensor with [dim] axes holding the given values
   (an (m,1) tensor when dim = 2) *)
Definition reduce_loss_batch (reduction : string) (dim : nat) (losses : list xr) : Result out :=
  if negb (Nat.eqb dim 2) then Raise AssertionError
  else if String.eqb reduction "mean" then Ok (Scalar (xdiv (xsum losses) (Fin (INR (List.length losses)))))
  else if String.eqb reduction "sum" then Ok (Scalar (xsum losses))
  else if String.eqb reduction "none" then Ok (Vector losses)
  else Raise NotImplementedError.

(* the attributes of the dual loss that compute_dual reads *)
Record dual := { d_rho : xr; d_lam : R; d_eps : R; d_power : R; d_reduction : string; d_imp : bool; d_erm : bool }.

(* _DualLossBase.__init__, _misc_dual_interfaces.py:79-126: lambda starts at 1e-3/rho if rho > 0 and at 0 otherwise
   (NaN included); no argument is checked. The power is read from the cost. *)
Definition dual_init (rho : xr) (eps power : R) (reduction : option string) (imp_samp : bool) : Result dual :=
  Ok {| d_rho := rho;
        d_lam := match rho with Fin r => if Rltb 0 r then / 1000 / r else 0 | _ => 0 end;
        d_eps := eps; d_power := power; d_reduction := init_reduction reduction; d_imp := imp_samp; d_erm := false |}.

(* rho.pow(p) for rho > 0, dual_loss.py:54 *)
Definition xpow_pos (x : xr) (p : R) : xr :=
  match x with
  | Fin r => Fin (Rpower r p)
  | PInf => if Rltb 0 p then PInf else if Reqb p 0 then Fin 1 else Fin 0
  | _ => NaN
  end.

(* pt.logsumexp(integrand, 0) on one column, dual_loss.py:130 (minus infinity on an empty one) *)
Definition logsumexp (l : list R) : xr := match l with [] => MInf | _ => Fin (ln (rsum (map exp l))) end.
(* pt.log(pt.tensor(n)), dual_loss.py:132 *)
Definition xlog_nat (n : nat) : xr := match n with O => MInf | _ => Fin (ln (INR n)) end.

Section Dual.
Variable P : Type.
Variable loss : P -> R.
Variable cost : P -> P -> R.                 (* cost xi zeta *)

(* one row of the batch: mean of the sampler for that row, data point, its n adversarial samples *)
Record row := { r_mean : P; r_xi : P; r_zeta : list P }.

(* displace_samples, _impsamp_interface.py:207-287 (see Displace_Model): new point and new samples of each row *)
Variable displace : list row -> Result (list (P * list P)).
(* sampler.log_prob(zeta) for the row with the given mean, and sampler.log_prob_recentered(xi_star, zeta) *)
Variable log_prob : P -> P -> R.
Variable log_prob_recentered : P -> P -> P -> R.

(* L(zeta) - lambda * c(xi, zeta), over epsilon: dual_loss.py:93-94, 125-126 *)
Definition integrand (d : dual) (xi zeta : P) : R := (loss zeta - d_lam d * cost xi zeta) / d_eps d.

(* the columns of the integrand, dual_loss.py:59-126; the second argument of log_prob_recentered is xi_star *)
Definition integrands (d : dual) (rows : list row) : Result (list (list R)) :=
  if d_imp d then
    do moved <- displace rows;
    Ok (map2 (fun r sz =>
                map (fun z => integrand d (r_xi r) z
                              + (log_prob (r_mean r) z - log_prob_recentered (r_mean r) (fst sz) z)) (snd sz))
             rows moved)
  else Ok (map (fun r => map (integrand d (r_xi r)) (r_zeta r)) rows).

(* rho*lam + reduce(loss(xi)): dual_loss.py:45-51, oracle_torch.py:300-308 and (with dim = 3) oracle_torch.py:522-530 *)
Definition erm_branch (d : dual) (dim : nat) (rows : list row) : Result out :=
  do p <- reduce_loss_batch (d_reduction d) dim (map (fun r => Fin (loss (r_xi r))) rows);
  Ok (out_map (xadd (xmul (d_rho d) (Fin (d_lam d)))) p).

(* compute_dual, dual_loss.py:11-141; n is zeta.size(0) *)
Definition compute_dual (d : dual) (n : nat) (rows : list row) : Result out :=
  if xeq (d_rho d) (Fin 0) || d_erm d then erm_branch d 2 rows
  else if xlt (Fin 0) (d_rho d) then
    do cols <- integrands d rows;
    do s <- reduce_loss_batch (d_reduction d) 2 (map logsumexp cols);
    Ok (out_map (fun v => xadd (xmul (Fin (d_lam d)) (xpow_pos (d_rho d) (d_power d)))
                               (xmul (Fin (d_eps d)) (xsub v (xlog_nat n)))) s)
  else if isnan (d_rho d) then Ok (Scalar NaN)
  else Raise ValueError.

(* DualPostSampledLoss.forward, oracle_torch.py:246-311. The sampler property of the primal loss
   (base_loss.py:118-123) raises ValueError when no sampler was set. [rows] carries the new samples. *)
Definition forward_post (has_sampler : bool) (d : dual) (n : nat) (rows : list row) : Result out :=
  if negb has_sampler then Raise ValueError
  else if xlt (d_rho d) (Fin 0) then Raise ValueError
  else if xeq (d_rho d) (Fin 0) then erm_branch d 2 rows
  else compute_dual d n rows.

(* stored samples of DualPreSampledLoss: zeta.size(0) and one column per data point *)
Definition samples : Type := nat * list (list P).
Definition with_samples (data : list (P * P)) (z : samples) : list row :=
  map2 (fun mx c => {| r_mean := fst mx; r_xi := snd mx; r_zeta := c |}) data (snd z).

(* DualPreSampledLoss.forward, oracle_torch.py:467-542; data = (mean of the sampler, data point) pairs; returns the
   stored samples after the call and the result *)
Definition forward_pre (d : dual) (stored : option samples) (data : list (P * P)) (zeta : option samples)
  : option samples * Result out :=
  match zeta with
  | None =>
      match stored with
      | None => (None, Raise ValueError)
      | Some z =>
          (stored,
           if xlt (d_rho d) (Fin 0) then Raise ValueError
           else if xeq (d_rho d) (Fin 0) then erm_branch d 3 (with_samples data z)
           else compute_dual d (fst z) (with_samples data z))
      end
  | Some z => (Some z, compute_dual d (fst z) (with_samples data z))
  end.
End Dual.

Arguments r_mean {P} _. Arguments r_xi {P} _. Arguments r_zeta {P} _.
