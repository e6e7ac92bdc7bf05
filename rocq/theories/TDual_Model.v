(* Model of the robust loss at the level of tensors, with their shapes: compute_dual of
   solvers/_dual_interfaces/dual_loss.py, the costs of base/costs_torch, the log-densities of base/samplers/torch/base_samplers.py
   and the displacement of _impsamp_interface.py, on a primal loss wrapped by base/losses_torch/wrapper.py (Loss_Model.w_value).
   Dual_Model is the same computation on rows, under the assumption that losses and costs act row by row; here nothing of the kind
   is assumed. Numbers are exact reals. epsilon = 0 and kappa = 0 are out of scope (the divisions are Coq's). *)
From Coq Require Import Reals List Bool Arith String.
From Verif Require Import PyBase RList XReal Tensor Loss_Model Costs_Model Displace_Model ImpSamp_Model Dual_Model.
Import ListNotations.
Local Open Scope R_scope.

(* ---------- broadcasting (torch semantics): shapes aligned on the right, an axis of size 1 is repeated ---------- *)
Definition pad (r : nat) (s : list nat) : list nat := repeat 1%nat (r - List.length s) ++ s.
Fixpoint bshape (sa sb : list nat) : option (list nat) :=
  match sa, sb with
  | [], [] => Some []
  | p :: sa', q :: sb' =>
      match bshape sa' sb' with
      | None => None
      | Some s => if (p =? q)%nat then Some (p :: s) else if (p =? 1)%nat then Some (q :: s) else if (q =? 1)%nat then Some (p :: s) else None
      end
  | _, _ => None
  end.
(* the i-th block of k numbers *)
Definition slice (i k : nat) (l : list R) : list R := firstn k (skipn (i * k) l).
Fixpoint bdata (op : R -> R -> R) (sa sb : list nat) (a b : list R) : list R :=
  match sa, sb with
  | p :: sa', q :: sb' =>
      flat_map (fun i => bdata op sa' sb' (slice (if (p =? 1)%nat then 0 else i) (prodl sa') a) (slice (if (q =? 1)%nat then 0 else i) (prodl sb') b))
               (seq 0 (if (p =? 1)%nat then q else p))
  | _, _ => map2 op (firstn 1 a) (firstn 1 b)
  end.
Definition bcast (op : R -> R -> R) (a b : tensor) : Result tensor :=
  let r := Nat.max (tdim a) (tdim b) in
  match bshape (pad r (shp a)) (pad r (shp b)) with
  | None => Raise RuntimeError
  | Some s => Ok (mkT s (bdata op (pad r (shp a)) (pad r (shp b)) (dat a) (dat b)))
  end.

(* x.squeeze(0), x.size(0) *)
Definition squeeze0 (t : tensor) : tensor := match shp t with 1%nat :: s => mkT s (dat t) | _ => t end.
Definition size0 (t : tensor) : nat := hd 0%nat (shp t).
(* x.sum(dim=-1, keepdim=True), at least one axis *)
Definition sum_last (t : tensor) : tensor := mkT (removelast (shp t) ++ [1%nat]) (map rsum (trows t)).
(* pt.norm(x, p=p, dim=-1, keepdim=True) *)
Definition norm_last (p : nexp) (t : tensor) : tensor := mkT (removelast (shp t) ++ [1%nat]) (map (pnorm p) (trows t)).
(* pt.logsumexp(x, 0): number of axes left, and the values *)
Definition logsumexp0 (t : tensor) : nat * list xr :=
  let k := prodl (tl (shp t)) in
  (pred (tdim t), map (fun j => logsumexp (map (fun block => nth j block 0) (chunks (size0 t) k (dat t)))) (seq 0 k)).

(* ---------- costs ---------- *)
(* NormCost or NormLabelCost, with its attributes *)
Inductive tcost := TNC (p : nexp) (power : R) | TNLC (p : nexp) (power : R) (kappa : kap).
Definition tc_power (c : tcost) : R := match c with TNC _ w | TNLC _ w _ => w end.
Definition tc_p (c : tcost) : nexp := match c with TNC p _ | TNLC p _ _ => p end.

(* NormCost.value, normcost.py:70-81, NormLabelCost.value, normlabelcost.py:98-128 *)
Definition t_cost (c : tcost) (xi zeta : tensor) (xi_labels zeta_labels : option tensor) : Result tensor :=
  match c with
  | TNC p power => do diff <- bcast Rminus xi zeta; Ok (tmap (fun a => tpow a power) (norm_last p diff))
  | TNLC p power k =>
      match xi_labels, zeta_labels with
      | Some y, Some yz =>
          match k with
          | KInf => do diff <- bcast Rminus y yz; Ok (tmap (fun a => tpow a power) (norm_last p diff))
          | KFin k =>
              if Reqb k 0 then do diff <- bcast Rminus xi zeta; Ok (tmap (fun a => tpow a power) (norm_last p diff))
              else
                do diff <- bcast Rminus xi zeta; do ldiff <- bcast Rminus y yz;
                do dist <- bcast Rplus (norm_last p diff) (tmap (Rmult k) (norm_last p ldiff));
                Ok (tmap (fun a => tpow a power) (tmap (fun a => a / (1 + k)) dist))
          end
      | _, _ => Raise AssertionError
      end
  end.

(* solve_max_series_exp, normcost.py:169-185 and normlabelcost.py:212-225: a displacement of data and labels. A non-finite kappa gives
   no displacement of the labels. *)
Definition t_solve_max (c : tcost) (xi : tensor) (xi_labels : option tensor) (rhs : tensor) (rhs_labels : option tensor)
  : Result (tensor * option tensor) :=
  if nexp_is_2 (tc_p c) && Reqb 2 (tc_power c) then
    do x <- bcast Rplus xi (tmap (Rmult (/ 2)) rhs);
    match c, xi_labels, rhs_labels with
    | TNLC _ _ k, Some y, Some r =>
        do yl <- bcast Rplus y (tmap (fun a => match k with KFin k => / 2 * a / k | KInf => 0 end) r); Ok (x, Some yl)
    | _, _, _ => Ok (x, xi_labels)
    end
  else Raise NotImplementedError.

(* ---------- log-densities ---------- *)
(* Normal(loc, scale).log_prob(value), then _format_logprobs, base_samplers.py:105-117 *)
Definition normal_lp (scale : R) (loc value : tensor) : Result tensor :=
  do lp <- bcast (normal_log_prob scale) loc value;
  Ok (if (tdim lp =? 3)%nat then sum_last lp else unsqueeze_last lp).
(* the Gaussian cost samplers: location and scale of the data and, for the labelled class, of the labels *)
Inductive tsampler := TPlain (loc : tensor) (scale : R) | TLabelled (loc : tensor) (scale : R) (lloc : tensor) (lscale : R).
(* log_prob, base_samplers.py:140-147 and :197-206 *)
Definition t_log_prob (s : tsampler) (zeta : tensor) (zeta_labels : option tensor) : Result tensor :=
  match s, zeta_labels with
  | TPlain loc sc, None => normal_lp sc loc zeta
  | TLabelled loc sc lloc lsc, Some zl => do a <- normal_lp sc loc zeta; do b <- normal_lp lsc lloc zl; bcast Rplus a b
  | _, _ => Raise AssertionError
  end.
(* log_prob_recentered, base_samplers.py:149-158 and :208-220 (where xi and its labels are not used) *)
Definition t_log_prob_recentered (s : tsampler) (xi : tensor) (xi_labels : option tensor) (zeta : tensor) (zeta_labels : option tensor)
  : Result tensor :=
  match s, xi_labels, zeta_labels with
  | TPlain loc sc, None, None => do a <- bcast Rminus zeta xi; do b <- bcast Rplus a loc; normal_lp sc loc b
  | TLabelled loc sc lloc lsc, Some _, Some zl => do a <- normal_lp sc loc zeta; do b <- normal_lp lsc lloc zl; bcast Rplus a b
  | _, _, _ => Raise AssertionError
  end.

(* a (1, m, d) tensor of finite numbers, from its rows *)
Definition rows_tensor (rows : list (list xr)) : tensor :=
  batch [1%nat; List.length rows] (match rows with [] => 0%nat | r :: _ => List.length r end) (map (map fin_val) rows).
(* displace_samples, _impsamp_interface.py:207-287; the gradients of _impsamp_interface.py:79-205 are given, one row per data point *)
Definition t_displace (c : tcost) (threshold : R) (lam : xr) (grads : list (list xr)) (grads_labels : option (list (list xr)))
           (xi : tensor) (xi_labels : option tensor) (zeta : tensor) (zeta_labels : option tensor)
  : Result (tensor * option tensor * tensor * option tensor) :=
  let disp := get_optimal_displacement threshold lam grads grads_labels in
  if invalid_displacement disp then Ok (unsqueeze_first xi, option_map unsqueeze_first xi_labels, zeta, zeta_labels)
  else
    let dx := rows_tensor (fst disp) in
    let dl := option_map rows_tensor (snd disp) in
    do (x, xl) <- t_solve_max c (unsqueeze_first xi) (option_map unsqueeze_first xi_labels) dx dl;
    do (z, zl) <- t_solve_max c zeta zeta_labels dx dl;
    Ok (x, xl, z, zl).

Section TDual.
(* the wrapped primal loss *)
Variable loss_call : tensor -> option tensor -> Result tensor.
Variable w : wrapped.
Variable c : tcost.
Variable s : tsampler.
(* get_displacement_direction at the current data *)
Variable grads : tensor -> option tensor -> Result (list (list xr) * option (list (list xr))).

(* (L(zeta) - lambda * c(xi, zeta)) / epsilon, dual_loss.py:74-94 and :112-126 *)
Definition t_penalised (d : dual) (xi : tensor) (xi_labels : option tensor) (zeta : tensor) (zeta_labels : option tensor) : Result tensor :=
  do l <- w_value loss_call w zeta zeta_labels;
  do k <- t_cost c (unsqueeze_first xi) zeta (option_map unsqueeze_first xi_labels) zeta_labels;
  do i <- bcast Rminus l (tmap (Rmult (d_lam d)) k);
  Ok (tmap (fun a => a / d_eps d) i).

(* the integrand and zeta.size(0), dual_loss.py:59-126 *)
Definition t_integrand (d : dual) (xi : tensor) (xi_labels : option tensor) (zeta : tensor) (zeta_labels : option tensor)
  : Result (tensor * nat) :=
  if d_imp d then
    do (g, gl) <- grads xi xi_labels;
    do (xs, xls, z, zl) <- t_displace c threshold_default (Fin (d_lam d)) g gl xi xi_labels zeta zeta_labels;
    do i <- t_penalised d xi xi_labels z zl;
    do p <- t_log_prob s z zl;
    do q <- t_log_prob_recentered s xs xls z zl;
    do correction <- bcast Rminus p q;
    do i' <- bcast Rplus i correction;
    Ok (i', size0 z)
  else do i <- t_penalised d xi xi_labels zeta zeta_labels; Ok (i, size0 zeta).

(* the branch of radius 0 and ERM mode, dual_loss.py:43-51 *)
Definition t_erm (d : dual) (xi : tensor) (xi_labels : option tensor) : Result out :=
  do b <- w_value loss_call w (unsqueeze_first xi) (option_map unsqueeze_first xi_labels);
  do p <- reduce_loss_batch (d_reduction d) (tdim (squeeze0 b)) (map Fin (dat (squeeze0 b)));
  Ok (out_map (xadd (xmul (d_rho d) (Fin (d_lam d)))) p).

(* compute_dual, dual_loss.py:11-141 *)
Definition t_compute_dual (d : dual) (xi : tensor) (xi_labels : option tensor) (zeta : tensor) (zeta_labels : option tensor) : Result out :=
  if xeq (d_rho d) (Fin 0) || d_erm d then t_erm d xi xi_labels
  else if xlt (Fin 0) (d_rho d) then
    do (i, n) <- t_integrand d xi xi_labels zeta zeta_labels;
    do v <- reduce_loss_batch (d_reduction d) (fst (logsumexp0 i)) (snd (logsumexp0 i));
    Ok (out_map (fun v => xadd (xmul (Fin (d_lam d)) (xpow_pos (d_rho d) (tc_power c)))
                               (xmul (Fin (d_eps d)) (xsub v (xlog_nat n)))) v)
  else if isnan (d_rho d) then Ok (Scalar NaN)
  else Raise ValueError.
End TDual.
