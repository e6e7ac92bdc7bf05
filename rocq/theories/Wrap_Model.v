(* Model of skwdro/wrap_problem.py: automatic hyperparameters and the construction of the robust loss, up to the call of
   the constructor of the dual loss (whose own model is in Oracle_Model). Numbers are exact. *)
From Coq Require Import Reals List Bool ZArith String.
From Verif Require Import PyBase RList XReal CostDecoder_Model OptCond_Model Samplers_Model.
Import ListNotations.
Local Open Scope R_scope.

(* wrap_problem.py:15-16 *)
Definition SIGMA_FACTOR : R := / 2.
Definition EPSILON_SIGMA_FACTOR : R := 1 / 100.

(* Tensor.pow on a non-negative scalar. On negative numbers only the exponents 0 and 1 are modelled, the others give NaN
   here (exact for non-integers only). *)
Definition pow_t (x e : R) : xr :=
  if Rltb 0 x then Fin (Rpower x e)
  else if Reqb e 0 then Fin 1
  else if Reqb x 0 then (if Rltb 0 e then Fin 0 else PInf)
  else if Reqb e 1 then Fin x else NaN.

(* expert_hyperparams, wrap_problem.py:20-68: (sigma, epsilon) *)
Definition expert_sigma (rho : R) (sigma : option R) (sigma_factor : R) : R :=
  match sigma with
  | None => if Rltb 0 rho then rho * sigma_factor else sigma_factor
  | Some s => s
  end.
(* the power is any float; with a non-finite one no sampler exists and the construction fails, so that the value of
   epsilon (NaN here) is never used *)
Definition expert_epsilon (rho : R) (p : xr) (epsilon : option R) (epsilon_sigma_factor sigma_factor : R) : xr :=
  match epsilon with
  | None =>
      match p with
      | Fin p => xmax (xmul (Fin (epsilon_sigma_factor * Rpower sigma_factor p)) (pow_t rho (p - 1))) (Fin (1 / 10000000))
      | _ => NaN
      end
  | Some e => Fin e
  end.
Definition expert_hyperparams (rho : R) (p : xr) (epsilon : option R) (esf : R) (sigma : option R) (sf : R) : R * xr :=
  (expert_sigma rho sigma sf, expert_epsilon rho p epsilon esf sf).

Section Dualize.
  (* float(s) *)
  Variable pyfloat : string -> option xr.

  Definition dk : xr := Fin 100000000.                  (* DEFAULT_KAPPA, cost_decoder.py:11 *)
  Definition x_is_two (x : xr) : bool := xeq x (Fin 2).
  Definition x_ge0 (x : xr) : bool := xle (Fin 0) x.

  (* power_from_parsed_spec, wrap_problem.py:71-75 (the spec is never None there) *)
  Definition power_from_parsed_spec (c : option (parsed xr)) : xr :=
    match c with None => Fin 2 | Some c => p_power c end.

  (* decide_on_impsamp, wrap_problem.py:78-82 *)
  Definition decide_on_impsamp (user_query : bool) (c : parsed xr) : bool := user_query && can_imp_samp xr x_is_two c.

  (* the cost object as the samplers see it *)
  Definition scost_of (c : cost xr) : scost :=
    match c_kind c, c_kappa c with
    | NLC, Some k => SNLC (c_p c) (c_power c) k
    | _, _ => SNC (c_p c) (c_power c)
    end.

  (* what is handed to DualPostSampledLoss / DualPreSampledLoss, wrap_problem.py:213-230 *)
  Record dual_args := {
    a_post : bool; a_cost : cost xr; a_sampler : csampler; a_has_labels : bool; a_reduce_spatial : bool;
    a_l2reg : option R; a_n_iter : steps; a_rho : R; a_n_samples : Z; a_epsilon : xr;
    a_reduction : option string; a_imp_samp : bool; a_lr : option R; a_adapt : option string }.

  (* the arguments of dualize_primal_loss, wrap_problem.py:85-108 (loss and transform apart) *)
  Record user_args := {
    u_rho : R; u_xi : batch; u_labels : option batch; u_post : bool; u_cost : option string; u_n_samples : Z;
    u_seed : option Z; u_reduction : option string; u_lr : option R; u_epsilon : option R; u_sigma : option R;
    u_l2reg : option R; u_adapt : option string; u_n_iter : option steps; u_imp_samp : bool; u_reduces : bool }.

  (* the keyword defaults of the signature *)
  Definition default_args (rho : R) (xi : batch) (y : option batch) : user_args :=
    {| u_rho := rho; u_xi := xi; u_labels := y; u_post := true; u_cost := None; u_n_samples := 10;
       u_seed := Some 42%Z; u_reduction := None; u_lr := None; u_epsilon := None; u_sigma := None;
       u_l2reg := None; u_adapt := Some "prodigy"%string; u_n_iter := None; u_imp_samp := true; u_reduces := false |}.

  (* dualize_primal_loss, wrap_problem.py:171-230 *)
  Definition dualize (u : user_args) : Result dual_args :=
    let has_labels := match u_labels u with None => false | Some _ => true end in
    do pc <- parse_code_torch xr pyfloat (Fin 2) dk (u_cost u) has_labels;
    let '(sg, ep) := expert_hyperparams (u_rho u) (power_from_parsed_spec (Some pc)) (u_epsilon u) EPSILON_SIGMA_FACTOR
                                        (u_sigma u) SIGMA_FACTOR in
    do c <- cost_from_parse_torch xr x_ge0 pc;
    do s <- (match u_labels u with
             | Some y => labeled_init (scost_of c) (u_xi u) y (Some sg) (u_seed u)
             | None => nolabels_init (scost_of c) (u_xi u) (Some sg) (u_seed u)
             end);
    Ok {| a_post := u_post u; a_cost := c; a_sampler := s; a_has_labels := has_labels;
          a_reduce_spatial := negb (u_reduces u); a_l2reg := u_l2reg u;
          a_n_iter := match u_n_iter u with
                      | None => if u_post u then SPair 200 2800 else SPair 100 10
                      | Some n => n
                      end;
          a_rho := u_rho u; a_n_samples := u_n_samples u; a_epsilon := ep; a_reduction := u_reduction u;
          a_imp_samp := decide_on_impsamp (u_imp_samp u) pc; a_lr := u_lr u; a_adapt := u_adapt u |}.
End Dualize.
