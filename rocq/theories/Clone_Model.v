(* Model of scikit-learn's clone on the opt_cond of an estimator, as done once per candidate by the search of RhoTunedEstimator.fit,
   skwdro/base/rho_tuners.py:36-57 (cross-validation and pickling-free parallel back ends do the same). *)
From Coq Require Import Reals List Bool String ZArith Arith.
From Verif Require Import PyBase XReal OptCond_Model EstCond_Model.
Import ListNotations.

(* copy.deepcopy of an OptCondTorch (sklearn.base.clone with safe=False). torch refuses to copy a tensor that was computed from
   parameters with RuntimeError: t_0 and t_mem are concatenations of the parameters (optim_cond.py:258, 264, 277, 417-427), delta_t_1 their
   distance (:266), and delta_l_1 a distance of multipliers (:336), when the multiplier is trained. Norms of gradients are plain
   numbers. l_0 and l_mem are the multiplier itself (:330, 335, 344); their copies live at other addresses. *)
Definition computed {A} (x : option A) : bool := match x with None => false | Some _ => true end.
Definition deepcopy (lam_trained : bool) (rename : nat -> nat) (c : oc) : Result oc :=
  if computed (t_0 c) || computed (t_mem c) || computed (delta_t_1 c) || (lam_trained && computed (delta_l_1 c)) then Raise RuntimeError
  else Ok {| tol_theta := tol_theta c; tol_lambda := tol_lambda c; monitoring := monitoring c; mode := mode c; metric := metric c; max_iter := max_iter c;
             l_mem := option_map rename (l_mem c); t_mem := t_mem c; l_0 := option_map rename (l_0 c); t_0 := t_0 c;
             l_grad_0 := l_grad_0 c; t_grad_0 := t_grad_0 c; delta_l_1 := delta_l_1 c; delta_t_1 := delta_t_1 c |}.

Section Clone.
Variable vnorm : list xr -> xr.
Variable lam_trained : bool.
Variable rename : nat -> nat.

(* e' = clone(e): None stays None, an object is copied *)
Definition clone (w : world) (e e' : nat) : Result world :=
  match opt_cond w e with
  | None => Ok {| conds := conds w; next := next w; opt_cond := upd (opt_cond w) e' None |}
  | Some l => do c <- deepcopy lam_trained rename (conds w l);
              Ok {| conds := upd (conds w) (next w) c; next := S (next w); opt_cond := upd (opt_cond w) e' (Some (next w)) |}
  end.

(* rho_tuners.py:42-57: one clone and one fit for each candidate, whose run would show the observations given; the answers of their
   conditions. A fit that raises ends the search of the code (error_score="raise"): its answers end with the exception, and those
   after it are not obtained. *)
Fixpoint search (w : world) (e : nat) (candidates : list (nat * list (obs * Z))) : Result (world * list (list (Result bool))) :=
  match candidates with
  | [] => Ok (w, [])
  | (e', hs) :: r =>
      do w1 <- clone w e e';
      let '(w2, a) := fit vnorm w1 e' hs in
      do (w3, l) <- search w2 e r;
      Ok (w3, a :: l)
  end.
End Clone.
