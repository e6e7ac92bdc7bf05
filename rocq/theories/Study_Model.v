(* Model of the solver of the epsilon study, solvers/__entropic_dual_torch_epsilon.py, on the state and world of Solver_Model. *)
From Coq Require Import Reals List Bool ZArith.
From Verif Require Import PyBase XReal OptCond_Model Solver_Model.
Import ListNotations.

(* Tensor.abs *)
Definition xabs (x : xr) : xr := match x with Fin r => Fin (Rabs r) | PInf | MInf => PInf | NaN => NaN end.

Section Study.
Variable W : Type.
(* loss(xi, xi_labels, ...) with backward if asked, as in Solver_Model *)
Variable fwd : bool -> bool -> bool -> W -> W * Result xr.
Variable step_with : (W -> W * Result xr) -> W -> W * option exn.
Variables zero_grad plain_step generate guess : W -> W * option exn.
Variable reset : option (W -> W * option exn).
Variable cond : Z -> W -> W * Result bool.
Variable n_iter : steps.
(* norm of loss.primal_loss.loss.pos.grad (Weber's facility; AttributeError for any other loss, or without gradient),
   loss._lam.grad.item(), loss.lam.item() *)
Variables pos_grad lam_grad lam_item : W -> Result xr.
(* rcParams, subplots; then the drawing of the curves up to show() *)
Variables open_figure draw_curves : W -> W * option exn.
Notation M := (M W).
Notation bnd := (bnd W).
Notation ret := (ret W).
Notation run := (run W).
Notation log := (log W).
Notation set_erm := (set_erm W).
Notation set_imp := (set_imp W).
Notation "'let*' x := m 'in' k" := (bnd m (fun x => k)) (at level 200, x pattern, m at level 100, k at level 200).

Definition look (f : W -> Result xr) : M xr := fun s => (s, f (s_w s)).
Definition lift {A} (r : Result A) : M A := fun s => (s, r).

(* closure, :240-252: unlike the main solver it stays in training mode *)
Definition study_closure (back : bool) : M xr :=
  fun s => (let* _ := log (EFwd (s_erm s) (s_imp s)) in ask W (closure_w W fwd zero_grad (s_erm s) (s_imp s) back)) s.

(* one iteration of optim_presample, :272-282: None when the test says stop, before anything is recorded *)
Definition study_pre_body (it : Z) : M (option xr) :=
  let* _ := step_closure W fwd step_with zero_grad in
  let* b := ask W (cond it) in
  let* _ := log (ECond it b) in
  if b then ret None
  else
    let* is := get_imp W in let* _ := set_imp (negb is) in
    let* x := study_closure false in let* _ := set_imp is in
    let* _ := log (ELoss x) in ret (Some x).
Fixpoint study_pre_loop (it : Z) (n : nat) (losses : list xr) : M (list xr) :=
  match n with
  | O => ret losses
  | S k => let* o := study_pre_body it in
           match o with None => ret losses | Some x => study_pre_loop (it + 1)%Z k (losses ++ [x]) end
  end.

(* optim_presample, :208-284 *)
Definition study_presample : M (list xr) :=
  let* _ := run generate in
  let '(pre, train) := interpret_steps n_iter in
  let* _ := set_erm true in
  let* _ := repeat_m W (Z.to_nat pre) (step_closure W fwd step_with zero_grad) in
  let* _ := run guess in
  let* _ := log EGuess in
  let* _ := set_erm false in
  let* _ := reset_lbd W reset in
  study_pre_loop 0 (Z.to_nat train) [].

(* the four curves of optim_postsample *)
Record curves := { c_loss : list xr; c_lgrad : list xr; c_tgrad : list xr; c_lam : list xr }.

(* zero_grad, forward, backward, step: :325-332 and :349-357 *)
Definition study_step : M xr :=
  let* _ := run zero_grad in
  let* x := (fun s => (let* _ := log (EFwd (s_erm s) (s_imp s)) in ask W (fwd (s_erm s) (s_imp s) true)) s) in
  let* _ := run plain_step in
  let* _ := (fun s => log (EStep (s_erm s) (s_imp s)) s) in
  ret x.

Fixpoint study_pretrain (n : nat) (c : curves) : M curves :=
  match n with
  | O => ret c
  | S k => let* x := study_step in
           let* _ := log (ELoss x) in
           let* t := look pos_grad in
           study_pretrain k {| c_loss := c_loss c ++ [x]; c_lgrad := c_lgrad c; c_tgrad := c_tgrad c ++ [t]; c_lam := c_lam c |}
  end.

Fixpoint study_loop (it : Z) (n : nat) (c : curves) : M curves :=
  match n with
  | O => ret c
  | S k => let* x := study_step in
           let* b := ask W (cond it) in
           let* _ := log (ECond it b) in
           if b then ret c
           else let* _ := log (ELoss (xabs x)) in
                let* lg := look lam_grad in
                let* l := look lam_item in
                let* t := look pos_grad in
                study_loop (it + 1)%Z k
                  {| c_loss := c_loss c ++ [xabs x]; c_lgrad := c_lgrad c ++ [lg]; c_tgrad := c_tgrad c ++ [t]; c_lam := c_lam c ++ [l] |}
  end.

(* optim_postsample, :287-363 *)
Definition study_postsample : M curves :=
  let '(pre, train) := interpret_steps n_iter in
  let* _ := set_erm true in
  let* c := study_pretrain (Z.to_nat pre) {| c_loss := []; c_lgrad := []; c_tgrad := []; c_lam := [] |} in
  let* _ := run guess in
  let* _ := log EGuess in
  let* _ := (fun s => (if s_erm s then reset_lbd W reset else ret tt) s) in
  let* _ := set_erm false in
  study_loop 0 (Z.to_nat train) c.

(* solve_dual_wdro, :117-205, after the data extraction and the assertions. The pre-sampled solver returns one list of numbers,
   which line 165 unpacks into four names: with a number in the place of a list, len(lgrads) of line 177 raises. *)
Variables (theta : W -> list R) (intercept : W -> option (list R)) (lam : W -> list R).
Definition unpack4 (l : list xr) : Result unit := match l with [_; _; _; _] => Ok tt | _ => Raise ValueError end.
Definition study (presample has_optimizer : bool) (rho : xr) : M solved :=
  let* _ := lift (if has_optimizer then Ok tt else Raise AttributeError) in
  if presample then
    let* l := study_presample in
    let* _ := lift (unpack4 l) in
    let* _ := run open_figure in
    lift (Raise TypeError)
  else
    let* c := study_postsample in
    let* _ := run open_figure in
    let* _ := run draw_curves in
    let* w := read W in
    let* x := last_item W (c_loss c) in
    ret {| r_theta := theta w; r_intercept := intercept w;
           r_lam := if xlt (Fin 0) rho then lam w else [0%R]; r_loss := x |}.
End Study.
