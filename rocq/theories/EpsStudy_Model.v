(* The search for the multiplier in examples/studying_skwdro/__epsilon_convergence_to_wdro.py:24-108. The data set, the plot and the classifier of scikit-learn are left out. Values and derivatives are finite
   real numbers. *)
From Coq Require Import Reals List Bool.
From Verif Require Import PyBase RList XReal.
Import ListNotations.
Local Open Scope R_scope.

(* N_LAMBDA_OPTIM_STEPS, line 24 *)
Definition N_LAMBDA_OPTIM_STEPS : nat := 100.

Section Search.
(* model(X, y) with _lam = l at the k-th evaluation (new samples may be drawn at every call), and the derivative in the
   multiplier that backward() leaves in _lam.grad. The Parameter is new at every call, so nothing accumulates. *)
Variable obj : nat -> R -> R.
Variable grad : nat -> R -> R.

(* extra_condition, lines 53-55 and 91-93: the other arguments are deleted *)
Definition extra_condition (l : R) : bool := Rleb 0 l.

(* the loop of line_optim, lines 97-106, from the iteration number k: s counts the small changes and is never set back to 0;
   [past] is past_f. The Parameter shares its memory with lam, which is changed in place after f is computed. *)
Fixpoint line_loop (iters k s : nat) (lam past : R) : R * R :=
  match iters with
  | O => (lam, past)
  | S m =>
      let f := obj k lam in
      let g := grad k lam in
      let lam1 := lam - / 100 * g in
      let lam2 := if extra_condition lam1 then lam1 else lam1 * 0 in
      if Rltb (Rabs (f - past)) (/ 100000) then
        if Nat.eqb (S s) 10 then (lam2, f) else line_loop m (S k) (S s) lam2 f
      else line_loop m (S k) s lam2 f
  end.

(* line_optim, lines 77-108: starts from zero whatever the multiplier of the model is *)
Definition line_optim (old_loss : R) : R * R := line_loop N_LAMBDA_OPTIM_STEPS 0 0 0 old_loss.

(* scipy.optimize.line_search(f, f_prime, xk, pk, gfk, old_fval, extra_condition) (scipy code): None when no step is found, or
   the step and the third of the other results (new_fval, which may be None) *)
Variable search : (R -> R) -> (R -> R) -> R -> R -> R -> R -> (R -> bool) -> option (R * option R).

(* line_optim_Wolfe, lines 37-75; [l] and [g] are the multiplier and its derivative before the call, and all the evaluations
   are taken on the same samples *)
Definition line_optim_Wolfe (l g old_loss : R) : Result (xr * xr) :=
  match search (obj 0) (grad 0) l (- g) g old_loss extra_condition with
  | None => if Rleb 0 g then Ok (PInf, PInf) else Ok (Fin 0, Fin (obj 0 0))
  | Some (alpha, Some v) => Ok (Fin (l - alpha * g), Fin v)
  | Some (_, None) => Raise AssertionError
  end.
End Search.
