(* Model of the solver loops, solvers/entropic_dual_torch.py, and of the step specification, solvers/utils.py:83-92. *)
From Coq Require Import Reals List Bool String ZArith.
From Verif Require Import PyBase XReal OptCond_Model.
Import ListNotations.

(* interpret_steps_struct, utils.py:83-92, with its default split .3: int(n * .3) truncates towards 0. Floats are not modelled:
   n * .3 is 3n/10 (the truncations agree as long as 3n is below 2^53). *)
Definition interpret_steps (s : steps) : Z * Z := match s with SInt n => (Z.quot (3 * n) 10, n) | SPair a b => (a, b) end.

(* what happens during a solve: a forward pass by the solver itself (with the ERM and importance-sampling flags), an optimiser
   step, a recorded loss, the initial multiplier, the reset of the multiplier's optimiser, an answer of the stopping test *)
Inductive ev :=
| EFwd (erm imp : bool)
| EStep (erm imp : bool)
| ELoss (x : xr)
| EGuess
| EReset
| ECond (it : Z) (stop : bool).

Section Solver.
(* everything the flags below do not cover: parameters, gradients, samples, optimiser state, random generators, modes *)
Variable W : Type.
(* loss(xi, xi_labels, ...), .backward() if asked, .item() *)
Variable fwd : bool -> bool -> bool -> W -> W * Result xr.
(* optimizer.step(closure), the closure being given on the world *)
Variable step_with : (W -> W * Result xr) -> W -> W * option exn.
(* optimizer.zero_grad, optimizer.step(), generate_zetas, get_initial_guess_at_dual *)
Variables zero_grad plain_step generate guess : W -> W * option exn.
(* optimizer.reset_lbd_state, None for an optimiser that has no such method; CompositeOptimizer is the only class that has one, so
   that hasattr (186) and isinstance (274) are the same test *)
Variable reset : option (W -> W * option exn).
(* opt_cond(loss, iteration) *)
Variable cond : Z -> W -> W * Result bool.
(* opt_cond.metric == 'grad', loss.n_iter *)
Variable metric_grad : bool.
Variable n_iter : steps.

(* erm_mode and imp_samp of the loss, and what has happened so far (ghost) *)
Record st := { s_w : W; s_erm : bool; s_imp : bool; s_log : list ev }.
Definition M (A : Type) := st -> st * Result A.
Definition ret {A} (a : A) : M A := fun s => (s, Ok a).
Definition bnd {A B} (m : M A) (k : A -> M B) : M B :=
  fun s => match m s with (s', Ok a) => k a s' | (s', Raise e) => (s', Raise e) end.
Definition log (e : ev) : M unit := fun s => ({| s_w := s_w s; s_erm := s_erm s; s_imp := s_imp s; s_log := s_log s ++ [e] |}, Ok tt).
Definition set_erm (b : bool) : M unit := fun s => ({| s_w := s_w s; s_erm := b; s_imp := s_imp s; s_log := s_log s |}, Ok tt).
Definition set_imp (b : bool) : M unit := fun s => ({| s_w := s_w s; s_erm := s_erm s; s_imp := b; s_log := s_log s |}, Ok tt).
Definition get_imp : M bool := fun s => (s, Ok (s_imp s)).
(* foreign code *)
Definition run (f : W -> W * option exn) : M unit :=
  fun s => match f (s_w s) with
           | (w, None) => ({| s_w := w; s_erm := s_erm s; s_imp := s_imp s; s_log := s_log s |}, Ok tt)
           | (w, Some e) => ({| s_w := w; s_erm := s_erm s; s_imp := s_imp s; s_log := s_log s |}, Raise e)
           end.
Definition ask {A} (f : W -> W * Result A) : M A :=
  fun s => match f (s_w s) with (w, r) => ({| s_w := w; s_erm := s_erm s; s_imp := s_imp s; s_log := s_log s |}, r) end.
Notation "'let*' x := m 'in' k" := (bnd m (fun x => k)) (at level 200, x pattern, m at level 100, k at level 200).

(* closure, entropic_dual_torch.py:149-169, with the current flags. With back=False the loss is put in eval() and train(), both
   of which leave erm_mode off (Oracle_Model, C25). *)
Definition closure_w (erm imp back : bool) (w : W) : W * Result xr :=
  match zero_grad w with
  | (w1, Some e) => (w1, Raise e)
  | (w1, None) => fwd erm imp back w1
  end.
Definition closure (back : bool) : M xr :=
  let* _ := (if back then ret tt else set_erm false) in
  fun s => (let* _ := log (EFwd (s_erm s) (s_imp s)) in ask (closure_w (s_erm s) (s_imp s) back)) s.
(* optimizer.step(closure), logged with the flags the closure sees *)
Definition step_closure : M unit :=
  fun s => (let* _ := run (step_with (closure_w (s_erm s) (s_imp s) true)) in log (EStep (s_erm s) (s_imp s))) s.

Fixpoint repeat_m (n : nat) (m : M unit) : M unit :=
  match n with O => ret tt | S k => let* _ := m in repeat_m k m end.

(* the end of both loop bodies: NaN test, stopping test; true means break *)
Definition stop_test (it : Z) (x : xr) : M bool :=
  if isnan x then ret true
  else let* b := ask (cond it) in let* _ := log (ECond it b) in ret b.

(* one robust iteration of optim_presample, entropic_dual_torch.py:190-212: the recorded loss and whether to break *)
Definition pre_body (it : Z) : M (xr * bool) :=
  let* _ := step_closure in
  let* x := (if metric_grad then
               let* is := get_imp in let* x := closure true in let* _ := set_imp is in ret x
             else
               let* is := get_imp in let* _ := set_imp false in
               let* x := closure false in let* _ := set_imp is in ret x) in
  let* _ := log (ELoss x) in
  let* b := stop_test it x in
  ret (x, b).

(* one stochastic step, entropic_dual_torch.py:258-267 and 280-289 *)
Definition post_step : M xr :=
  let* _ := run zero_grad in
  let* x := (fun s => (let* _ := log (EFwd (s_erm s) (s_imp s)) in ask (fwd (s_erm s) (s_imp s) true)) s) in
  let* _ := run plain_step in
  let* _ := (fun s => log (EStep (s_erm s) (s_imp s)) s) in
  let* _ := log (ELoss x) in
  ret x.
Definition post_body (it : Z) : M (xr * bool) :=
  let* x := post_step in
  let* b := stop_test it x in
  ret (x, b).

(* for iteration in loss.iterations: ... break *)
Fixpoint loop (body : Z -> M (xr * bool)) (it : Z) (n : nat) (losses : list xr) : M (list xr) :=
  match n with
  | O => ret losses
  | S k =>
      let* (x, stop) := body it in
      if stop then ret (losses ++ [x]) else loop body (it + 1)%Z k (losses ++ [x])
  end.

(* optimizer.reset_lbd_state() if there is one *)
Definition reset_lbd : M unit :=
  match reset with Some f => let* _ := run f in log EReset | None => ret tt end.

(* optim_presample, entropic_dual_torch.py:111-213 (the sampler test of 143-146 is in Oracle_Model, C62) *)
Definition optim_presample : M (list xr) :=
  let* _ := run generate in
  let '(pre, _) := interpret_steps n_iter in
  let* _ := set_erm true in
  let* _ := repeat_m (Z.to_nat pre) step_closure in
  let* _ := run guess in
  let* _ := log EGuess in
  let* _ := set_erm false in
  let* _ := reset_lbd in
  loop pre_body 0 (Z.to_nat (train_steps n_iter)) [].

(* optim_postsample, entropic_dual_torch.py:216-297 *)
Fixpoint pretrain_post (n : nat) (losses : list xr) : M (list xr) :=
  match n with O => ret losses | S k => let* x := post_step in pretrain_post k (losses ++ [x]) end.
Definition optim_postsample : M (list xr) :=
  let '(pre, _) := interpret_steps n_iter in
  let* _ := set_erm false in
  let* losses := pretrain_post (Z.to_nat pre) [] in
  let* _ := run guess in
  let* _ := log EGuess in
  let* _ := (fun s => (if s_erm s then reset_lbd else ret tt) s) in
  let* _ := set_erm false in
  loop post_body 0 (Z.to_nat (train_steps n_iter)) losses.

(* solve_dual_wdro, entropic_dual_torch.py:45-108, after the data extraction and the type assertions; has_optimizer is the test
   of the optimizer property (_misc_dual_interfaces.py:310-315) *)
Variables (theta : W -> list R) (intercept : W -> option (list R)) (lam : W -> list R).
Record solved := { r_theta : list R; r_intercept : option (list R); r_lam : list R; r_loss : xr }.
Definition read : M W := fun s => (s, Ok (s_w s)).
Definition last_item (l : list xr) : M xr := fun s => (s, match rev l with [] => Raise IndexError | x :: _ => Ok x end).
Definition solve (presample has_optimizer : bool) (rho : xr) : M solved :=
  let* _ := (fun s => (s, if has_optimizer then Ok tt else Raise AttributeError)) in
  let* losses := (if presample then optim_presample else optim_postsample) in
  let* w := read in
  let* x := last_item losses in
  ret {| r_theta := theta w; r_intercept := intercept w;
         r_lam := if xlt (Fin 0) rho then lam w else [0%R]; r_loss := x |}.
End Solver.
Arguments s_w {W}. Arguments s_erm {W}. Arguments s_imp {W}. Arguments s_log {W}. 
