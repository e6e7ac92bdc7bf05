(* Model of the optimisers installed by the robust losses (solvers/oracle_torch.py) and of the mode and trainability
   flags (solvers/_dual_interfaces/_misc_dual_interfaces.py, _impsamp_interface.py). *)
From Coq Require Import Reals List Bool String.
From Verif Require Import PyBase RList XReal InitGuess_Model.
Import ListNotations.
Local Open Scope R_scope.

(* ---------- CompositeOptimizer ---------- *)
(* A Python generator such as module.parameters(): the items still to be produced. list(gen) empties it. *)
Definition gen_list {A} (g : list A) : list A * list A := (g, []).

(* torch.optim.Optimizer.__init__ on a list of parameters: one group, refused when empty (torch code, not in /repo) *)
Definition make_groups {A} (l : list A) : Result (list A) := match l with [] => Raise ValueError | _ => Ok l end.

Record composite (A : Type) := { c_params : list A; c_lbd : list A; c_own : list A; c_schedulers : option (Z * Z) }.
Arguments c_params {A}. Arguments c_lbd {A}. Arguments c_own {A}. Arguments c_schedulers {A}.

(* CompositeOptimizer.__init__, oracle_torch.py:18-55. [params] is the generator primal_loss.parameters()
   (oracle_torch.py:192-193); make_optim consumes it (line 40) before chain(params, [lbd]) is built (line 55).
   [steps] is interpret_steps_struct(n_iter) = (pretrain, train); c_schedulers are the two cosine schedulers' T_max,
   for the primal parameters and for lambda, and exist only for Prodigy (lines 43-52). *)
Definition composite_init {A} (params : list A) (lbd : A) (steps : Z * Z) (name : string) : Result (composite A) :=
  if String.eqb name "mechanic" || String.eqb name "prodigy" then
    let '(items, rest) := gen_list params in
    do g1 <- make_groups items;
    do g2 <- make_groups [lbd];
    let '(items', _) := gen_list rest in
    do own <- make_groups (items' ++ [lbd]);
    Ok {| c_params := g1; c_lbd := g2; c_own := own;
          c_schedulers := if String.eqb name "prodigy" then Some ((fst steps + snd steps)%Z, snd steps) else None |}
  else Raise NotImplementedError.

Section Step.
(* everything but lambda: parameters, gradients, inner optimisers, schedulers *)
Variable T : Type.
Record world := { w_lam : xr; w_rest : T }.

(* a call into foreign code: it may change anything and may fail *)
Definition effect := world -> world * option exn.

Fixpoint run_effects (l : list effect) (w : world) : world * option exn :=
  match l with
  | [] => (w, None)
  | f :: r => match f w with (w', None) => run_effects r w' | (w', Some e) => (w', Some e) end
  end.

(* Tensor.clamp_(0., None), oracle_torch.py:80: NaN stays NaN *)
Definition clamp_min0 (x : xr) : xr := xmax x (Fin 0).

(* CompositeOptimizer.step, oracle_torch.py:73-81: the inner optimisers, the schedulers, then the clamp *)
Definition composite_step (opts schedulers : list effect) (w : world) : world * option exn :=
  match run_effects (opts ++ schedulers) w with
  | (w', None) => ({| w_lam := clamp_min0 (w_lam w'); w_rest := w_rest w' |}, None)
  | (w', Some e) => (w', Some e)
  end.

(* what happens to lambda during a training: optimiser steps, the initial guess (dual_loss.py:173 and :178), and anything
   that does not write lambda (forward and backward passes, zero_grad, state_dict, reset_lbd_state, ...) *)
Inductive event :=
| EStep (opts schedulers : list effect)
| EGuess (rho : xr) (power : R) (gnorms : list R)
| EOther (f : T -> T).

Definition do_event (e : event) (w : world) : world * option exn :=
  match e with
  | EStep o s => composite_step o s w
  | EGuess rho power gn =>
      match initial_guess rho (w_lam w) true power gn with
      | Ok l => ({| w_lam := l; w_rest := w_rest w |}, None)
      | Raise e => (w, Some e)
      end
  | EOther f => ({| w_lam := w_lam w; w_rest := f (w_rest w) |}, None)
  end.

Fixpoint do_events (l : list event) (w : world) : world * option exn :=
  match l with
  | [] => (w, None)
  | e :: r => match do_event e w with (w', None) => do_events r w' | x => x end
  end.
End Step.
Arguments w_lam {T}. Arguments w_rest {T}. Arguments composite_step {T}. Arguments do_event {T}. Arguments do_events {T}.
Arguments EStep {T}. Arguments EGuess {T}. Arguments EOther {T}. Arguments run_effects {T}.

(* the learning-rate factor after k calls of CosineAnnealingLR.step with T_max = T and eta_min = 0 (torch code: the closed
   form of its recursion) *)
Definition cosine_factor (T k : Z) : R := (1 + cos (PI * IZR k / IZR T)) / 2.

(* ---------- AdamW, installed at oracle_torch.py:196-204 when adapt is falsy ---------- *)
(* one coordinate of torch.optim.AdamW with weight_decay=0., amsgrad=True, betas=(.99,.999), eps=1e-8 (torch code) *)
Record adam := { a_t : nat; a_m : R; a_v : R; a_vmax : R }.
Definition adam0 : adam := {| a_t := 0; a_m := 0; a_v := 0; a_vmax := 0 |}.
Definition adamw_step (lr : R) (s : adam) (x g : R) : adam * R :=
  let b1 := 99 / 100 in let b2 := 999 / 1000 in let eps := / 100000000 in
  let t := S (a_t s) in
  let m := b1 * a_m s + (1 - b1) * g in
  let v := b2 * a_v s + (1 - b2) * (g * g) in
  let vmax := Rmax (a_vmax s) v in
  let denom := sqrt vmax / sqrt (1 - b2 ^ t) + eps in
  ({| a_t := t; a_m := m; a_v := v; a_vmax := vmax |}, x - lr / (1 - b1 ^ t) * (m / denom)).
(* oracle_torch.py:198 *)
Definition adamw_lr (learning_rate : option R) : R := match learning_rate with None => / 20 | Some r => r end.

(* ---------- LBFGS, installed at oracle_torch.py:428-436 ---------- *)
(* the first call of torch.optim.LBFGS.step with max_iter=1, no line search, on the flat parameters and flat gradient
   (torch code); later calls, which use the curvature history, are not modelled *)
Definition lbfgs_first_step (lr : R) (x g : vec) : vec :=
  if Rleb (rmax0 (map Rabs g)) (/ 10000) then x
  else
    let t := Rmin 1 (/ rsum (map Rabs g)) * lr in
    if Rltb (- / 1000000) (dot g (vscal (-1) g)) then x
    else vadd x (vscal t (vscal (-1) g)).
(* oracle_torch.py:430 *)
Definition lbfgs_lr (learning_rate : option R) : R := match learning_rate with None => 1 | Some r => r end.

(* ---------- modes ---------- *)
(* the training flag of the robust loss, its erm_mode, and the training flags of the modules below it (primal loss first) *)
Record modes := { m_training : bool; m_erm : bool; m_below : list bool }.

(* _DualLossBase.train, _misc_dual_interfaces.py:295-297, with torch's Module.train, which sets the flag recursively *)
Definition dual_train (mode : bool) (s : modes) : modes :=
  {| m_training := mode; m_erm := mode; m_below := map (fun _ => mode) (m_below s) |}.
(* its default argument *)
Definition dual_train_default (s : modes) : modes := dual_train false s.
(* _DualLossBase.eval, _misc_dual_interfaces.py:291-293; torch's Module.eval is self.train(False), which dispatches to the
   overridden train *)
Definition dual_eval (s : modes) : modes :=
  dual_train false {| m_training := m_training s; m_erm := true; m_below := m_below s |}.
(* model.eval() ... model.train() on the primal loss, _impsamp_interface.py:110 and :158 (torch's own methods) *)
Definition below_set (mode : bool) (s : modes) : modes :=
  {| m_training := m_training s; m_erm := m_erm s; m_below := map (fun _ => mode) (m_below s) |}.
(* closure(False), entropic_dual_torch.py:163-166: the forward pass reads the erm_mode flag and leaves the flags alone
   (importance sampling has been switched off) *)
Definition closure_eval (s : modes) : modes * bool :=
  let s1 := dual_eval s in (dual_train_default s1, m_erm s1).

(* ---------- trainability ---------- *)
(* requires_grad flags: parameters of the primal loss, then lambda, then the hyper-parameters rho and epsilon *)
Record flags := { f_primal : list bool; f_lam : bool; f_hyper : list bool }.

(* freeze, _misc_dual_interfaces.py:273-289 *)
Definition freeze (rg include_hyper : bool) (f : flags) : flags :=
  {| f_primal := map (fun _ => rg) (f_primal f); f_lam := rg;
     f_hyper := if include_hyper then map (fun _ => rg) (f_hyper f) else f_hyper f |}.

(* get_displacement_direction, _impsamp_interface.py:167-205, on the flags and modes; [grads] is the outcome of the gradient
   computation, which runs user code: None if it succeeds, an exception otherwise (then the later lines are not reached) *)
Definition displacement_direction (grads : option exn) (f : flags) (s : modes) : flags * modes * option exn :=
  let f1 := freeze false false f in
  let s1 := below_set false s in
  match grads with
  | Some e => (f1, s1, Some e)
  | None => (freeze true false f1, below_set true s1, None)
  end.

(* ---------- lazily initialised sampler ---------- *)
(* Loss.sampler, base/losses_torch/base_loss.py:118-123 *)
Definition get_sampler {S} (s : option S) : Result S := match s with None => Raise ValueError | Some x => Ok x end.

(* the head of DualPostSampledLoss.forward, oracle_torch.py:283-290, and of optim_presample, entropic_dual_torch.py:143-146:
   reading self.primal_loss.sampler goes through the property, whose None test can therefore never succeed.
   [init] is init_sampler, [reset] is reset_mean. Result: the sampler afterwards. *)
Definition ensure_sampler {S} (init : S) (reset : S -> S) (reset_sampler : bool) (s : option S) : Result S :=
  do x <- get_sampler s;
  Ok (if reset_sampler then reset x else x).
