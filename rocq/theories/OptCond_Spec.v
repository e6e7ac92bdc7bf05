(* Vocabulary for the stopping condition: what an observation shows, and the documented test. *)
From Coq Require Import Reals List Bool String ZArith.
From Verif Require Import PyBase XReal OptCond_Model.
Import ListNotations.

(* the documented test: relative error u < tol * u_0, absolute error u < tol *)
Inductive tmode := Rel | Abs.
Definition mode_name (m : tmode) : string := match m with Rel => "rel" | Abs => "abs" end.
Definition passes (m : tmode) (tol reference current : xr) : bool :=
  match m with Rel => xlt current (xmul tol reference) | Abs => xlt current tol end.

(* every parameter has a gradient; together they are [g] *)
Definition shows_grad (h : obs * Z) (g : list xr) : Prop :=
  exists gs, o_tgrad (fst h) = map Some gs /\ gs <> [] /\ g = List.concat gs.
Definition shows_param (h : obs * Z) (t : list xr) : Prop := o_theta (fst h) <> [] /\ t = List.concat (o_theta (fst h)).
Definition shows_lgrad (h : obs * Z) (g : xr) : Prop := o_lgrad (fst h) = Some g.
(* the iterations performed by the solvers: 0 <= it < n *)
Definition in_budget (h : obs * Z) : Prop := (snd h < train_steps (o_niter (fst h)))%Z.

(* a condition that has not been called yet *)
Definition fresh (c : oc) : Prop :=
  l_mem c = None /\ t_mem c = None /\ l_0 c = None /\ t_0 c = None /\
  l_grad_0 c = None /\ t_grad_0 c = None /\ delta_l_1 c = None /\ delta_t_1 c = None.

(* the same condition monitoring something else *)
Definition monitor (s : string) (c : oc) : oc :=
  {| tol_theta := tol_theta c; tol_lambda := tol_lambda c; monitoring := s; mode := mode c; metric := metric c;
     max_iter := max_iter c; l_mem := l_mem c; t_mem := t_mem c; l_0 := l_0 c; t_0 := t_0 c;
     l_grad_0 := l_grad_0 c; t_grad_0 := t_grad_0 c; delta_l_1 := delta_l_1 c; delta_t_1 := delta_t_1 c |}.

(* sizes of the changes between consecutive parameter vectors, starting from [prev] *)
Fixpoint changes (size : list xr -> xr) (prev : list xr) (ts : list (list xr)) : list xr :=
  match ts with [] => [] | t :: r => size (map2x xsub t prev) :: changes size t r end.

(* all observations are of the same loss, whose multiplier lives at r; its value at an observation *)
Definition one_fit (r : nat) (h : obs * Z) : Prop := o_lam (fst h) = r.
Definition lam_now (h : obs * Z) : xr := o_mem (fst h) (o_lam (fst h)).
