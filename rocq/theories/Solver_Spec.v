(* Reading the log of a solve. *)
From Coq Require Import List Bool ZArith.
From Verif Require Import XReal Solver_Model.
Import ListNotations.

Definition is_step (e : ev) : bool := match e with EStep _ _ => true | _ => false end.
Definition n_steps (l : list ev) : nat := List.length (filter is_step l).

Fixpoint recorded (l : list ev) : list xr :=
  match l with [] => [] | ELoss x :: r => x :: recorded r | _ :: r => recorded r end.

(* a reason for the robust phase to end early *)
Definition ends (e : ev) : Prop := e = ELoss NaN \/ exists it, e = ECond it true.
