(* Specification side: the evaluations of the loss that a log of the solver speaks of. *)
From Coq Require Import List Bool.
From Verif Require Import Solver_Model.
Import ListNotations.

(* every forward pass is one evaluation, with the flags of the loss and whether gradients are computed; so is every step of an optimiser
   that is given a closure, always with gradients. [grads]: whether the forward passes outside the steps compute them. *)
Definition evaluations (with_closure grads : bool) (l : list ev) : list (bool * bool * bool) :=
  flat_map (fun e => match e with EFwd a b => [(a, b, grads)] | EStep a b => if with_closure then [(a, b, true)] else [] | _ => [] end) l.

(* a world in which [seen] lists the flags of all the evaluations so far *)
Definition nothing_seen {W A} (seen : W -> list (bool * bool * bool)) (f : W -> W * A) : Prop := forall w, seen (fst (f w)) = seen w.
Definition one_seen {W A} (seen : W -> list (bool * bool * bool)) (erm imp back : bool) (f : W -> W * A) : Prop :=
  forall w, seen (fst (f w)) = seen w ++ [(erm, imp, back)].
(* an optimiser that evaluates its closure once *)
Definition evaluates_once {W A B} (seen : W -> list (bool * bool * bool)) (step_with : (W -> W * A) -> W -> W * B) : Prop :=
  forall erm imp back c, one_seen seen erm imp back c -> one_seen seen erm imp back (step_with c).
