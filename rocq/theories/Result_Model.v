(* Model of solvers/result.py. *)
From Coq Require Import List Bool String Arith.
From Verif Require Import PyBase.
Import ListNotations.
Open Scope string_scope.
Open Scope list_scope.

Section Values.
(* Python values and None *)
Variable V : Type.
Variable none : V.

(* a dict with string keys, in insertion order *)
Definition dict := list (string * V).
Definition keys (d : dict) : list string := map fst d.
Fixpoint lookup (d : dict) (k : string) : option V :=
  match d with [] => None | (k', v) :: r => if String.eqb k' k then Some v else lookup r k end.
(* d.get(k, None): keyword argument with its default *)
Definition kwarg (d : dict) (k : string) : V := match lookup d k with Some v => v | None => none end.

(* SolverResult, result.py:5-20: the instance attributes, and the keys iterated over. [_iter_attrs] is a live view on the dict d
   of the caller, so the keys are those of the dict at the time of the iteration (argument of [iterate]). Attributes that
   Python reserves (__class__, __dict__ ...) are not modelled. *)
Record solver_result := { attrs : dict }.

(* the attributes set by __init__, result.py:6-14: the four named ones, then **kwargs in order *)
Definition named : list string := ["coef"; "intercept"; "dual_var"; "robust_loss"].
Definition is_named (k : string) : bool := existsb (String.eqb k) named.
(* SolverResult( **d, _iter_attrs=...): keyword arguments named twice are a TypeError *)
Definition init (d : dict) : Result solver_result :=
  if existsb (fun k => String.eqb k "self" || String.eqb k "_iter_attrs") (keys d) then Raise TypeError
  else Ok {| attrs := map (fun k => (k, kwarg d k)) named ++ filter (fun kv => negb (is_named (fst kv))) d |}.

(* getattr *)
Definition getattr (r : solver_result) (k : string) : Result V :=
  match lookup (attrs r) k with Some v => Ok v | None => Raise AttributeError end.

(* list(result), result.py:16-20, for the keys listed by the view *)
Fixpoint iterate (r : solver_result) (view : list string) : Result (list V) :=
  match view with
  | [] => Ok []
  | k :: ks => do v <- getattr r k; do vs <- iterate r ks; Ok (v :: vs)
  end.

(* what a solver may return *)
Inductive legacy :=
| LResult (r : solver_result) (view : list string)
| LTuple (l : list V)
| LDict (d : dict)
| LOther.

(* the dict d built from a tuple, result.py:33-43; None when an assertion fails *)
Definition of_tuple (l : list V) : option dict :=
  match l with
  | [a] => Some [("coef", a)]
  | [a; b] => Some [("coef", a); ("dual_var", b)]
  | [a; b; c] => Some [("coef", a); ("intercept", b); ("dual_var", c)]
  | [a; b; c; d] => Some [("coef", a); ("intercept", b); ("dual_var", c); ("robust_loss", d)]
  | _ => None
  end.

(* wrapper, result.py:28-47: the result together with the keys of its view *)
Definition wrap (x : legacy) : Result (solver_result * list string) :=
  match x with
  | LResult r view => Ok (r, view)
  | LTuple l => match of_tuple l with
                | None => Raise AssertionError
                | Some d => do r <- init d; Ok (r, keys d)
                end
  | LDict d => do r <- init d; Ok (r, keys d)
  | LOther => Raise RuntimeError
  end.
End Values.
Arguments LResult {V}. Arguments LTuple {V}. Arguments LDict {V}. Arguments LOther {V}.
Arguments attrs {V}. Arguments lookup {V}. Arguments getattr {V}. Arguments iterate {V}. Arguments wrap {V}. Arguments init {V}. Arguments keys {V}.
