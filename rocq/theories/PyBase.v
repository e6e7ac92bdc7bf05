(* Shared vocabulary of the models: Python exceptions as values and results. *)
From Coq Require Import List String.
Import ListNotations.

(* The exception classes raised on the modelled paths of /repo (the message is dropped). *)
Inductive exn : Set :=
| ValueError
| AssertionError
| NotImplementedError
| RuntimeError
| TypeError
| IndexError
| KeyError
| ZeroDivisionError
| AttributeError
| DeprecationWarning
| NotFittedError      (* sklearn.exceptions, a subclass of ValueError and AttributeError *)
| NoneGradError
| UserExn.            (* any exception raised by external code (user loss, inner optimiser) *)

(* Outcome of a Python call. *)
Inductive Result (A : Type) : Type :=
| Ok (a : A)
| Raise (e : exn).
Arguments Ok {A} a.
Arguments Raise {A} e.

Definition bind {A B : Type} (r : Result A) (f : A -> Result B) : Result B :=
  match r with Ok a => f a | Raise e => Raise e end.

Notation "'do' x <- r ; k" := (bind r (fun x => k))
  (at level 200, x pattern, r at level 100, k at level 200, right associativity).

(* Python's [assert b]. *)
Definition assert_ (b : bool) : Result unit :=
  if b then Ok tt else Raise AssertionError.

Definition is_ok {A} (r : Result A) : bool := match r with Ok _ => true | Raise _ => false end.
