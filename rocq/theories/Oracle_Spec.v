From Coq Require Import Reals List Bool.
From Verif Require Import XReal.
Import ListNotations.
Local Open Scope R_scope.

(* a number that is not negative: >= 0, +inf or not a number *)
Definition not_negative (x : xr) : Prop :=
  match x with Fin r => 0 <= r | PInf => True | NaN => True | MInf => False end.

(* "evaluation mode" / "training mode" of a torch module tree: every training flag has that value *)
Definition in_mode (b : bool) (own : bool) (below : list bool) : Prop := own = b /\ Forall (fun x => x = b) below.
