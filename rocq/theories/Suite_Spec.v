(* What the tests are for. *)
From Coq Require Import Reals List.
From Verif Require Import RList.
Import ListNotations.
Local Open Scope R_scope.

(* a linear classifier that gives each point its label, or the opposite of its label *)
Definition all_right (w : vec) (b : R) (data : list (vec * R)) : Prop := Forall (fun xy => 0 < snd xy * (dot w (fst xy) + b)) data.
Definition all_wrong (w : vec) (b : R) (data : list (vec * R)) : Prop := Forall (fun xy => snd xy * (dot w (fst xy) + b) < 0) data.
