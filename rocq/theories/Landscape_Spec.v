(* The robust loss without regularisation as a function of its multiplier, independently of the code. *)
From Coq Require Import Reals List.
From Verif Require Import RList.
Import ListNotations.
Local Open Scope R_scope.

(* sup over the points [z] allowed of f z - lam * cost x z is [s] *)
Definition gains {A} (cost : A -> A -> R) (allowed : A -> A -> Prop) (f : A -> R) (lam : R) (x : A) (r : R) : Prop :=
  exists z, allowed x z /\ r = f z - lam * cost x z.
(* lam * budget + mean of the suprema = v *)
Definition dual_at {A} (cost : A -> A -> R) (allowed : A -> A -> Prop) (data : list A) (f : A -> R) (budget lam v : R) : Prop :=
  exists ss, Forall2 (fun x s => is_lub (gains cost allowed f lam x) s) data ss /\ v = lam * budget + rmean ss.
(* one of the suprema is infinite *)
Definition dual_infinite {A} (cost : A -> A -> R) (allowed : A -> A -> Prop) (data : list A) (f : A -> R) (lam : R) : Prop :=
  exists x, In x data /\ ~ bound (gains cost allowed f lam x).

(* features move, labels stay *)
Definition same_label (d : nat) (u v : vec * R) : Prop := length (fst v) = d /\ snd v = snd u.
Definition feature_dist (u v : vec * R) : R := norm2 (vsub (fst v) (fst u)).
Definition feature_dist2 (u v : vec * R) : R := norm2 (vsub (fst v) (fst u)) * norm2 (vsub (fst v) (fst u)).

(* labelled points of dimension [d]; labels at most one in size (the loss is written for -1 and 1; the script passes 0 and 1) *)
Definition points (d : nat) (data : list (vec * R)) : Prop :=
  data <> [] /\ Forall (fun xy => length (fst xy) = d /\ Rabs (snd xy) <= 1) data.
(* slope of the loss at a sample, in the score *)
Definition slope (w : vec) (b : R) (xy : vec * R) : R := snd xy * / (1 + exp (snd xy * (dot w (fst xy) + b))).
