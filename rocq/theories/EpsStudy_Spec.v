(* What the search for the multiplier visits: the points, the values read there and how they change. *)
From Coq Require Import Reals.
Local Open Scope R_scope.

(* projected gradient descent of step 1/100 from 0 *)
Fixpoint iterate (grad : nat -> R -> R) (k : nat) : R :=
  match k with O => 0 | S m => Rmax 0 (iterate grad m - grad m (iterate grad m) / 100) end.
(* the value read at the k-th evaluation *)
Definition read (obj grad : nat -> R -> R) (k : nat) : R := obj k (iterate grad k).
(* how much the value changed at the k-th evaluation *)
Definition change (obj grad : nat -> R -> R) (old : R) (k : nat) : R :=
  Rabs (read obj grad k - match k with O => old | S m => read obj grad m end).
(* number of changes below 1e-5 among the evaluations 0, ..., k - 1 *)
Fixpoint small_changes (obj grad : nat -> R -> R) (old : R) (k : nat) : nat :=
  match k with
  | O => O
  | S m => ((if Rlt_dec (change obj grad old m) (/ 100000) then 1 else 0) + small_changes obj grad old m)%nat
  end.


(* what scipy promises about the step it returns with c1 = 0.01: it is positive, the point passes the extra condition, the value is the
   value there, and it is smaller than the old one by the first Wolfe condition *)
Definition honest_search (search : (R -> R) -> (R -> R) -> R -> R -> R -> R -> (R -> bool) -> option (R * option R)) : Prop :=
  forall f f' x d s old ok a v, search f f' x d s old ok = Some (a, v) ->
    0 < a /\ ok (x + a * d) = true /\ v = Some (f (x + a * d)) /\ f (x + a * d) <= old + / 100 * a * (s * d).
