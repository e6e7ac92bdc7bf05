(* Wasserstein balls around data, independently of the code: an adversary replaces each data point by a finitely supported
   random point. Used for the dedicated convex programmes. *)
From Coq Require Import Reals List.
From Verif Require Import RList.
Import ListNotations.
Local Open Scope R_scope.

Section Plans.
Context {A : Type}.
Variable cost : A -> A -> R.            (* price of moving a data point to a point *)
Variable allowed : A -> A -> Prop.      (* points a data point may be moved to *)

Definition tlaw := list (R * A).
Definition tlaw_ok (x : A) (l : tlaw) : Prop :=
  Forall (fun wa => 0 <= fst wa /\ allowed x (snd wa)) l /\ rsum (map fst l) = 1.
Definition texpect (f : A -> R) (l : tlaw) : R := rsum (map (fun wa => fst wa * f (snd wa)) l).
Definition tplan := list (A * tlaw).
Definition tplan_cost (p : tplan) : R := rmean (map (fun xl => texpect (cost (fst xl)) (snd xl)) p).
(* a plan for the data, of average price at most budget *)
Definition tplan_ok (samples : list A) (budget : R) (p : tplan) : Prop :=
  map fst p = samples /\ Forall (fun xl => tlaw_ok (fst xl) (snd xl)) p /\ tplan_cost p <= budget.
(* expected value of f after the plan *)
Definition tplan_value (f : A -> R) (p : tplan) : R := rmean (map (fun xl => texpect f (snd xl)) p).
(* the worst case of f is at most c *)
Definition tworst_le (samples : list A) (budget : R) (f : A -> R) (c : R) : Prop :=
  forall p, tplan_ok samples budget p -> tplan_value f p <= c.
End Plans.
