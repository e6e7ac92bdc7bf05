(* The newsvendor problem, independently of the solver. *)
From Coq Require Import Reals List.
From Verif Require Import RList.
Import ListNotations.
Local Open Scope R_scope.

(* cost of ordering theta when the demand is x: buy at k, sell at u *)
Definition nv_cost (k u theta x : R) : R := k * theta - u * Rmin theta x.
Definition empirical (k u : R) (samples : list R) (theta : R) : R := rmean (map (nv_cost k u theta) samples).

(* theta is a minimiser of f over the orders theta >= 0 *)
Definition minimises (f : R -> R) (theta : R) : Prop := 0 <= theta /\ forall t, 0 <= t -> f theta <= f t.

(* An adversary moves each observed demand x to random non-negative demands: a law, i.e. a list of (probability, demand).
   The average distance moved is at most rho: these are the finitely supported laws of the Wasserstein-1 ball. *)
Definition law := list (R * R).
Definition law_ok (l : law) : Prop := Forall (fun wx => 0 <= fst wx /\ 0 <= snd wx) l /\ rsum (map fst l) = 1.
Definition expect (f : R -> R) (l : law) : R := rsum (map (fun wx => fst wx * f (snd wx)) l).
Definition plan := list (R * law).
Definition plan_ok (samples : list R) (rho : R) (p : plan) : Prop :=
  map fst p = samples /\ Forall (fun xl => law_ok (snd xl)) p /\
  rmean (map (fun xl => expect (fun y => Rabs (y - fst xl)) (snd xl)) p) <= rho.
Definition plan_cost (k u theta : R) (p : plan) : R := rmean (map (fun xl => expect (nv_cost k u theta) (snd xl)) p).

(* the worst case of theta is at most c *)
Definition worst_le (k u rho : R) (samples : list R) (theta c : R) : Prop :=
  forall p, plan_ok samples rho p -> plan_cost k u theta p <= c.
(* theta minimises the worst case over the orders theta >= 0 *)
Definition robustly_optimal (k u rho : R) (samples : list R) (theta : R) : Prop :=
  0 <= theta /\ forall t c, 0 <= t -> worst_le k u rho samples t c -> worst_le k u rho samples theta c.
