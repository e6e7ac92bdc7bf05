(* The linearised dual: each sample may be displaced by d, gaining <g, d> at price lam * N(d)^p. *)
From Coq Require Import Reals List.
From Verif Require Import RList.
Import ListNotations.
Local Open Scope R_scope.

(* v is the least upper bound of <g,d> - lam N(d)^p over displacements d of the dimension of g *)
Definition lin_gain (N : vec -> R) (p lam : R) (g : vec) (v : R) : Prop :=
  is_lub (fun x => exists d, length d = length g /\ x = dot g d - lam * ppow (N d) p) v.

(* v is the linearised dual objective lam rho^p + mean of the gains *)
Definition lin_dual (N : vec -> R) (p rho : R) (grads : list vec) (lam v : R) : Prop :=
  exists gains, Forall2 (lin_gain N p lam) grads gains /\ v = lam * Rpower rho p + rmean gains.

Definition nonzero (g : vec) : Prop := exists a, In a g /\ a <> 0.
