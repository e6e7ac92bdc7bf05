(* The linearised dual with labels: each sample and its label may be displaced by (d, dl), gaining <g, d> + <gl, dl> at price
   lam * N(d, dl)^p. *)
From Coq Require Import Reals List.
From Verif Require Import RList.
Import ListNotations.
Local Open Scope R_scope.

Definition lin_gain_labelled (N : vec -> vec -> R) (p lam : R) (g : vec * vec) (v : R) : Prop :=
  is_lub (fun x => exists d dl, length d = length (fst g) /\ length dl = length (snd g) /\ x = dot (fst g) d + dot (snd g) dl - lam * ppow (N d dl) p) v.
Definition lin_dual_labelled (N : vec -> vec -> R) (p rho : R) (grads : list (vec * vec)) (lam v : R) : Prop :=
  exists gains, Forall2 (lin_gain_labelled N p lam) grads gains /\ v = lam * Rpower rho p + rmean gains.

(* the distance of the labelled cost for 0 < k < infinity *)
Definition label_dist (k : R) (d dl : vec) : R := (norm2 d + k * norm2 dl) / (1 + k).
