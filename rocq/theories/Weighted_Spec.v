(* Specification side for importance-weighted samples. *)
From Coq Require Import Reals List.
From Verif Require Import RList.
Import ListNotations.
Local Open Scope R_scope.

(* the ratio of two variances: that of the tilted law exp (- lam |z - x|^2 / eps) and that of the Gaussian the samples come from *)
Definition tilt (eps lam s : R) : R := eps / (2 * lam * (s * s)).
(* an affine loss *)
Definition affine (g : vec) (b : R) (z : vec) : R := dot g z + b.
(* the squared Euclidean cost *)
Definition sqdist (x z : vec) : R := sqnorm (vsub x z).
(* the largest value, over all points z with k coordinates, of the loss minus lam times the squared distance to x *)
Definition worst_value (lam : R) (L : vec -> R) (k : nat) (x : vec) (v : R) : Prop :=
  (forall z, List.length z = k -> L z - lam * sqdist x z <= v) /\ exists z, List.length z = k /\ L z - lam * sqdist x z = v.
