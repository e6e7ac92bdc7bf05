(* Specification side for transport costs. *)
From Coq Require Import Reals List.
From Verif Require Import RList Costs_Model.
Import ListNotations.
Local Open Scope R_scope.

(* exponents for which pt.norm is a norm *)
Definition valid_exp (p : nexp) : Prop := match p with PFin q => 1 <= q | PInfty => True end.

(* A transport cost on vectors of a common length, homogeneous of degree [power]. *)
Record transport_cost (power : R) (c : vec -> vec -> R) : Prop := {
  tc_nonneg : forall x z, length x = length z -> 0 <= c x z;
  tc_zero : forall x z, length x = length z -> (c x z = 0 <-> x = z);
  tc_sym : forall x z, length x = length z -> c x z = c z x;
  tc_translation : forall x z t, length x = length z -> length t = length x ->
      c (map2 Rplus x t) (map2 Rplus z t) = c x z;
  tc_scaling : forall x z t, length x = length z -> t <> 0 ->
      c (map (Rmult t) x) (map (Rmult t) z) = Rpower (Rabs t) power * c x z }.

Definition triangle (c : vec -> vec -> R) : Prop :=
  forall x y z, length x = length y -> length y = length z -> c x z <= c x y + c y z.

(* [z] is the unique maximiser of f among vectors of length n *)
Definition unique_argmax (n : nat) (f : vec -> R) (z : vec) : Prop :=
  length z = n /\ forall w, length w = n -> f w <= f z /\ (f w = f z -> w = z).

(* f tends to l at +infinity / at 0 from the right *)
Definition tends_at_infinity (f : R -> R) (l : R) : Prop :=
  forall eps, 0 < eps -> exists K, 0 < K /\ forall k, K <= k -> Rabs (f k - l) < eps.
Definition tends_at_zero (f : R -> R) (l : R) : Prop :=
  forall eps, 0 < eps -> exists d, 0 < d /\ forall k, 0 < k < d -> Rabs (f k - l) < eps.
