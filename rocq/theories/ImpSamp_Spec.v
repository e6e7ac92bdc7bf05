(* Densities of isotropic Gaussian vectors. *)
From Coq Require Import Reals List.
From Verif Require Import RList.
Import ListNotations.
Local Open Scope R_scope.

Definition gauss (s m x : R) : R := / (s * sqrt (2 * PI)) * exp (- ((x - m) / s) ^ 2 / 2).
Fixpoint gauss_vec (s : R) (m x : list R) : R :=
  match m, x with
  | a :: m', b :: x' => gauss s a b * gauss_vec s m' x'
  | _, _ => 1
  end.
(* density at z of (Gaussian vector of mean m) + delta *)
Definition moved_gauss (s : R) (m delta z : list R) : R := gauss_vec s m (vsub z delta).
