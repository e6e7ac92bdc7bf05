(* Specification side for the robust loss. An adversary gives weights to the n samples of each data point. *)
From Coq Require Import Reals List.
From Verif Require Import RList LogMeanExp Dual_Model.
Import ListNotations.
Local Open Scope R_scope.

Section Spec.
Variable P : Type.

(* m >= 1 data points with n >= 1 samples each *)
Definition batch_ok (n : nat) (rows : list (row P)) : Prop :=
  (0 < n)%nat /\ rows <> [] /\ Forall (fun r => length (r_zeta r) = n) rows.

Definition adversary (n : nat) (A : list (list R)) (rows : list (row P)) : Prop :=
  length A = length rows /\ Forall (weights n) A.

(* average of f(data point, sample) under the adversary *)
Definition adv_mean (f : P -> P -> R) (A : list (list R)) (rows : list (row P)) : R :=
  rmean (map2 (fun q r => rsum (map2 (fun w z => w * f (r_xi r) z) q (r_zeta r))) A rows).
(* average relative entropy to uniform weights *)
Definition adv_entropy (A : list (list R)) : R := rmean (map entropy A).
End Spec.

Arguments batch_ok {P} _ _. Arguments adversary {P} _ _ _. Arguments adv_mean {P} _ _ _.
