(* What the tuning of the radius is for, stated without the model. *)
From Coq Require Import Reals List.
From Verif Require Import RList.
Import ListNotations.
Local Open Scope R_scope.

(* the mean-risk loss of a portfolio theta with threshold tau on the returns x *)
Definition mean_risk (eta alpha : R) (theta : vec) (tau : R) (x : vec) : R :=
  - dot theta x + eta * (tau + / alpha * Rmax (- dot theta x - tau) 0).
(* g is the gradient in (theta, tau): the derivative along every direction (v, w) *)
Definition is_gradient (f : vec -> R -> R) (theta : vec) (tau : R) (g : vec) : Prop :=
  length g = S (length theta) /\
  forall v w, length v = length theta -> derivable_pt_lim (fun t => f (vadd theta (vscal t v)) (tau + t * w)) 0 (dot g (v ++ [w])).

(* v is the largest value of f *)
Definition is_max {A} (dom : A -> Prop) (f : A -> R) (v : R) : Prop :=
  (exists a, dom a /\ f a = v) /\ forall a, dom a -> f a <= v.
(* f has no upper bound *)
Definition unbounded {A} (dom : A -> Prop) (f : A -> R) : Prop := forall M, exists a, dom a /\ M < f a.

(* The function conjugated by Blanchet, Murthy and Si for a squared Euclidean cost: a quarter of the mean square of the
   derivatives along a; hs are the derivatives at the samples *)
Definition blanchet_phi_1 (hs : list R) (a : R) : R := / 4 * rmean (map (fun h => (h * a) * (h * a)) hs).
Definition hess_apply (H : list vec) (a : vec) : vec := map (fun r => dot r a) H.
Definition blanchet_phi (Hs : list (list vec)) (a : vec) : R := / 4 * rmean (map (fun H => sqnorm (hess_apply H a)) Hs).

(* P is the Moore-Penrose inverse of A, both m x m by rows *)
Definition mat_apply (A : list vec) (x : vec) : vec := map (fun r => dot r x) A.
Definition moore_penrose (m : nat) (A P : list vec) : Prop :=
  length P = m /\ Forall (fun r => length r = m) P /\
  (forall x, length x = m -> mat_apply A (mat_apply P (mat_apply A x)) = mat_apply A x) /\
  (forall x, length x = m -> mat_apply P (mat_apply A (mat_apply P x)) = mat_apply P x) /\
  (forall x y, length x = m -> length y = m -> dot x (mat_apply A (mat_apply P y)) = dot (mat_apply A (mat_apply P x)) y) /\
  (forall x y, length x = m -> length y = m -> dot x (mat_apply P (mat_apply A y)) = dot (mat_apply P (mat_apply A x)) y).

(* how many members of l have the property P (a relation, so that classical predicates are allowed) *)
Inductive counted {A} (P : A -> Prop) : list A -> nat -> Prop :=
| counted_nil : counted P [] 0
| counted_in x l n : P x -> counted P l n -> counted P (x :: l) (S n)
| counted_out x l n : ~ P x -> counted P l n -> counted P (x :: l) n.

(* the total sensitivity of the mean-risk loss to the returns: 1, plus eta/alpha when the sample is in the tail *)
Definition tail_weight (eta alpha tau : R) (theta x : vec) : R :=
  1 + if Rlt_dec (dot theta x + tau) 0 then eta / alpha else 0.
