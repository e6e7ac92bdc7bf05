(* Specification side for random samples: expectations as positive linear functionals, the rows of the objective when the samples are
   drawn, and the objective with exact integrals instead of averages over samples. *)
From Coq Require Import Reals List.
From Verif Require Import RList Dual_Model.
Import ListNotations.
Local Open Scope R_scope.

(* E is an expectation on the functions of the class I: a vector space with the constants, linear, monotone, E 1 = 1. Integration
   against any probability law is one, with I the integrable functions. *)
Record expectation {X} (I : (X -> R) -> Prop) (E : (X -> R) -> R) : Prop := {
  e_const : forall c, I (fun _ => c) /\ E (fun _ => c) = c;
  e_add : forall f g, I f -> I g -> I (fun x => f x + g x) /\ E (fun x => f x + g x) = E f + E g;
  e_scal : forall c f, I f -> I (fun x => c * f x) /\ E (fun x => c * f x) = c * E f;
  e_mono : forall f g, I f -> I g -> (forall x, f x <= g x) -> E f <= E g;
  e_ext : forall f g, (forall x, f x = g x) -> I f -> I g }.

Section Drawn.
Variable P X : Type.
(* the data (with the centres of the sampler) and the random draws: draw w j i is the i-th sample of data point j *)
Variable data : list (P * P).
Variable dflt : P.
Variable draw : X -> nat -> nat -> P.
Definition point (j : nat) : P := snd (nth j data (dflt, dflt)).
(* data points with their samples of the indices in [is] *)
Definition drawn_rows (is : list nat) (w : X) : list (row P) :=
  map (fun j => {| r_mean := fst (nth j data (dflt, dflt)); r_xi := point j; r_zeta := map (draw w j) is |}) (seq 0 (length data)).
End Drawn.

(* lam rho^p + mean_j  eps log m_j : the soft robust objective when m_j is the integral of exp ((L - lam c(x_j, .)) / eps) *)
Definition exact_objective (rho lam eps p : R) (n : nat) (m : nat -> R) : R :=
  lam * Rpower rho p + rmean (map (fun j => eps * ln (m j)) (seq 0 n)).

(* the indices below n+1 but k *)
Definition without (k n : nat) : list nat := seq 0 k ++ seq (S k) (n - k).
