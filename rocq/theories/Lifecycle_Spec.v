(* Reading the state of an estimator, independently of the code that changes it. *)
From Coq Require Import Reals List Bool ZArith String.
From Verif Require Import PyBase Tuner_Model Lifecycle_Model.
Import ListNotations.
Local Open Scope string_scope.

(* the section "Attributes" of the docstrings: _newsvendor.py:63-66, _weber.py:43-46, _linear_regression.py:67-72,
   _logistic_regression.py:71-76; Portfolio documents none *)
Definition documented (e : estimator) : list string :=
  match e with
  | ENewsVendor => ["coef_"]
  | EPortfolio => []
  | EWeber => ["position_"]
  | ELinear | ELogistic => ["coef_"; "intercept_"]
  end.
Definition defined (s : attrs) (a : string) : Prop := exists v, look s a = Some v.
(* made by the n-th call of fit *)
Definition made_by (n : nat) (v : pyv) : Prop := exists k, v = PObj k n.
(* a state in which every parameter of the constructor is defined and nothing else: never fitted *)
Definition unfitted (e : estimator) (s : attrs) : Prop := forall a, defined s a <-> In a (signature e).
(* the numerical value of a parameter: 1, 1.0 and True are the same number *)
Definition same_number (v w : pyv) : Prop := exists x, number v = Ok x /\ number w = Ok x.
