(* Model of the tags of LogisticRegression and of the table of estimators that the test-suite hands to scikit-learn's check_estimator. *)
From Coq Require Import List Bool Arith String.
From Verif Require Import PyBase Tuner_Model Lifecycle_Model.
Import ListNotations.
Local Open Scope string_scope.

(* LogisticRegression._more_tags, linear_models/_logistic_regression.py:429-433 *)
Definition more_tags : list (string * bool) := [("poor_score", true); ("binary_only", true)].
Definition tag (t : string) : bool := match find (fun p => String.eqb (fst p) t) more_tags with Some (_, b) => b | None => false end.

(* s.endswith(e) *)
Definition ends_with (e s : string) : bool :=
  Nat.leb (String.length e) (String.length s) && String.eqb (substring (String.length s - String.length e) (String.length e) s) e.
(* dict_wdro_estimators, tests/test_common.py:10-29: name, class and solver (Portfolio is given none: its default, _portfolio.py:92); the cost of Portfolio and NewsVendor is left out *)
Definition table : list (string * (estimator * string)) :=
  [("Logistic (entropic presampled)", (ELogistic, "entropic_torch_pre")); ("Logistic", (ELogistic, "dedicated"));
   ("LinearReg", (ELinear, "dedicated")); ("LinearReg (entropic presampled)", (ELinear, "entropic_torch_pre"));
   ("Weber (entropic presampled)", (EWeber, "entropic_torch_pre")); ("Portfolio", (EPortfolio, "dedicated"));
   ("NewsVendor", (ENewsVendor, "dedicated")); ("NewsVendor (entropic presampled)", (ENewsVendor, "entropic_torch_pre"))].
(* test_all_estimators, :36-48: XFail before the estimator is looked up (pytest.xfail raises), or the outcome of check_estimator *)
Inductive outcome := XFail | Checked (e : estimator) (solver : string) (r : Result unit).
Definition test_all (check : estimator -> string -> Result unit) (name : string) : Result outcome :=
  if String.eqb name "Weber (entropic presampled)" then Ok XFail else
  if ends_with "(entropic presampled)" name then Ok XFail else
  match find (fun p => String.eqb (fst p) name) table with
  | Some (_, (e, s)) => Ok (Checked e s (check e s))
  | None => Raise KeyError
  end.
