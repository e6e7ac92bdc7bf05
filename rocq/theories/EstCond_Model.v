(* Model of who holds which stopping condition: the opt_cond argument of the estimators (NewsVendor, Portfolio, Weber,
   LinearRegression, LogisticRegression) and its use by fit with the robust solvers. Conditions are mutable objects; a fit
   evaluates its condition on the observations of its own run, until it says stop or raises. *)
From Coq Require Import Reals List Bool String ZArith Arith.
From Verif Require Import PyBase XReal OptCond_Model.
Import ListNotations.

(* OptCondTorch(2), the default argument of _weber.py:72, _portfolio.py:99-101, _newsvendor.py:90, _linear_regression.py:105 and
   the value used when opt_cond is None (_weber.py:129, _portfolio.py:217, _newsvendor.py:156, _linear_regression.py:179,
   _logistic_regression.py:265); defaults of optim_cond.py:81-92 *)
Definition default_order : order := OrdInt 2.
Definition default_cond : Result oc := oc_init default_order (Fin (/ 100000000)) (Fin (/ 100000000)) None "theta" "rel" "grad".
(* DEFAULT_OCOND = OptCondTorch(2, 1e-4, 0.), _logistic_regression.py:97 *)
Definition logistic_order : order := OrdInt 2.
Definition logistic_cond : Result oc := oc_init logistic_order (Fin (/ 10000)) (Fin 0) None "theta" "rel" "grad".

(* the condition objects by address, the next free address, and the attribute opt_cond of each estimator *)
Record world := { conds : nat -> oc; next : nat; opt_cond : nat -> option nat }.

Section World.
(* pt.linalg.norm(., order) *)
Variable vnorm : list xr -> xr.

(* number of evaluations made: up to the first that is not "go on" *)
Fixpoint made (l : list (Result bool)) : nat :=
  match l with [] => 0 | Ok false :: r => S (made r) | _ :: _ => 1 end.
(* the answers a run obtains from its condition *)
Definition answers (c : oc) (hs : list (obs * Z)) : list (Result bool) := firstn (made (evals vnorm c hs)) (evals vnorm c hs).
Definition cond_after (c : oc) (hs : list (obs * Z)) : oc := oc_after vnorm c (firstn (made (evals vnorm c hs)) hs).

Definition upd {A} (f : nat -> A) (k : nat) (v : A) : nat -> A := fun i => if i =? k then v else f i.
(* if self.opt_cond is None: self.opt_cond = OptCondTorch(2) *)
Definition ensure_cond (w : world) (e : nat) : Result (world * nat) :=
  match opt_cond w e with
  | Some l => Ok (w, l)
  | None => do c <- default_cond;
            Ok ({| conds := upd (conds w) (next w) c; next := S (next w); opt_cond := upd (opt_cond w) e (Some (next w)) |}, next w)
  end.
(* fit of estimator e on a run that would show the observations hs *)
Definition fit (w : world) (e : nat) (hs : list (obs * Z)) : world * list (Result bool) :=
  match ensure_cond w e with
  | Raise x => (w, [Raise x])
  | Ok (w', l) =>
      ({| conds := upd (conds w') l (cond_after (conds w' l) hs); next := next w'; opt_cond := opt_cond w' |}, answers (conds w' l) hs)
  end.
(* a program: fits of estimators, with the answers each obtained *)
Fixpoint program (w : world) (evs : list (nat * list (obs * Z))) : list (nat * list (Result bool)) :=
  match evs with [] => [] | (e, hs) :: r => let '(w', a) := fit w e hs in (e, a) :: program w' r end.
End World.
