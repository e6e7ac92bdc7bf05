(* Model of the estimators as Python objects: which attributes the constructor, set_params, fit, predict and eval write and read, and
   in which order. Numbers computed by fit are replaced by objects that carry the number of the call that made them. *)
From Coq Require Import Reals List Bool ZArith Arith String.
From Verif Require Import PyBase RList XReal Estim_Model Tuner_Model.
Import ListNotations.
Local Open Scope string_scope.

(* ---------- values and attributes ---------- *)
(* PObj c n: an object of kind c made by the n-th call of fit (arrays, fitted encoders, stopping conditions, losses) *)
Inductive pyv := PFloat (r : R) | PInt (z : Z) | PStr (s : string) | PNone | PBool (b : bool) | PObj (kind : string) (call : nat).
Definition attrs := list (string * pyv).
Fixpoint look (s : attrs) (a : string) : option pyv :=
  match s with [] => None | (b, v) :: r => if String.eqb b a then Some v else look r a end.
Fixpoint store (s : attrs) (a : string) (v : pyv) : attrs :=
  match s with [] => [(a, v)] | (b, w) :: r => if String.eqb b a then (b, v) :: r else (b, w) :: store r a v end.

(* a computation on the object: it may raise, and keeps what was assigned before *)
Definition M (A : Type) := attrs -> attrs * Result A.
Definition ret {A} (x : A) : M A := fun s => (s, Ok x).
Definition bnd {A B} (m : M A) (k : A -> M B) : M B := fun s => match m s with (s', Ok x) => k x s' | (s', Raise e) => (s', Raise e) end.
Notation "'let*' x := m 'in' k" := (bnd m (fun x => k)) (at level 200, x pattern, m at level 100, k at level 200).
Definition fail {A} (e : exn) : M A := fun s => (s, Raise e).
Definition lift {A} (r : Result A) : M A := fun s => (s, r).
(* self.a, self.a = v, hasattr(self, a) *)
Definition get (a : string) : M pyv := fun s => (s, match look s a with Some v => Ok v | None => Raise AttributeError end).
Definition set (a : string) (v : pyv) : M unit := fun s => (store s a v, Ok tt).
Definition has (a : string) : M bool := fun s => (s, Ok (match look s a with Some _ => true | None => false end)).
Fixpoint get_all (l : list string) : M unit := match l with [] => ret tt | a :: r => let* _ := get a in get_all r end.

Section Objects.
(* float(s) for a string *)
Variable read_float : string -> option R.

(* float(v): ValueError for a string that is not a number, TypeError for what has no __float__ (arrays of one number, which have one,
   are not modelled) *)
Definition to_float (v : pyv) : Result R :=
  match v with
  | PFloat r => Ok r
  | PInt z => Ok (IZR z)
  | PBool b => Ok (if b then 1%R else 0%R)
  | PStr s => match read_float s with Some r => Ok r | None => Raise ValueError end
  | PNone | PObj _ _ => Raise TypeError
  end.
(* v < 0 and the like: strings, None and other objects cannot be compared with a number *)
Definition number (v : pyv) : Result R :=
  match v with PFloat r => Ok r | PInt z => Ok (IZR z) | PBool b => Ok (if b then 1%R else 0%R) | _ => Raise TypeError end.

(* ---------- constructors ---------- *)
(* the parameters of __init__: _newsvendor.py:77-91, _portfolio.py:83-102, _weber.py:59-73, _linear_regression.py:93-106,
   _logistic_regression.py:99-112 *)
Definition signature (e : estimator) : list string :=
  match e with
  | ENewsVendor => ["rho"; "k"; "u"; "cost"; "l2_reg"; "solver_reg"; "learning_rate"; "n_zeta_samples"; "solver"; "random_state"; "n_iter"; "opt_cond"]
  | EPortfolio => ["rho"; "eta"; "alpha"; "C"; "d"; "fit_intercept"; "cost"; "solver"; "solver_reg"; "reparam"; "learning_rate"; "n_zeta_samples"; "random_state"; "n_iter"; "opt_cond"]
  | EWeber => ["rho"; "kappa"; "solver_reg"; "sampler_reg"; "learning_rate"; "l2_reg"; "n_zeta_samples"; "cost"; "solver"; "random_state"; "n_iter"; "opt_cond"]
  | ELinear | ELogistic => ["rho"; "l2_reg"; "fit_intercept"; "cost"; "solver"; "solver_reg"; "sampler_reg"; "learning_rate"; "n_zeta_samples"; "random_state"; "n_iter"; "opt_cond"]
  end.
(* the tests at the start: rho < 0 in all, and _portfolio.py:105-121 *)
Definition refuse (b : bool) : Result unit := if b then Raise ValueError else Ok tt.
Definition init_checks (e : estimator) (args : string -> pyv) : Result unit :=
  do rho <- number (args "rho"); do _ <- refuse (Rltb rho 0);
  match e with
  | EPortfolio =>
      do eta <- number (args "eta"); do _ <- refuse (Rltb eta 0);
      do alpha <- number (args "alpha"); do _ <- refuse (Rleb alpha 0 || Rltb 1 alpha);
      do reg <- number (args "solver_reg"); do _ <- refuse (Rltb reg 0);
      do n <- number (args "n_zeta_samples"); refuse (Rltb n 0)
  | _ => Ok tt
  end.
(* self.name = name, in the order of the code (Tuner_Model.init_attrs) *)
Definition init (e : estimator) (args : string -> pyv) : Result attrs :=
  do _ <- init_checks e args; Ok (fold_left (fun s a => store s a (args a)) (init_attrs e) []).

(* BaseEstimator.get_params and set_params (sklearn): the names of the signature only; sklearn.base.clone builds a new object from
   get_params (deep copies of the values, which are not told apart here) *)
Definition get_param (e : estimator) (a : string) : M pyv := if existsb (String.eqb a) (signature e) then get a else fail KeyError.
Definition set_param (e : estimator) (a : string) (v : pyv) : M unit :=
  if existsb (String.eqb a) (signature e) then set a v else fail ValueError.
Definition clone (e : estimator) (s : attrs) : Result attrs :=
  init e (fun a => match look s a with Some v => v | None => PNone end).

(* ---------- fit ---------- *)
(* what the outside contributes to a call: its number; the outcome of check_array or check_X_y, of cost_from_str, of the test on the
   columns of C, of dualize_primal_loss, of the solver; the number of classes in y; whether the dedicated newsvendor's theta is 0 *)
Record env := { v_call : nat; v_data : Result unit; v_cost : pyv -> Result unit; v_columns : Result unit; v_dual : Result unit; v_solve : Result unit;
                v_classes : nat; v_zero : bool }.

(* float(self.rho) with any failure turned into a TypeError: _newsvendor.py:129-136, _portfolio.py:154-160, _weber.py:110-116,
   _linear_regression.py:146-152, _logistic_regression.py:158-167 (the last only if rho is not already a float, to the same effect) *)
Definition fit_rho : M unit :=
  let* v := get "rho" in
  match to_float v with Ok r => set "rho" (PFloat r) | Raise _ => fail TypeError end.
(* self.x_ = float(self.x), _portfolio.py:163-165 *)
Definition fit_float (a b : string) : M unit := let* v := get b in let* r := lift (to_float v) in set a (PFloat r).
(* self.cost_ = cost_from_str(self.cost) *)
Definition fit_cost (x : env) : M unit := let* c := get "cost" in let* _ := lift (v_cost x c) in set "cost_" (PObj "cost" (v_call x)).
(* v is None *)
Definition is_none (v : pyv) : bool := match v with PNone => true | _ => false end.
(* if self.opt_cond is None: self.opt_cond = OptCondTorch(2) *)
Definition fit_cond (x : env) : M unit :=
  let* c := get "opt_cond" in if is_none c then set "opt_cond" (PObj "condition" (v_call x)) else ret tt.
(* self.solver == name; name in self.solver, a TypeError if it is not a string *)
Definition solver_is (name : string) : M bool := let* v := get "solver" in ret (match v with PStr s => String.eqb s name | _ => false end).
Definition in_solver (name : string) : M bool :=
  let* v := get "solver" in match v with PStr s => ret (contains name s) | _ => fail TypeError end.
(* the four results of solve_dual_wdro, then the parameters of the loss *)
Definition fit_results (x : env) : M unit :=
  let* _ := lift (v_solve x) in
  let* _ := set "coef_" (PObj "result" (v_call x)) in let* _ := set "intercept_" (PObj "result" (v_call x)) in
  let* _ := set "dual_var_" (PObj "result" (v_call x)) in let* _ := set "robust_loss_" (PObj "result" (v_call x)) in
  set "coef_" (PObj "parameters" (v_call x)).
Definition fitted_ok : M unit := set "is_fitted_" (PBool true).

(* the dedicated newsvendor's multiplier: 0 or u *)
Definition nv_dual_var (x : env) : M unit := if v_zero x then set "dual_var_" (PFloat 0) else let* u := get "u" in set "dual_var_" u.
(* _newsvendor.py:110-199 *)
Definition nv_fit (x : env) : M unit :=
  let* _ := lift (v_data x) in
  let* _ := fit_rho in
  let* _ := set "n_features_in_" (PObj "data" (v_call x)) in
  let* _ := fit_cost x in
  let* b := solver_is "entropic" in if b then fail DeprecationWarning else
  let* t := in_solver "torch" in
  if t then
    let* _ := fit_cond x in
    let* _ := get_all ["k"; "u"; "rho"; "solver"; "cost"; "n_zeta_samples"; "random_state"; "solver_reg"; "learning_rate"; "n_iter"] in
    let* _ := lift (v_dual x) in
    let* _ := set "_wdro_loss" (PObj "loss" (v_call x)) in
    let* _ := fit_results x in
    fitted_ok
  else
    let* d := solver_is "dedicated" in
    if d then
      let* _ := get_all ["k"; "u"; "rho"] in
      let* _ := lift (v_solve x) in
      let* _ := set "coef_" (PObj "result" (v_call x)) in
      let* _ := set "dual_var_" (PObj "result" (v_call x)) in
      let* _ := nv_dual_var x in
      fitted_ok
    else fail NotImplementedError.

(* if self.C is None or self.d is None: zeros, otherwise the given arrays *)
Definition pf_constraints (x : env) : M unit :=
  let* c := get "C" in let* d := get "d" in
  let z := PObj "zeros" (v_call x) in
  let* _ := set "C_" (if is_none c || is_none d then z else c) in set "d_" (if is_none c || is_none d then z else d).
(* _portfolio.py:138-257 *)
Definition pf_fit (x : env) : M unit :=
  let* _ := lift (v_data x) in
  let* _ := fit_rho in
  let* _ := fit_float "rho_" "rho" in let* _ := fit_float "eta_" "eta" in
  let* _ := fit_float "alpha_" "alpha" in let* _ := fit_float "solver_reg_" "solver_reg" in
  let* _ := set "X_" (PObj "data" (v_call x)) in
  let* _ := set "n_features_in_" (PObj "data" (v_call x)) in
  let* _ := fit_cost x in
  let* _ := pf_constraints x in
  let* _ := lift (v_columns x) in
  let* b := solver_is "entropic" in if b then fail DeprecationWarning else
  let* d := solver_is "dedicated" in
  if d then
    let* _ := get_all ["C_"; "d_"; "n_features_in_"; "eta"; "alpha"; "rho"] in
    let* _ := lift (v_solve x) in
    let* _ := set "coef_" (PObj "result" (v_call x)) in let* _ := set "tau_" (PObj "result" (v_call x)) in
    let* _ := set "dual_var_" (PObj "result" (v_call x)) in let* _ := set "result_" (PObj "result" (v_call x)) in
    fitted_ok
  else
    let* t := in_solver "torch" in
    if t then
      let* _ := fit_cond x in
      let* _ := get_all ["eta_"; "alpha_"; "rho_"; "solver"; "cost"; "n_zeta_samples"; "random_state"; "learning_rate"; "solver_reg_"; "n_iter"] in
      let* _ := lift (v_dual x) in
      let* _ := set "_wdro_loss" (PObj "loss" (v_call x)) in
      let* _ := fit_results x in
      fitted_ok
    else fail NotImplementedError.

(* _weber.py:92-167 *)
Definition wb_fit (x : env) : M unit :=
  let* _ := lift (v_data x) in
  let* _ := fit_rho in
  let* b := solver_is "entropic" in if b then fail DeprecationWarning else
  let* t := in_solver "torch" in
  if t then
    let* _ := fit_cond x in
    let* _ := get_all ["solver"; "rho"; "cost"; "n_zeta_samples"; "random_state"; "learning_rate"; "solver_reg"; "sampler_reg"; "n_iter"; "l2_reg"] in
    let* _ := lift (v_dual x) in
    let* _ := set "_wdro_loss" (PObj "loss" (v_call x)) in
    let* _ := fit_results x in
    fitted_ok
  else fail NotImplementedError.

(* _linear_regression.py:125-223: here the robust loss is a local variable *)
Definition lr_fit (x : env) : M unit :=
  let* _ := lift (v_data x) in
  let* _ := fit_rho in
  let* _ := set "X_" (PObj "data" (v_call x)) in let* _ := set "y_" (PObj "data" (v_call x)) in
  let* _ := set "n_features_in_" (PObj "data" (v_call x)) in
  let* _ := fit_cost x in
  let* b := solver_is "entropic" in if b then fail DeprecationWarning else
  let* t := in_solver "torch" in
  if t then
    let* _ := fit_cond x in
    let* _ := get_all ["solver"; "rho"; "cost"; "n_zeta_samples"; "random_state"; "learning_rate"; "sampler_reg"; "solver_reg"; "n_iter"; "l2_reg"] in
    let* _ := lift (v_dual x) in
    let* _ := fit_results x in
    let* _ := set "intercept_" (PObj "parameters" (v_call x)) in
    fitted_ok
  else
    let* d := solver_is "dedicated" in
    if d then
      let* _ := get_all ["rho"; "fit_intercept"] in
      let* _ := lift (v_solve x) in
      let* _ := set "coef_" (PObj "result" (v_call x)) in let* _ := set "intercept_" (PObj "result" (v_call x)) in
      let* _ := set "dual_var_" (PObj "result" (v_call x)) in
      fitted_ok
    else fail NotImplementedError.

(* if self.fit_intercept: truth value *)
Definition truthy (v : pyv) : bool :=
  match v with PFloat r => negb (Reqb r 0) | PInt z => negb (Z.eqb z 0) | PStr s => negb (String.eqb s "") | PNone => false | PBool b => b | PObj _ _ => true end.
(* the encoder of the labels, by the number of classes *)
Definition lg_encoder (x : env) : M unit :=
  if (v_classes x <? 2)%nat then fail ValueError
  else set "le_" (PObj (if (v_classes x =? 2)%nat then "LabelEncoder" else "OneHotEncoder") (v_call x)).
(* _logistic_regression.py:136-338; check_X_y makes y one-dimensional, so that :169-172 does nothing *)
Definition lg_fit (x : env) : M unit :=
  let* _ := lift (v_data x) in
  let* _ := fit_rho in
  let* _ := set "classes_" (PObj "labels" (v_call x)) in
  let* _ := lg_encoder x in
  let* _ := set "X_" (PObj "data" (v_call x)) in let* _ := set "y_" (PObj "data" (v_call x)) in
  let* _ := set "n_features_in_" (PObj "data" (v_call x)) in
  let* _ := fit_cost x in
  let* b := solver_is "entropic" in if b then fail DeprecationWarning else
  let* d := solver_is "dedicated" in
  if d then
    if (2 <? v_classes x)%nat then fail NotImplementedError else
    let* _ := get_all ["rho"; "fit_intercept"] in
    let* _ := lift (v_solve x) in
    let* _ := set "coef_" (PObj "result" (v_call x)) in let* _ := set "intercept_" (PObj "result" (v_call x)) in
    let* _ := set "dual_var_" (PObj "result" (v_call x)) in let* _ := set "result_" (PObj "result" (v_call x)) in
    fitted_ok
  else
    let* t := in_solver "torch" in
    if t then
      let* _ := fit_cond x in
      let* _ := get_all ["n_features_in_"; "fit_intercept"; "rho"; "cost"; "n_zeta_samples"; "random_state"; "learning_rate"; "n_iter"; "sampler_reg"; "solver_reg"; "l2_reg"] in
      let* _ := lift (v_dual x) in
      let* _ := set "wdro_loss_" (PObj "loss" (v_call x)) in
      let* _ := fit_results x in
      let* i := get "fit_intercept" in
      let* _ := set "intercept_" (if truthy i then PObj "parameters" (v_call x) else PNone) in
      fitted_ok
    else fail NotImplementedError.

Definition fit (e : estimator) (x : env) : M unit :=
  match e with ENewsVendor => nv_fit x | EPortfolio => pf_fit x | EWeber => wb_fit x | ELinear => lr_fit x | ELogistic => lg_fit x end.

(* ---------- after fit ---------- *)
(* the fitted attributes an answer was computed from, in the order they are read; [data] is the outcome of check_array *)
Definition used := list (string * pyv).
Definition reading (l : list string) : M used :=
  fold_right (fun a k => let* v := get a in let* u := k in ret ((a, v) :: u)) (ret []) l.
(* check_is_fitted(self, ['X_', 'y_']): all of them (sklearn) *)
Definition check_is_fitted (l : list string) : M unit :=
  fun s => (s, if forallb (fun a => match look s a with Some _ => true | None => false end) l then Ok tt else Raise NotFittedError).

(* LinearRegression.predict, _linear_regression.py:225-244 *)
Definition lr_predict_attrs (data : Result unit) : M used :=
  let* _ := check_is_fitted ["X_"; "y_"] in let* _ := lift data in reading ["intercept_"; "coef_"].
(* LogisticRegression.predict_proba_2Class, predict_proba and predict, _logistic_regression.py:340-427; [two] is len(self.classes_) <= 2 *)
Definition lg_proba2_attrs (data : Result unit) : M used :=
  let* _ := check_is_fitted ["X_"; "y_"] in let* _ := lift data in reading ["intercept_"; "coef_"].
Definition lg_proba_attrs (two : bool) (data : Result unit) : M used :=
  let* _ := check_is_fitted ["X_"; "y_"] in let* _ := lift data in
  let* h := has "wdro_loss_" in
  if negb h then reading ["coef_"; "intercept_"]
  else let* c := get "classes_" in
       if two then reading ["coef_"; "intercept_"] else reading ["wdro_loss_"].
(* isinstance(v, kind) *)
Definition is_kind (k : string) (v : pyv) : bool := match v with PObj c _ => String.eqb c k | _ => false end.
Definition lg_predict_attrs (two : bool) (data : Result unit) : M used :=
  let* _ := check_is_fitted ["X_"; "y_"] in let* _ := lift data in
  let* le := get "le_" in
  if is_kind "LabelEncoder" le then let* l := lg_proba2_attrs data in ret (List.app l [("le_", le)])
  else if is_kind "OneHotEncoder" le then let* l := lg_proba_attrs two data in ret (List.app l [("le_", le)])
  else fail ValueError.
(* eval of NewsVendor, Portfolio and Weber: _newsvendor.py:215-237, _portfolio.py:273-293, _weber.py:183-203 *)
Definition or_eval_attrs (e : estimator) (data : Result unit) : M used :=
  let* f := get "is_fitted_" in
  let* _ := lift (if truthy f then Ok tt else Raise AssertionError) in
  let* _ := lift data in
  let* t := in_solver "entropic" in
  if t then reading ["_wdro_loss"]
  else let* d := solver_is "dedicated" in
       if d then
         match e with
         | ENewsVendor => let* _ := get_all ["k"] in let* u := reading ["coef_"] in let* _ := get_all ["u"] in ret u
         | _ => reading ["coef_"]
         end
       else fail ValueError.
(* what the estimator offers to users: predict, or eval (score is its opposite) *)
Definition answer (e : estimator) (two : bool) (data : Result unit) : M used :=
  match e with ELinear => lr_predict_attrs data | ELogistic => lg_predict_attrs two data | _ => or_eval_attrs e data end.
End Objects.
