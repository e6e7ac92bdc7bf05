(* Model of the tuning of the radius: skwdro/base/rho_tuners.py and rho_tuners_computations.py. Numbers are exact reals;
   cross-validation (scikit-learn), automatic differentiation (torch) and random draws are outside: what they produce
   (Hessians, normal samples, pseudo-inverse) is an argument. *)
From Coq Require Import Reals List Bool ZArith String.
From Verif Require Import PyBase RList XReal Costs_Model NewsV_Model DedProg_Model.
Import ListNotations.
Local Open Scope R_scope.

(* ---------- RhoTunedEstimator.fit, rho_tuners.py:42-43 ---------- *)
(* range(hi, lo, -1), of length n *)
Fixpoint count_down (hi : Z) (n : nat) : list Z := match n with O => [] | S k => hi :: count_down (hi - 1)%Z k end.
Definition range_down (hi lo : Z) : list Z := count_down hi (Z.to_nat (hi - lo)).
(* the candidate radii *)
Definition rho_grid (min_power max_power : Z) : list R := map (fun i => powerRZ 10 (- i)) (range_down max_power min_power).

(* ---------- rho_tuners_computations.py:9-40, for a Portfolio estimator ---------- *)
(* indicator_func, :9-18: sign of -(theta @ x + tau), asserted non-zero, 1 or 0 *)
Definition indicator (theta x : vec) (tau : R) : Result R :=
  let s := - (dot theta x + tau) in
  do _ <- assert_ (negb (Reqb s 0));
  Ok (if Rltb 0 s then 1 else 0).
(* compute_h, :25-37, scal_xi (:21-22) appends a number *)
Definition compute_h (eta alpha tau : R) (theta x : vec) : Result vec :=
  do i <- indicator theta x tau;
  Ok (map Ropp (vadd (x ++ [- eta]) (vscal (eta / alpha * i) (x ++ [1])))).

(* ---------- compute_phi_star, :43-130 ---------- *)
(* after the differentiation: hs are the mixed derivatives of the loss at the samples. One-dimensional data without labels,
   :105-116; the infinite value is PInf *)
Definition phi_star_1 (hs : list R) (z : R) : xr :=
  let A := 1 / 2 * INR (List.length hs) * rsum (map (fun h => h * h) hs) in
  if negb (Reqb A 0) then
    let a := z / A in Fin (a * z - 1 / 2 * a * A * a)
  else if negb (Reqb z 0) then PInf else Fin 0.

(* matrices by rows *)
Definition outer (u v : vec) : list vec := map (fun a => vscal a v) u.
Definition madd (A B : list vec) : list vec := map2 vadd A B.
Definition mscal (c : R) (A : list vec) : list vec := map (vscal c) A.
Definition mzero (m : nat) : list vec := repeat (repeat 0 m) m.
(* matmul(H.T, H), H with rows of length m: the sum of the outer products of the rows *)
Definition gram (m : nat) (H : list vec) : list vec := fold_right (fun r G => madd (outer r r) G) (mzero m) H.
(* A, :109: (1 / 2 * n_samples) * sum(...) *)
Definition phi_A (m : nat) (Hs : list (list vec)) : list vec :=
  mscal (1 / 2 * INR (List.length Hs)) (fold_right (fun H G => madd (gram m H) G) (mzero m) Hs).
Section Pinv.
(* pt.linalg.pinv *)
Variable pinv : list vec -> list vec.
(* :118-130; the test of :121 compares a tensor with False by identity: it never holds *)
Definition phi_star (m : nat) (Hs : list (list vec)) (z : vec) : R :=
  let A := phi_A m Hs in
  let a := matvec (pinv A) z in
  dot a z - 1 / 2 * dot (matvec A a) a.
End Pinv.

(* ---------- compute_phi_star_portfolio, :133-144 ---------- *)
Fixpoint indicators (theta : vec) (tau : R) (X : list vec) : Result (list R) :=
  match X with [] => Ok [] | x :: r => do i <- indicator theta x tau; do l <- indicators theta tau r; Ok (i :: l) end.
Definition phi_star_portfolio (q : nexp) (eta alpha tau : R) (theta : vec) (X : list vec) (z : vec) : Result R :=
  do is <- indicators theta tau X;
  let C := rsum (map (fun i => 1 + eta / alpha * i) is) in
  Ok (INR (List.length X) * (pnorm q z * pnorm q z) / C).

(* np.quantile with its default linear interpolation: position pos = level * (n - 1) in the sorted values *)
Definition quantile (level : R) (l : list R) : R :=
  let z := nsort l in
  let pos := level * INR (List.length l - 1) in
  let k := Z.to_nat (Int_part pos) in
  let f := pos - INR k in
  nth k z 0 + f * (nth (S k) z (nth k z 0) - nth k z 0).

(* np.cov of a matrix given by rows: one variable per row, one observation per column *)
Definition cov_entry (u v : vec) : R :=
  rsum (map2 (fun a b => (a - rmean u) * (b - rmean v)) u v) / (INR (List.length u) - 1).
Definition np_cov (M : list vec) : list vec := map (fun u => map (fun v => cov_entry u v) M) M.

(* PortfolioBlanchetRhoTunedEstimator.fit, rho_tuners.py:240-263, from the solution (theta, tau) of the first fit; zs are the
   normal samples drawn with the covariance matrix *)
Fixpoint all_h (eta alpha tau : R) (theta : vec) (X : list vec) : Result (list vec) :=
  match X with [] => Ok [] | x :: r => do h <- compute_h eta alpha tau theta x; do l <- all_h eta alpha tau theta r; Ok (h :: l) end.
Fixpoint all_phi (q : nexp) (eta alpha tau : R) (theta : vec) (X : list vec) (zs : list vec) : Result (list R) :=
  match zs with
  | [] => Ok []
  | z :: r => do v <- phi_star_portfolio q eta alpha tau theta X z; do l <- all_phi q eta alpha tau theta X r; Ok (v :: l)
  end.
Definition portfolio_radius (draw : list vec -> list vec) (q : nexp) (eta alpha tau : R) (theta : vec) (X : list vec) : Result R :=
  do hs <- all_h eta alpha tau theta X;
  do vals <- all_phi q eta alpha tau theta X (draw (np_cov hs));
  Ok (sqrt (1 / INR (List.length X) * quantile (95 / 100) vals)).

(* ---------- which attributes exist ---------- *)
(* the attributes that fit assigns, by class and branch: _newsvendor.py:132-196, _portfolio.py:156-254, _weber.py:112-164,
   _linear_regression.py:148-220, _logistic_regression.py:160-335; the constructors assign their arguments *)
Inductive estimator := ENewsVendor | EPortfolio | EWeber | ELinear | ELogistic.
Definition fit_attrs (e : estimator) (dedicated : bool) : list string :=
  match e, dedicated with
  | ENewsVendor, true => ["rho"; "n_features_in_"; "cost_"; "coef_"; "dual_var_"; "is_fitted_"]
  | ENewsVendor, false => ["rho"; "n_features_in_"; "cost_"; "opt_cond"; "_wdro_loss"; "coef_"; "intercept_"; "dual_var_"; "robust_loss_"; "is_fitted_"]
  | EPortfolio, true => ["rho"; "rho_"; "eta_"; "alpha_"; "solver_reg_"; "X_"; "n_features_in_"; "cost_"; "C_"; "d_"; "coef_"; "tau_"; "dual_var_"; "result_"; "is_fitted_"]
  | EPortfolio, false => ["rho"; "rho_"; "eta_"; "alpha_"; "solver_reg_"; "X_"; "n_features_in_"; "cost_"; "C_"; "d_"; "opt_cond"; "_wdro_loss"; "coef_"; "intercept_"; "dual_var_"; "robust_loss_"; "is_fitted_"]
  | EWeber, _ => ["rho"; "opt_cond"; "_wdro_loss"; "coef_"; "intercept_"; "dual_var_"; "robust_loss_"; "is_fitted_"]
  | ELinear, true => ["rho"; "X_"; "y_"; "n_features_in_"; "cost_"; "coef_"; "intercept_"; "dual_var_"; "is_fitted_"]
  | ELinear, false => ["rho"; "X_"; "y_"; "n_features_in_"; "cost_"; "opt_cond"; "coef_"; "intercept_"; "dual_var_"; "robust_loss_"; "is_fitted_"]
  | ELogistic, true => ["rho"; "classes_"; "le_"; "X_"; "y_"; "n_features_in_"; "cost_"; "coef_"; "intercept_"; "dual_var_"; "result_"; "is_fitted_"]
  | ELogistic, false => ["rho"; "classes_"; "le_"; "X_"; "y_"; "n_features_in_"; "cost_"; "opt_cond"; "wdro_loss_"; "coef_"; "intercept_"; "dual_var_"; "robust_loss_"; "is_fitted_"]
  end%string.
Definition init_attrs (e : estimator) : list string :=
  match e with
  | ENewsVendor => ["rho"; "k"; "u"; "cost"; "l2_reg"; "solver"; "solver_reg"; "n_zeta_samples"; "learning_rate"; "random_state"; "n_iter"; "opt_cond"]
  | EPortfolio => ["rho"; "eta"; "alpha"; "C"; "d"; "fit_intercept"; "cost"; "solver"; "solver_reg"; "learning_rate"; "reparam"; "n_zeta_samples"; "random_state"; "n_iter"; "opt_cond"]
  | EWeber => ["rho"; "kappa"; "solver"; "solver_reg"; "learning_rate"; "sampler_reg"; "l2_reg"; "n_zeta_samples"; "random_state"; "cost"; "n_iter"; "opt_cond"]
  | ELinear | ELogistic => ["rho"; "l2_reg"; "cost"; "fit_intercept"; "solver"; "solver_reg"; "sampler_reg"; "learning_rate"; "n_iter"; "opt_cond"; "n_zeta_samples"; "random_state"]
  end%string.
Definition has_attr (e : estimator) (dedicated : bool) (a : string) : bool :=
  existsb (String.eqb a) (init_attrs e ++ fit_attrs e dedicated).
Definition need (e : estimator) (dedicated : bool) (a : string) : Result unit :=
  if has_attr e dedicated a then Ok tt else Raise AttributeError.

(* BlanchetRhoTunedEstimator.fit up to :131; [fit_result] is the outcome of the first fit of the estimator *)
Definition blanchet_start (e : estimator) (dedicated : bool) (fit_result : Result unit) : Result unit :=
  do _ <- need e dedicated "solver"; do _ <- fit_result; do _ <- need e dedicated "coef_"; need e dedicated "problem_".
(* PortfolioBlanchetRhoTunedEstimator.fit up to the first compute_h (:229-241, rho_tuners_computations.py:29-37 and :11-13);
   the class test comes first, the indicator reads tau_ *)
Definition is_portfolio (e : estimator) : bool := match e with EPortfolio => true | _ => false end.
Definition pf_blanchet_start (e : estimator) (dedicated : bool) (fit_result : Result unit) : Result unit :=
  do _ <- need e dedicated "solver"; do _ <- fit_result; do _ <- need e dedicated "coef_";
  if is_portfolio e then
    do _ <- need e dedicated "eta_"; do _ <- need e dedicated "alpha_"; need e dedicated "tau_"
  else Raise NotImplementedError.
