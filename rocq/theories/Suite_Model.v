(* The checks that the project's tests make on trained models, as functions of what was trained. Numbers are exact except where
   float32 is named; numpy's nan and infinities are those of XReal. *)
From Coq Require Import Reals List String Bool ZArith.
From Verif Require Import PyBase RList XReal Dtype_Model.
Import ListNotations.
Local Open Scope R_scope.

Definition xabs (x : xr) : xr := match x with Fin a => Fin (Rabs a) | PInf | MInf => PInf | NaN => NaN end.

(* ---------- tests/torch_tests/test_binary_separable_log_classif.py ---------- *)
(* ANGLE_TOL, :5; test_binary_separable_log_classif_cvx.py:7. In test_overfitting_separable.py:6 it is twice this. *)
Definition ANGLE_TOL : R := / 10 * PI.
Definition ANGLE_TOL_overfitting : R := 2 * / 10 * PI.

(* generate_points, :7-14: rows of opposites, opposites + [-1, 1], opposites - [-1, 1], with their labels *)
Definition opposites : list vec := [[1; 1]; [-1; -1]].
Definition generate_points : list (vec * R) :=
  combine (opposites ++ map (fun r => vadd r [-1; 1]) opposites ++ map (fun r => vsub r [-1; 1]) opposites) [1; -1; 1; -1; 1; -1].

(* angle_to_northeast, :29-30; the same text in test_overfitting_separable.py:38-39 *)
Definition angle_to_northeast (coefs : vec) : xr :=
  xabs (xsub (Fin 1) (xdiv (xdiv (Fin (Rabs (rsum coefs))) (Fin (norm2 coefs))) (Fin (sqrt 2)))).

(* the assertions of test_fit_enthropic_fi and test_fit_enthropic_lin, :32-39: the intercept is not looked at *)
Definition test_fit (coef : vec) (intercept : R) : bool := xlt (angle_to_northeast coef) (Fin ANGLE_TOL).
(* test_fit_enthropic_fi of test_binary_separable_log_classif_cvx.py:21-24 *)
Definition test_fit_fi_cvx (coef : vec) (intercept : R) : bool := xlt (angle_to_northeast coef) (Fin (10 * ANGLE_TOL)).
(* test_fit_enthropic_fi and _lin of test_overfitting_separable.py:42-50, after fit_estimator's assertion on the accuracy (:34),
   given here as a number *)
Definition test_fit_overfitting (accuracy : R) (coef : vec) (intercept : R) : bool :=
  Rltb (8 / 10) accuracy && xlt (angle_to_northeast coef) (Fin ANGLE_TOL_overfitting).

(* column j of a matrix given by its rows *)
Definition column (j : nat) (params : list vec) : list R := map (fun c => nth j c 0) params.
(* angle_to_centroids, test_overfitting_separable.py:91-99: centers are divided by the norms of their rows (one per class), coefs by the
   norms of their columns (axis=0, one per feature), and the products are summed over the classes *)
Definition angle_to_centroids (d : nat) (coefs centers : list vec) : list xr :=
  map (fun k =>
    let normed_centers := map (fun c => xdiv (Fin (nth k c 0)) (Fin (norm2 c))) centers in
    let normed_coefs := map (fun a => xdiv (Fin a) (Fin (norm2 (column k coefs)))) (column k coefs) in
    xabs (xsub (Fin 1) (xabs (xsum (map2 xmul normed_centers normed_coefs))))) (seq 0 d).
(* the last assertion of test_fit_multiclass_enthropic_fi and _lin, :102-115 *)
Definition test_centroids (d : nat) (coefs centers : list vec) : bool :=
  forallb (fun v => xlt v (Fin ANGLE_TOL_overfitting)) (angle_to_centroids d coefs centers).

(* ---------- tests/misc/test_auto_convergence.py ---------- *)
(* what becomes of the child process within the 90 seconds of p.join(90): launch_solver (:9-22) raises, or fails its assertion on
   the score, or returns, or goes on *)
Inductive child := StillRunning | Finished (outcome : Result R).
(* launch_solver, :9-22: fit, then assert the score; the score is computed by the estimator *)
Definition launch_solver (fit_then_score : Result R) : Result R :=
  do score <- fit_then_score;
  if Rltb (/ 2) score then Ok score else Raise AssertionError.
(* test_autostop, :25-36 *)
Definition test_autostop (p : child) : Result unit :=
  match p with
  | StillRunning => Raise RuntimeError     (* TimeoutError *)
  | Finished _ => Ok tt                    (* the exit code is not read *)
  end.

(* ---------- tests/misc/test_consistency.py ---------- *)
(* np.var(..., axis=0) of the stacked coefficients and .mean(), :25 *)
Definition np_var (l : list R) : R := rmean (map (fun a => (a - rmean l) * (a - rmean l)) l).
Definition mean_variance (d : nat) (params : list vec) : R := rmean (map (fun j => np_var (column j params)) (seq 0 d)).
Definition test_consistency (d : nat) (params : list vec) : bool := Rltb (mean_variance d params) (/ 10).

(* ---------- tests/torch_tests/test_regularized_linear_exact.py ---------- *)
(* np.isclose(a, b, atol, rtol) of two numbers *)
Definition np_isclose (atol rtol a b : R) : bool := Rleb (Rabs (a - b)) (atol + rtol * Rabs b).
(* ATOL = RTOL = LATOL = LRTOL, :43-44 *)
Definition TOL : R := 5 / 100.
(* nrm, :50, of a vector that is not zero *)
Definition nrm (x : vec) : vec := vscal (/ norm2 x) x.
(* test_log_reg_reg, :47-52 *)
Definition test_log_reg_reg (est_theta theta : vec) (est_robust_loss robust_loss : R) : bool :=
  forallb (fun ab => np_isclose TOL TOL (fst ab) (snd ab)) (combine (nrm est_theta) (nrm theta)) &&
  np_isclose TOL TOL est_robust_loss robust_loss.

(* ---------- tests/torch_tests/test_preimplemented_losses.py ---------- *)
(* SimplePortfolio.__init__, base/losses_torch/portfolio.py:24-26: eta and alpha are float32 tensors *)
Definition stored32 (v : dyadic) : xr := convert float32 v.
(* THRESHOLD_RECAST, :269 *)
Definition THRESHOLD_RECAST : R := / 100000000.
(* TestPortfolio.test_init, :279-280: abs(eta.item() - risk_aversion) < threshold and abs(alpha.item() == risk_level) < threshold;
   a Python bool is the number 0 or 1 *)
Definition test_eta (eta : xr) (risk_aversion : dyadic) : bool := xlt (xabs (xsub eta (Fin (d2r risk_aversion)))) (Fin THRESHOLD_RECAST).
Definition test_alpha (alpha : xr) (risk_level : dyadic) : bool :=
  xlt (xabs (Fin (if xeq alpha (Fin (d2r risk_level)) then 1 else 0))) (Fin THRESHOLD_RECAST).
