(* Model of the first half of compute_phi_star, skwdro/base/rho_tuners_computations.py:43-107: which parameter it looks for, the
   mixed derivatives of the losses with a linear model (LogisticLoss, QuadraticLoss) and how they are put together; and the
   newsvendor loss. The second half (:109-130) is phi_star of Tuner_Model. Numbers are exact reals. *)
From Coq Require Import Reals List Bool String Arith.
From Verif Require Import PyBase RList XReal DedProg_Model Tuner_Model.
Import ListNotations.
Local Open Scope R_scope.
Local Open Scope string_scope.
Local Open Scope list_scope.

(* ---------- the branches, :74-104 ---------- *)
(* "text" in name *)
Definition contains (text name : string) : bool := match index 0 text name with Some _ => true | None => false end.
Inductive branch := BMeanRisk | BLinear | BTheta.
Definition phi_branch (class_name : string) : branch :=
  if contains "MeanRisk" class_name then BMeanRisk
  else if contains "Logistic" class_name || contains "Quadratic" class_name then BLinear
  else BTheta.
(* diff_loss.get_parameter('loss.' + p), :77-78, :88, :97; [params] are the names of the parameters of diff_loss.loss *)
Definition get_parameter (params : list string) (p : string) : Result unit := if existsb (String.eqb p) params then Ok Datatypes.tt else Raise AttributeError.
Definition phi_params (class_name : string) (params : list string) : Result branch :=
  match phi_branch class_name with
  | BMeanRisk => do _ <- get_parameter params "loss._theta_tilde"; do _ <- get_parameter params "_tau"; Ok BMeanRisk
  | BLinear => do _ <- get_parameter params "linear.weight"; Ok BLinear
  | BTheta => do _ <- get_parameter params "_theta"; Ok BTheta
  end.
(* the losses of the package with the names of their parameters: logistic.py:55, quadratic.py:28, newsvendor.py:53; a wrapped
   loss (wrapper.py:71, :93) has those of the wrapped module under "loss." and those of the transform under "transform." *)
Inductive lib_loss := LibLogistic (fit_intercept : bool) | LibQuadratic (fit_intercept : bool) | LibNewsVendor | LibWrapped (inner transform : list string).
Definition lib_class (l : lib_loss) : string :=
  match l with LibLogistic _ => "LogisticLoss" | LibQuadratic _ => "QuadraticLoss" | LibNewsVendor => "NewsVendorLoss_torch" | LibWrapped _ _ => "WrappedPrimalLoss" end.
Definition linear_params (fit_intercept : bool) : list string := if fit_intercept then ["linear.weight"; "linear.bias"] else ["linear.weight"].
Definition lib_params (l : lib_loss) : list string :=
  match l with
  | LibLogistic fi | LibQuadratic fi => linear_params fi
  | LibNewsVendor => ["_theta"]
  | LibWrapped inner tr => map (String.append "loss.") inner ++ map (String.append "transform.") tr
  end.
Definition lib_branch (l : lib_loss) : Result branch := phi_params (lib_class l) (lib_params l).

(* ---------- the losses with a linear model ---------- *)
(* logistic.py:20-22 and :112-115 (- logsigmoid(y * u) written out), quadratic.py:29 and :36-41; u is the output of the linear
   layer, y the label *)
Inductive lin_kind := LLogistic | LQuadratic.
Definition lin_val (k : lin_kind) (u y : R) : R := match k with LLogistic => ln (1 + exp (- (y * u))) | LQuadratic => (u - y) ^ 2 end.
(* what torch's differentiation gives: the derivative in u, the second derivative in u, the derivative in u and y *)
Definition lin_u (k : lin_kind) (u y : R) : R := match k with LLogistic => - y / (1 + exp (y * u)) | LQuadratic => 2 * (u - y) end.
Definition lin_uu (k : lin_kind) (u y : R) : R :=
  match k with LLogistic => y * y * exp (y * u) / ((1 + exp (y * u)) * (1 + exp (y * u))) | LQuadratic => 2 end.
Definition lin_uy (k : lin_kind) (u y : R) : R :=
  match k with LLogistic => - / (1 + exp (y * u)) + y * u * exp (y * u) / ((1 + exp (y * u)) * (1 + exp (y * u))) | LQuadratic => - 2 end.
(* the identity matrix *)
Fixpoint eye (d : nat) : list vec := match d with O => [] | S k => (1 :: repeat 0 k) :: map (cons 0) (eye k) end.
(* hessians[0][2][0].squeeze(1), :91: row i, column j is the derivative in x_i and w_j. The regularisation of value
   (logistic.py:115, quadratic.py:41) does not depend on x and y and adds nothing. *)
Definition hess_x (k : lin_kind) (w : vec) (b : R) (x : vec) (y : R) : list vec :=
  let u := dot w x + b in
  map2 (fun wi ei => vadd (vscal (lin_uu k u y * wi) x) (vscal (lin_u k u y) ei)) w (eye (List.length w)).
(* hessians[1][2][0].squeeze(1), :92, a row when there are two features or more: the derivative in y and w_j *)
Definition hess_y (k : lin_kind) (w : vec) (b : R) (x : vec) (y : R) : vec := vscal (lin_uy k (dot w x + b) y) x.
(* cat((hessian_X, hessian_y.T), 1), :93 *)
Definition hess_cat (hx : list vec) (hy : vec) : list vec := map2 (fun r c => r ++ [c]) hx hy.
(* one sample, :67-93: a label must exist; the linear layer refuses another number of features; with one feature hessian_X has
   two axes and hessian_y, squeezed, one: cat refuses them *)
Definition sample_hess (k : lin_kind) (w : vec) (b : R) (x : vec) (y : option R) : Result (list vec) :=
  match y with
  | None => Raise IndexError
  | Some yk =>
    if negb (Nat.eqb (List.length x) (List.length w)) then Raise RuntimeError
    else if Nat.eqb (List.length w) 1 then Raise RuntimeError
    else Ok (hess_cat (hess_x k w b x yk) (hess_y k w b x yk))
  end.
(* the loop, :67-107; [ys] is y from the current sample on *)
Fixpoint all_hess (k : lin_kind) (w : vec) (b : R) (X : list vec) (ys : list R) : Result (list (list vec)) :=
  match X with
  | [] => Ok []
  | x :: r => do H <- sample_hess k w b x (hd_error ys); do Hs <- all_hess k w b r (tl ys); Ok (H :: Hs)
  end.
Section Pinv.
Variable pinv : list vec -> list vec.
(* compute_phi_star on a loss with a linear model and labels: X[0] first (:64), the loop, then :109-130; the product with z asks
   for as many numbers as A has columns *)
Definition phi_star_lin (k : lin_kind) (w : vec) (b : R) (X : list vec) (ys : list R) (z : vec) : Result R :=
  match X with
  | [] => Raise IndexError
  | _ =>
    do Hs <- all_hess k w b X ys;
    if Nat.eqb (List.length z) (S (List.length w)) then Ok (phi_star pinv (S (List.length w)) Hs z) else Raise RuntimeError
  end.
End Pinv.

(* ---------- the newsvendor loss, :96-107 ---------- *)
(* value asserts that labels are given (newsvendor.py:73); with labels the block taken is hessians[0][1], the derivative in x and
   in the label, which does not occur in the loss: zeros. One feature: the squares are summed as numbers and z, a tensor, must
   have one element to be compared with 0 (:112-116). Otherwise the product of two vectors is a number without axes, which pinv
   refuses. Labels may be missing: y[k] is an IndexError. *)
Definition phi_star_nv (X : list vec) (labels : option (list R)) (z : vec) : Result xr :=
  match X with
  | [] => Raise IndexError
  | x0 :: _ =>
    match labels with
    | None => Raise AssertionError
    | Some ys =>
      if Nat.ltb (List.length ys) (List.length X) then Raise IndexError
      else if Nat.eqb (List.length x0) 1 then
        match z with [z0] => Ok (phi_star_1 (map (fun _ => 0) X) z0) | _ => Raise RuntimeError end
      else Raise RuntimeError
    end
  end.
