(* Model of what the fitted estimators compute: predict_proba_2Class, predict_proba, predict of LogisticRegression, predict of
   LinearRegression, eval of NewsVendor, Portfolio and Weber. Input validation by scikit-learn is left out. *)
From Coq Require Import Reals List Bool ZArith Arith String.
From Verif Require Import PyBase RList XReal Tensor Loss_Model Estim_Model.
Import ListNotations.
Local Open Scope R_scope.

(* scipy.special.expit *)
Definition expit (s : R) : R := 1 / (1 + exp (- s)).

(* ---------- LogisticRegression ---------- *)
(* coef_ for two classes: the (1,d) weight squeezed, _logistic_regression.py:307-317, hence a 0-d array for d = 1; the
   dedicated solver gives shape (d,), :240-252 *)
Definition lg_coef_torch (weight : vec) : tensor := squeeze (mkT [1%nat; List.length weight] weight).
Definition lg_coef_dedicated (beta : vec) : tensor := mkT [List.length beta] beta.
(* intercept_: None without an intercept in the torch branch, :319-331 *)
Definition lg_intercept_torch (fit_intercept : bool) (bias : R) : option R := if fit_intercept then Some bias else None.

(* X.dot(coef_) for a matrix X with rows of width d: a 0-d coef_ multiplies every entry *)
Definition np_dot (d : nat) (X : list vec) (coef : tensor) : Result tensor :=
  match shp coef with
  | [] => Ok (mkT [List.length X; d] (map (fun a => a * hd 0 (dat coef)) (List.concat X)))
  | [k] => if (k =? d)%nat then Ok (mkT [List.length X] (map (fun x => dot x (dat coef)) X)) else Raise ValueError
  | _ => Raise ValueError
  end.
(* array + intercept_, with None: TypeError *)
Definition np_plus (t : tensor) (i : option R) : Result tensor := match i with None => Raise TypeError | Some b => Ok (addc b t) end.

(* predict_proba_2Class, :340-364 *)
Definition predict_proba_2class (d : nat) (coef : tensor) (intercept : option R) (X : list vec) : Result tensor :=
  do s <- np_dot d X coef;
  match intercept with
  | Some b => Ok (tmap expit (addc b s))
  | None => Ok (tmap expit s)
  end.
(* np.vstack((1 - p, p)).T: rows (1-p_i, p_i) for a vector; a matrix (n,d) gives (d,2n), whose row j holds the n complements and
   then the n entries of column j *)
Definition vstack2_T (p : tensor) : Result tensor :=
  match shp p with
  | [n] => Ok (mkT [n; 2%nat] (flat_map (fun a => [1 - a; a]) (dat p)))
  | [n; d] =>
      let column j := map (fun i => nth (i * d + j) (dat p) 0) (seq 0 n) in
      Ok (mkT [d; (2 * n)%nat] (flat_map (fun j => map (fun a => 1 - a) (column j) ++ column j) (seq 0 d)))
  | _ => Raise ValueError
  end.
(* predict_proba, :366-391; two classes ... *)
Definition predict_proba_binary (d : nat) (coef : tensor) (intercept : option R) (X : list vec) : Result tensor :=
  do s <- np_dot d X coef; do s <- np_plus s intercept; vstack2_T (tmap expit s).
(* ... and more (:388-391): the outputs of the linear map fitted on k features, for a matrix of width d *)
Definition predict_proba_multi (weights : list vec) (bias : vec) (k d : nat) (X : list vec) : Result tensor :=
  linear weights bias k (batch [List.length X] d X).

(* predict with a LabelEncoder, :413-415; inverse_transform takes a vector, ravels a column, and refuses a wider matrix with a
   ValueError (scikit-learn's column_or_1d) *)
Definition column_or_1d (sh : list nat) : bool := match sh with [_] | [_; 1%nat] => true | _ => false end.
Definition predict_binary (d : nat) (coef : tensor) (intercept : option R) (classes : list Z) (X : list vec) : Result (list nat * list Z) :=
  do p <- predict_proba_2class d coef intercept X;
  if column_or_1d (shp p) then
    Ok ([List.length (dat p)], map (fun a => nth (if Rleb (1 / 2) a then 1%nat else 0%nat) classes 0%Z) (dat p))
  else Raise ValueError.
(* predict with a OneHotEncoder, :416-421: shape and labels. inverse_transform takes the first 1 of each row and returns a column *)
Fixpoint first_true (l : list bool) : option nat :=
  match l with [] => None | true :: _ => Some 0%nat | false :: r => option_map S (first_true r) end.
Definition row_max (r : vec) : R := match r with [] => 0 | a :: r => fold_left Rmax r a end.
Definition predict_multi (weights : list vec) (bias : vec) (k d : nat) (classes : list Z) (X : list vec) : Result (list nat * list Z) :=
  do p <- predict_proba_multi weights bias k d X;
  let rows := trows p in
  let picks := map (fun r => first_true (map (fun a => Rleb (row_max r) a) r)) rows in
  if existsb (fun o => match o with None => true | Some _ => false end) picks then Raise ValueError
  else Ok ([List.length rows; 1%nat], map (fun o => match o with Some i => nth i classes 0%Z | None => 0%Z end) picks).

(* ---------- LinearRegression.predict, _linear_regression.py:225-244: intercept_ has shape (1,) or () and coef_ (d,) ---------- *)
Definition lr_predict (d : nat) (coef : vec) (intercept : R) (X : list vec) : Result (list R) :=
  if (List.length coef =? d)%nat then Ok (map (fun x => intercept + dot x coef) X) else Raise ValueError.

(* ---------- eval ---------- *)
Definition full_mean (t : tensor) : R := rmean (dat t).
(* np.mean(X, axis=0) *)
Definition col_means (d : nat) (rows : list vec) : vec := map (fun j => rmean (map (fun r => nth j r 0) rows)) (seq 0 d).
(* a @ b for two vectors *)
Definition np_vecdot (a b : vec) : Result R := if (List.length a =? List.length b)%nat then Ok (dot a b) else Raise ValueError.
(* the wrapped losses of the estimators: parameters are those of the loss module, no transform *)
Definition est_wrapped (has_labels : bool) (l2 : option R) (params : list (list R)) : wrapped :=
  {| w_oop := true; w_has_labels := has_labels; w_reduce := true; w_l2 := l2reg_of l2; w_loss_params := params; w_transform_params := [] |}.

(* NewsVendor.eval, _newsvendor.py:215-237, on a test matrix (n,d) *)
Definition nv_eval (solver : string) (k u theta : R) (X : tensor) : Result R :=
  if contains "entropic" solver then
    do v <- w_value (fun xi _ => Ok (nv_forward k u theta xi)) (est_wrapped false None [[theta]]) X None; Ok (full_mean v)
  else if String.eqb solver "dedicated" then Ok (full_mean (tmap (fun x => k * theta - u * Rmin theta x) X))
  else Raise ValueError.

(* Portfolio.eval, _portfolio.py:273-293. pt.from_numpy keeps the dtype of the data, and nn.Linear refuses an input whose dtype is not
   that of its weights (torch's default dtype). coef_ are the weights themselves with the dedicated solver. *)
Inductive dtype := F32 | F64.
Definition dtype_eqb (a b : dtype) : bool := match a, b with F32, F32 | F64, F64 => true | _, _ => false end.
Definition pf_eval (solver : string) (weights_dtype data_dtype : dtype) (eta alpha : R) (raw : vec) (tau : R) (coef : vec) (X : tensor) : Result R :=
  if contains "entropic" solver then
    do v <- w_value (fun xi _ => if dtype_eqb weights_dtype data_dtype then pf_forward eta alpha raw tau xi else Raise RuntimeError)
                    (est_wrapped false (Some 0) [[tau]; raw]) X None;
    Ok (full_mean v)
  else if String.eqb solver "dedicated" then
    np_vecdot (map Ropp (col_means (last (shp X) 0%nat) (trows X))) coef
  else Raise ValueError.

(* Weber.eval, _weber.py:183-203: forward is called without labels; the dedicated branch is unreachable (fit has no such solver) *)
Definition wb_eval (solver : string) (l2 : R) (pos : vec) (X : tensor) : Result R :=
  if contains "entropic" solver then
    do v <- w_value (fun xi y => match y with Some y => weber_forward pos xi y | None => Raise TypeError end) (est_wrapped true (Some l2) [pos]) X None;
    Ok (full_mean v)
  else if String.eqb solver "dedicated" then np_vecdot (map Ropp (col_means (last (shp X) 0%nat) (trows X))) pos
  else Raise ValueError.
