(* Model of skwdro/_template.py: the three template estimators. Dense matrices of finite numbers (accept_sparse is not modelled);
   the other checks of scikit-learn's check_array and check_X_y that such data can fail are kept. *)
From Coq Require Import Reals List Bool ZArith Arith.
From Verif Require Import PyBase RList XReal Estim_Model.
Import ListNotations.
Local Open Scope R_scope.

(* check_array: rows of one length, at least one row and one column; the result is the array and its number of columns *)
Definition check_array (X : list vec) : Result (list vec * nat) :=
  match X with
  | [] => Raise ValueError
  | r :: _ => let d := List.length r in
      if (negb (d =? 0)%nat && forallb (fun x => (List.length x =? d)%nat) X)%bool then Ok (X, d) else Raise ValueError
  end.
(* check_X_y: the same and one target per row *)
Definition check_X_y {A} (X : list vec) (y : list A) : Result (list vec * nat) :=
  do c <- check_array X;
  if (List.length X =? List.length y)%nat then Ok c else Raise ValueError.

(* TemplateEstimator.fit and predict, _template.py:38-77; the state is whether is_fitted_ exists *)
Definition te_fit {A} (X : list vec) (y : list A) : Result bool := do _ <- check_X_y X y; Ok true.
Definition te_predict (is_fitted : bool) (X : list vec) : Result (list Z) :=
  do c <- check_array X;
  if is_fitted then Ok (map (fun _ => 1%Z) (fst c)) else Raise NotFittedError.

(* TemplateClassifier, _template.py:80-148 *)
Record classifier := { X_ : list vec; y_ : list Z; classes_ : list Z; columns : nat }.
Definition tc_fit (X : list vec) (y : list Z) : Result classifier :=
  do c <- check_X_y X y;
  Ok {| X_ := fst c; y_ := y; classes_ := unique_labels y; columns := snd c |}.
(* sklearn.metrics.euclidean_distances: sqrt(max(x.x - 2 x.y + y.y, 0)) *)
Definition euclidean_distances (Q X : list vec) : list (list R) :=
  map (fun q => map (fun x => sqrt (Rmax (dot q q - 2 * dot q x + dot x x) 0)) X) Q.
(* np.argmin of a row: the first index of a smallest entry *)
Fixpoint argmin_from (best : R) (at_ i : nat) (l : list R) : nat :=
  match l with
  | [] => at_
  | v :: r => if Rltb v best then argmin_from v i (S i) r else argmin_from best at_ (S i) r
  end.
Definition argmin (l : list R) : nat := match l with [] => 0 | v :: r => argmin_from v 0 1 r end.
Definition tc_predict (fitted : option classifier) (Q : list vec) : Result (list Z) :=
  match fitted with
  | None => Raise NotFittedError
  | Some c =>
      do q <- check_array Q;
      if (snd q =? columns c)%nat then Ok (map (fun row => nth (argmin row) (y_ c) 0%Z) (euclidean_distances (fst q) (X_ c))) else Raise ValueError
  end.

(* TemplateTransformer, _template.py:151-213: n_features_ is kept, transform is np.sqrt, NaN on negative entries *)
Definition tt_fit (X : list vec) : Result nat := do c <- check_array X; Ok (snd c).
Definition np_sqrt (x : R) : xr := if Rltb x 0 then NaN else Fin (sqrt x).
Definition tt_transform (n_features : option nat) (X : list vec) : Result (list (list xr)) :=
  match n_features with
  | None => Raise NotFittedError
  | Some n =>
      do c <- check_array X;
      if negb (snd c =? n)%nat then Raise ValueError else Ok (map (map np_sqrt) (fst c))
  end.
(* TransformerMixin.fit_transform: fit then transform of the same data *)
Definition tt_fit_transform (X : list vec) : Result (list (list xr)) := do n <- tt_fit X; tt_transform (Some n) X.
