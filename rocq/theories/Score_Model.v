(* Model of the score methods: _newsvendor.py:201-213, _portfolio.py:259-271, _weber.py:169-181 (minus eval, labels dropped), and those
   inherited from scikit-learn by LinearRegression (RegressorMixin: r2_score) and LogisticRegression (ClassifierMixin: accuracy_score). *)
From Coq Require Import Reals List Bool ZArith Arith String.
From Verif Require Import PyBase RList XReal Tensor Loss_Model Estim_Model Predict_Model.
Import ListNotations.
Local Open Scope R_scope.

Definition nv_score (solver : string) (k u theta : R) (X : tensor) : Result R := do v <- nv_eval solver k u theta X; Ok (- v).
Definition pf_score (solver : string) (weights_dtype data_dtype : dtype) (eta alpha : R) (raw : vec) (tau : R) (coef : vec) (X : tensor) : Result R :=
  do v <- pf_eval solver weights_dtype data_dtype eta alpha raw tau coef X; Ok (- v).
Definition wb_score (solver : string) (l2 : R) (pos : vec) (X : tensor) : Result R := do v <- wb_eval solver l2 pos X; Ok (- v).

(* sklearn.metrics.r2_score(y, pred): ValueError for different lengths, NaN below two samples; for targets that are all equal, 1 if
   the predictions are exact and 0 otherwise *)
Definition r2_score (y p : list R) : Result xr :=
  if negb (List.length y =? List.length p)%nat then Raise ValueError
  else if (List.length y <? 2)%nat then Ok NaN
  else
    let num := rsum (map2 (fun a b => (a - b) * (a - b)) y p) in
    let den := rsum (map (fun a => (a - rmean y) * (a - rmean y)) y) in
    if Reqb num 0 then Ok (Fin 1) else if Reqb den 0 then Ok (Fin 0) else Ok (Fin (1 - num / den)).
Definition lr_score (d : nat) (coef : vec) (intercept : R) (X : list vec) (y : list R) : Result xr := do p <- lr_predict d coef intercept X; r2_score y p.

(* sklearn.metrics.accuracy_score(y, pred): the fraction of equal labels *)
Definition accuracy_score (y p : list Z) : Result R :=
  if (List.length y =? List.length p)%nat then Ok (rmean (map2 (fun a b => if (a =? b)%Z then 1 else 0) y p)) else Raise ValueError.
Definition lg_score (d : nat) (coef : tensor) (intercept : option R) (classes : list Z) (X : list vec) (y : list Z) : Result R :=
  do p <- predict_binary d coef intercept classes X; accuracy_score y (snd p).
