(* Model of the constructors and predictions of LogisticLoss and QuadraticLoss: losses_torch/logistic.py, quadratic.py.
   Numbers are exact reals, tensors as in Tensor.v; the sampler given to the constructor is left out (Zeta_Model). *)
From Coq Require Import Reals List Bool Arith ZArith.
From Verif Require Import PyBase RList XReal Tensor Loss_Model.
Import ListNotations.
Local Open Scope R_scope.

(* nn.Linear(d, 1, bias=fit_intercept) with the attribute l2reg *)
Record regloss := { g_weight : vec; g_bias : option R; g_l2 : option R }.

(* LogisticLoss.__init__, logistic.py:45-61: the weights and the bias are set to zero; l2reg as in Loss.__init__ *)
Definition logistic_new (d : Z) (l2reg : option R) (fit_intercept : bool) : Result regloss :=
  do _ <- assert_ (0 <? d)%Z;
  Ok {| g_weight := repeat 0 (Z.to_nat d); g_bias := if fit_intercept then Some 0 else None; g_l2 := l2reg_of l2reg |}.
(* QuadraticLoss.__init__, quadratic.py:18-29: torch's random initialisation, arbitrary here *)
Definition quadratic_new (init : nat -> vec) (init_bias : R) (d : Z) (l2reg : option R) (fit_intercept : bool) : Result regloss :=
  do _ <- assert_ (0 <? d)%Z;
  Ok {| g_weight := init (Z.to_nat d); g_bias := if fit_intercept then Some init_bias else None; g_l2 := l2reg_of l2reg |}.

Definition bias_of (g : regloss) : R := match g_bias g with Some b => b | None => 0 end.
(* LogisticLoss.predict, logistic.py:63-79 *)
Definition logistic_predict (g : regloss) (X : tensor) : Result tensor :=
  do c <- linear [g_weight g] [bias_of g] (length (g_weight g)) X; Ok (tmap tanh c).
(* QuadraticLoss.regression, quadratic.py:31-34 *)
Definition regression (g : regloss) (X : tensor) : Result tensor := linear [g_weight g] [bias_of g] (length (g_weight g)) X.
(* value of the two classes *)
Definition logistic_loss (g : regloss) : tensor -> option tensor -> Result tensor := logistic_value (g_l2 g) (g_weight g) (bias_of g).
Definition quadratic_loss (g : regloss) : tensor -> option tensor -> Result tensor := quadratic_value (g_l2 g) (g_weight g) (bias_of g).
