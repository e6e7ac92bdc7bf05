(* Model of the classifier of examples/builtin_models/spatial_perturbation_moons.py: constructor, network, fit up to the solver, predictions.
   Validation by scikit-learn (check_X_y, check_array) is left out, X is a matrix as a list of rows, the labels are integers and rho a number. *)
From Coq Require Import Reals List Bool ZArith String Arith.
From Verif Require Import PyBase RList XReal CostDecoder_Model OptCond_Model Samplers_Model Wrap_Model Tensor Costs_Model Loss_Model Estim_Model Predict_Model.
Import ListNotations.
Local Open Scope R_scope.

(* __init__, spatial_perturbation_moons.py:86-124 *)
Record nn_args := { nn_rho : R; nn_hidden : Z; nn_neurons : nat; nn_l2_reg : R; nn_fit_intercept : bool; nn_cost : string; nn_solver : string;
                    nn_solver_reg : option R; nn_sampler_reg : option R; nn_lr : option R; nn_n_zeta : Z; nn_seed : Z }.
Definition nn_defaults : nn_args :=
  {| nn_rho := 1 / 100; nn_hidden := 1; nn_neurons := 32; nn_l2_reg := 0; nn_fit_intercept := true; nn_cost := "t-NLC-2-2"; nn_solver := "entropic_torch";
     nn_solver_reg := None; nn_sampler_reg := None; nn_lr := None; nn_n_zeta := 10; nn_seed := 0 |}.
Definition nn_init (a : nn_args) : Result nn_args :=
  if Rltb (nn_rho a) 0 then Raise ValueError else if (0 <? nn_hidden a)%Z then Ok a else Raise AssertionError.

(* nn.Linear(inputs, outputs, bias) and nn.ReLU() *)
Inductive layer := Lin (inputs outputs : nat) (bias : bool) | Relu.
(* the nn.Sequential of :232-254; range(2 * n) of a negative n is empty *)
Definition nn_layers (d neurons : nat) (hidden : Z) (bias : bool) : list layer :=
  Lin d neurons bias :: Relu ::
  map (fun i => if (i mod 2 =? 0)%nat then Lin neurons neurons bias else Relu) (seq 0 (Z.to_nat (2 * hidden))) ++
  [Lin neurons 1 bias].

(* fit, :126-290: the arguments of the dual loss and the network put before BiDiffSoftMarginLoss *)
Section Fit.
Variable pyfloat : string -> option xr.
Definition nn_dispatch (a : nn_args) (X : list vec) (y : list Z) : Result (dual_args * list layer) :=
  do targets <- lg_targets y;                                                      (* :165-195, the same encoding *)
  do _ <- decode_cost pyfloat (nn_cost a);                                         (* :216 *)
  if String.eqb (nn_solver a) "entropic" then Raise DeprecationWarning
  else if contains "torch" (nn_solver a) then
    if (List.length (unique_labels y) =? 2)%nat then                               (* assert len(self.classes_) == 2, :227 *)
      do d <- dualize pyfloat
        {| u_rho := nn_rho a; u_xi := X; u_labels := Some targets; u_post := post_name (nn_solver a);
           u_cost := Some (nn_cost a); u_n_samples := nn_n_zeta a; u_seed := Some (nn_seed a); u_reduction := None;
           u_lr := nn_lr a; u_epsilon := nn_solver_reg a; u_sigma := nn_sampler_reg a; u_l2reg := Some (nn_l2_reg a);
           u_adapt := adapt_of (nn_lr a); u_n_iter := None; u_imp_samp := post_name (nn_solver a); u_reduces := false |};
      Ok (set_n_iter (SPair 50 200) d, nn_layers (width X) (nn_neurons a) (nn_hidden a) (nn_fit_intercept a))
    else Raise AssertionError
  else Raise NotImplementedError.                                                  (* :285-286 *)
End Fit.

(* a layer with its parameters: nn.Linear has one row of weights and one bias per output (zeros when bias=False) *)
Inductive cell := CLin (weight : list vec) (bias : vec) | CRelu.
Definition cell_forward (c : cell) (x : vec) : vec :=
  match c with CLin W b => map2 (fun w b => dot x w + b) W b | CRelu => map (fun a => Rmax a 0) x end.
Definition net_forward (net : list cell) (x : vec) : vec := fold_left (fun v c => cell_forward c v) net x.
(* the network's single output, the argument of expit in predict_proba_2Class, :311-314 *)
Definition net_out (net : list cell) (x : vec) : R := hd 0 (net_forward net x).
(* predict_proba_2Class, :292-315 *)
Definition nn_proba (net : list cell) (X : list vec) : list R := map (fun x => expit (net_out net x)) X.
(* predict_proba, :317-340: np.vstack((1 - p, p)).T *)
Definition nn_probas (net : list cell) (X : list vec) : list vec := map (fun p => [1 - p; p]) (nn_proba net X).
(* predict with a LabelEncoder, :342-376 *)
Definition nn_predict (net : list cell) (classes : list Z) (X : list vec) : list Z :=
  map (fun p => nth (if Rleb (1 / 2) p then 1%nat else 0%nat) classes 0%Z) (nn_proba net X).
