(* Model of the primal losses: skwdro/base/losses_torch/{base_loss,wrapper,portfolio,weber,logistic,quadratic,newsvendor}.py,
   CustomNewsvendorLoss of operations_research/_newsvendor.py and the argument checks of Portfolio.__init__.
   Numbers are exact reals, tensors as in Tensor.v; devices, dtypes and gradients are left out. *)
From Coq Require Import Reals List Bool Arith.
From Verif Require Import PyBase RList XReal Tensor.
Import ListNotations.
Local Open Scope R_scope.

(* ---------- base_loss.py ---------- *)
(* Loss.__init__, base_loss.py:69-72 *)
Definition l2reg_of (l2reg : option R) : option R :=
  match l2reg with None => None | Some r => if Rleb r 0 then None else Some r end.
(* Loss.regularize, base_loss.py:75-84; theta is the property, which may raise *)
Definition regularize (l2 : option R) (theta : Result (list R)) (loss : tensor) : Result tensor :=
  match l2 with
  | None => Ok loss
  | Some r => do th <- theta; Ok (addc (5 / 10 * r * rsum (map (fun a => a * a) th)) loss)
  end.

(* ---------- wrapper.py ---------- *)
(* the fields of WrappedPrimalLoss set by wrapper.py:66-87; the parameters are those of self.loss and of self.transform, each flattened *)
Record wrapped := { w_oop : bool; w_has_labels : bool; w_reduce : bool; w_l2 : option R;
                    w_loss_params : list (list R); w_transform_params : list (list R) }.
(* theta, wrapper.py:99-116; torch.concat of an empty list raises *)
Definition w_theta (w : wrapped) : Result (list R) :=
  match (if w_oop w then w_loss_params w ++ w_transform_params w else w_transform_params w) with
  | [] => Raise RuntimeError
  | ps => Ok (List.concat ps)
  end.

Section Wrapped.
(* self.loss(self.transform(xi)), self.loss(self.transform(xi), xi_labels), with reduction='none' for the functional interface *)
Variable loss_call : tensor -> option tensor -> Result tensor.
(* _flat_value_w_labels, _flat_value_wo_labels, wrapper.py:122-144 *)
Definition flat_value (w : wrapped) (xi : tensor) (labels : option tensor) : Result tensor :=
  do l <- loss_call xi labels; regularize (w_l2 w) (w_theta w) l.
(* _reduce_flat_spatial_dims_loss, wrapper.py:146-150 *)
Definition reduce_flat (w : wrapped) (l : tensor) : tensor := if w_reduce w then mean_last l else unsqueeze_last l.
(* value, wrapper.py:152-209 *)
Definition w_value (w : wrapped) (xi : tensor) (xi_labels : option tensor) : Result tensor :=
  if w_has_labels w then
    match xi_labels with
    | None => Raise AssertionError
    | Some y =>
      if (2 <? tdim xi)%nat && (2 <? tdim y)%nat then                                   (* :158-165 *)
        do l <- flat_value w (flatten2 xi) (Some (flatten2 y));
        view (removelast (shp xi) ++ [1%nat]) (reduce_flat w l)
      else if (2 <? tdim xi)%nat && (tdim y =? 2)%nat then                              (* :166-173 *)
        do l <- flat_value w (flatten2 xi) (Some y);
        view (removelast (shp xi) ++ [1%nat]) (reduce_flat w l)
      else if (tdim xi =? 2)%nat && (tdim y <=? 2)%nat then                             (* :174-179 *)
        do l <- flat_value w xi (Some y);
        Ok (reduce_flat w (squeeze l))
      else if (tdim xi =? 1)%nat && (tdim y =? 1)%nat then                              (* :180-185 *)
        do l <- flat_value w (unsqueeze_first xi) (Some (unsqueeze_first y));
        Ok (squeeze (reduce_flat w l))
      else Raise NotImplementedError
    end
  else
    match xi_labels with
    | Some _ => Raise AssertionError
    | None =>
      if (2 <? tdim xi)%nat then                                                        (* :190-196 *)
        do l <- flat_value w (flatten2 xi) None;
        view (removelast (shp xi) ++ [1%nat]) (reduce_flat w l)
      else if (tdim xi =? 2)%nat then                                                   (* :197-201 *)
        do l <- flat_value w xi None;
        Ok (squeeze (reduce_flat w l))
      else if (tdim xi =? 1)%nat then                                                   (* :202-207 *)
        do l <- flat_value w (unsqueeze_first xi) None;
        Ok (squeeze (reduce_flat w l))
      else Raise NotImplementedError
    end.
End Wrapped.

(* ---------- portfolio.py ---------- *)
(* nn.Softmax(dim=-1) of the raw weights, portfolio.py:23 (torch subtracts the maximum first, which changes nothing in exact numbers) *)
Definition softmax (v : vec) : vec := map (fun a => exp a / rsum (map exp v)) v.
(* nn.Linear(d, out) on the last axis: one row of weights and one bias per output *)
Definition linear (weight : list vec) (bias : vec) (d : nat) (x : tensor) : Result tensor :=
  if (last (shp x) 1 =? d)%nat
  then Ok (mkT (removelast (shp x) ++ [length weight]) (List.concat (map (fun r => map2 (fun w b => dot r w + b) weight bias) (trows x))))
  else Raise RuntimeError.
(* forward, portfolio.py:31-35 *)
Definition pf_forward (eta alpha : R) (raw : vec) (tau : R) (xi : tensor) : Result tensor :=
  do returns <- linear [softmax raw] [0] (length raw) xi;
  Ok (tmap (fun r => - r + eta * (tau + Rmax (- r - tau) 0 / alpha)) returns).

(* ---------- weber.py ---------- *)
(* forward, weber.py:13-19. The product of labels and distances is elementwise on equal shapes; broadcasts are not modelled. *)
Definition weber_forward (pos : vec) (xi labels : tensor) : Result tensor :=
  let distances := map (fun r => norm2 (vsub r pos)) (trows xi) in
  let dshape := removelast (shp xi) ++ [1%nat] in
  match shp labels with
  | _ :: m :: _ =>
      if list_eq_dec Nat.eq_dec (shp labels) dshape
      then Ok (mkT dshape (map2 (fun l d => l * d * INR m) (dat labels) distances))
      else Raise RuntimeError
  | _ => Raise IndexError
  end.

(* ---------- logistic.py ---------- *)
(* torch logsigmoid *)
Definition logsigmoid (z : R) : R := ln (1 / (1 + exp (- z))).
(* BiDiffSoftMarginLoss.forward, logistic.py:20-22 *)
Definition softmargin (input target : tensor) : Result tensor :=
  do t <- view (shp input) target;
  Ok (mkT (shp input) (map2 (fun t i => - logsigmoid (t * i)) (dat t) (dat input))).
(* LogisticLoss.value, logistic.py:99-107; bias 0 when fit_intercept is false *)
Definition logistic_value (l2 : option R) (weight : vec) (bias : R) (xi : tensor) (labels : option tensor) : Result tensor :=
  match labels with
  | None => Raise AssertionError
  | Some y => do c <- linear [weight] [bias] (length weight) xi; do l <- softmargin c y; regularize l2 (Ok weight) l
  end.

(* ---------- quadratic.py ---------- *)
(* nn.MSELoss(reduction='none'): elementwise on equal shapes; a column against a vector broadcasts to a matrix. Other broadcasts
   are not modelled. *)
Definition mse (input target : tensor) : Result tensor :=
  if list_eq_dec Nat.eq_dec (shp input) (shp target)
  then Ok (mkT (shp input) (map2 (fun a b => (a - b) * (a - b)) (dat input) (dat target)))
  else match shp input, shp target with
       | [n; 1%nat], [m] => Ok (mkT [n; m] (flat_map (fun a => map (fun b => (a - b) * (a - b)) (dat target)) (dat input)))
       | _, _ => Raise RuntimeError
       end.
(* QuadraticLoss.value, quadratic.py:36-41 *)
Definition quadratic_value (l2 : option R) (weight : vec) (bias : R) (xi : tensor) (labels : option tensor) : Result tensor :=
  match labels with
  | None => Raise AssertionError
  | Some y => do c <- linear [weight] [bias] (length weight) xi; do l <- mse c y; regularize l2 (Ok weight) l
  end.

(* ---------- newsvendor ---------- *)
(* CustomNewsvendorLoss.forward, operations_research/_newsvendor.py:31-34 *)
Definition nv_forward (k u theta : R) (x : tensor) : tensor := mean_last (tmap (fun a => k * theta - u * Rmin theta a) x).
(* NewsVendorLoss_torch.value, losses_torch/newsvendor.py:58-74 *)
Definition nv_torch_value (k u theta : R) (xi : tensor) (labels : option tensor) : Result tensor :=
  match labels with
  | None => Raise AssertionError
  | Some _ => Ok (tmap (fun c => k * theta - u * c) (mean_last (tmap (Rmin theta) xi)))
  end.

(* ---------- Portfolio.__init__, operations_research/_portfolio.py:105-121 ---------- *)
Definition pf_init (rho eta alpha solver_reg : R) (n_zeta_samples : R) : Result unit :=
  if Rltb rho 0 then Raise ValueError
  else if Rltb eta 0 then Raise ValueError
  else if Rleb alpha 0 || Rltb 1 alpha then Raise ValueError
  else if Rltb solver_reg 0 then Raise ValueError
  else if Rltb n_zeta_samples 0 then Raise ValueError
  else Ok tt.
