(* Model of the per-sample gradients, solvers/_dual_interfaces/_impsamp_interface.py:79-205: which function of one sample is
   differentiated, when differentiation is refused, and what is returned. Differentiation itself (torch.func.grad) is the operator [D];
   the frozen flags and the modes are in Oracle_Model. *)
From Coq Require Import Reals List Bool Arith.
From Verif Require Import PyBase RList XReal Tensor TDual_Model.
Import ListNotations.
Local Open Scope R_scope.

(* a vector as a tensor: what vmap passes for one sample *)
Definition vtensor (v : vec) : tensor := mkT [List.length v] v.
Section Grads.
(* functional_call of the primal loss with its current parameters, on data and labels *)
Variable model : tensor -> option tensor -> Result tensor.
(* torch.func.grad of a function of one vector, at a vector *)
Variable D : (vec -> R) -> vec -> vec.

(* call_loss, _impsamp_interface.py:114-124 *)
Definition call_loss (data : vec) (target : option vec) : Result tensor :=
  do loss <- model (unsqueeze_first (vtensor data)) (option_map (fun t => unsqueeze_first (vtensor t)) target);
  Ok (squeeze0 loss).
(* torch.func.grad refuses a function whose value is not a tensor without axes *)
Definition scalar_out (t : tensor) : Result R := match shp t with [] => Ok (hd 0 (dat t)) | _ => Raise RuntimeError end.
Definition sample_loss (data : vec) (target : option vec) : Result R := do l <- call_loss data target; scalar_out l.
Definition value_of (r : Result R) : R := match r with Ok v => v | Raise _ => 0 end.
(* grad_func, _impsamp_interface.py:126-131: with respect to the data, and to the labels if there are any *)
Definition grad_func (data : vec) (target : option vec) : Result (vec * option vec) :=
  do _ <- sample_loss data target;
  Ok (D (fun x => value_of (sample_loss x target)) data,
      match target with None => None | Some t => Some (D (fun y => value_of (sample_loss data (Some y))) t) end).
(* per_sample_grad_func, _impsamp_interface.py:132-165: the same for each row; the outer vmap is over an axis of size 1.
   vmap refuses data and labels of different lengths. *)
Fixpoint psg (xs : list vec) : Result (list vec) :=
  match xs with [] => Ok [] | x :: r => do (g, _) <- grad_func x None; do gs <- psg r; Ok (g :: gs) end.
Fixpoint psg_labelled (xs ys : list vec) : Result (list vec * list vec) :=
  match xs, ys with
  | [], [] => Ok ([], [])
  | x :: xs, y :: ys =>
      do (g, gl) <- grad_func x (Some y);
      do (gs, gls) <- psg_labelled xs ys;
      Ok (g :: gs, match gl with Some l => l | None => [] end :: gls)
  | _, _ => Raise ValueError
  end.
Definition functional_grads (xs : list vec) (ys : option (list vec)) : Result (list vec * option (list vec)) :=
  match ys with
  | None => do g <- psg xs; Ok (g, None)
  | Some ys =>
      if (List.length xs =? List.length ys)%nat then do (g, gl) <- psg_labelled xs ys; Ok (g, Some gl) else Raise ValueError
  end.
(* get_displacement_direction, _impsamp_interface.py:167-205, on (m, d) data *)
Definition direction (xi : tensor) (xi_labels : option tensor) : Result (list (list xr) * option (list (list xr))) :=
  do (g, gl) <- functional_grads (trows xi) (option_map trows xi_labels);
  Ok (map (map Fin) g, option_map (map (map Fin)) gl).
End Grads.
