(* Model of the collection of gradients by BlanchetRhoTunedEstimator.fit, skwdro/base/rho_tuners.py:69-175. Numbers are exact
   reals, the differentiation itself (torch) is an argument. What is kept is what the statements do with memory: backward adds
   into the tensor theta.grad, and h_samples_ is first that very tensor. *)
From Coq Require Import Reals List Bool.
From Verif Require Import PyBase RList.
Import ListNotations.
Local Open Scope R_scope.

(* DiffLoss.convert, rho_tuners.py:77-86, the labels: tensors are returned unchanged; arrays of labels become the tensor
   from_numpy(np.array([y])).float().unsqueeze(-1).mean(), one number. Rounding to float32 is not modelled. *)
Inductive labels := NoLabels | OneLabel (m : R) | Column (l : list R).
Definition diff_convert (tensors : bool) (y : option (list R)) : labels :=
  match y with
  | None => NoLabels
  | Some l => if tensors then Column l else OneLabel (rmean l)
  end.
(* the label that the loss meets at each of n rows, by broadcasting *)
Definition row_labels (n : nat) (l : labels) : list (option R) :=
  match l with NoLabels => repeat None n | OneLabel m => repeat (Some m) n | Column c => map Some c end.

(* h_samples_ is either the tensor theta.grad itself (:152) or a tensor of its own, by rows (:158) *)
Inductive hval := HAlias | HRows (l : list vec).
(* theta.grad, None before any backward, and h_samples_ *)
Record mem := Mem { m_grad : option vec; m_h : hval }.
(* the rows of h_samples_ as read now *)
Definition read_h (s : mem) : list vec :=
  match m_h s with HRows l => l | HAlias => match m_grad s with Some v => [v] | None => [] end end.
(* output[i].backward(retain_graph=True), :149 and :155: torch stores the first gradient and then adds in place *)
Definition backward (g : vec) (s : mem) : mem :=
  Mem (Some (match m_grad s with None => g | Some v => vadd v g end)) (m_h s).
(* one turn of the loop, :154-158: backward, then vstack of h_samples_ and theta.grad, a copy of both *)
Definition turn (s : mem) (g : vec) : mem :=
  let s1 := backward g s in
  Mem (m_grad s1) (HRows (read_h s1 ++ match m_grad s1 with Some v => [v] | None => [] end)).
(* :149-158 for the other classes: [left] is what the first fit of the estimator left in theta.grad, gs the gradients of the
   outputs; output[0] of an empty output raises *)
Definition collect (left : option vec) (gs : list vec) : Result (list vec) :=
  match gs with
  | [] => Raise IndexError
  | g :: r => let s := backward g (Mem left HAlias) in Ok (read_h (fold_left turn r (Mem (m_grad s) HAlias)))
  end.
(* :149-158 for a Portfolio, whose first row is cat((theta.data, tau.data)), a copy; the gradients are those in (theta, tau),
   side by side; the parameters are taken as the leaves (no reparametrisation) *)
Definition collect_pf (params : vec) (left : option vec) (gs : list vec) : Result (list vec) :=
  match gs with
  | [] => Raise IndexError
  | g :: r => let s := backward g (Mem left HAlias) in Ok (read_h (fold_left turn r (Mem (m_grad s) (HRows [params]))))
  end.

Section Loss.
(* the gradient in the parameters of the loss at a sample and its label, if any *)
Variable loss_grad : vec -> option R -> vec.
(* :134, the outputs of diff_loss.value(X, y) differentiated one by one *)
Definition output_grads (tensors : bool) (X : list vec) (y : option (list R)) : list vec :=
  map2 loss_grad X (row_labels (List.length X) (diff_convert tensors y)).
(* :134-158 *)
Definition blanchet_h (portfolio dedicated tensors : bool) (params : vec) (left : option vec) (X : list vec) (y : option (list R)) : Result (list vec) :=
  if portfolio then
    if dedicated then Raise NotImplementedError else collect_pf params left (output_grads tensors X y)
  else collect left (output_grads tensors X y).
End Loss.

(* pt.cov of the transpose of H, :160-161: one variable per column of H, divided by the number of rows less the correction *)
Definition column (H : list vec) (k : nat) : vec := map (fun r => nth k r 0) H.
Definition cov_of (corr : R) (H : list vec) (i j : nat) : R :=
  rsum (map2 (fun a b => (a - rmean (column H i)) * (b - rmean (column H j))) (column H i) (column H j)) / (INR (List.length H) - corr).
(* the covariance matrix for d parameters: correction=0 when there is one, 1 otherwise, :160-161 *)
Definition blanchet_cov (d : nat) (H : list vec) (i j : nat) : R := cov_of (if Nat.eqb d 1 then 0 else 1) H i j.
(* :164-169, [low] the smallest eigenvalue found by eigvalsh *)
Definition lifted (low : R) (A : nat -> nat -> R) (i j : nat) : R :=
  A i j + (Rmax 0 (- low) + 1 / 10000) * (if Nat.eqb i j then 1 else 0).
(* :173-175, one parameter: a draw of Normal(0, scale = cov) from a standard normal number *)
Definition blanchet_draw1 (H : list vec) (noise : R) : R := blanchet_cov 1 H 0 0 * noise.
