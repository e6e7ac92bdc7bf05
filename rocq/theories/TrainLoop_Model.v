(* The training loops written out in the documentation and in the example scripts: README.md:246-258,
   doc/user_guide.rst:139-152, examples/custom_models/classifiers_comparison.py:51-76, regressors_comparison.py:50-78,
   polynomial_regression.py:75-98 and neural_net.py:157-194. Progress bars, printing, the test loss and the accuracy of
   neural_net.py are left out. *)
From Coq Require Import Reals List Bool.
From Verif Require Import PyBase RList XReal Costs_Model Oracle_Model.
Import ListNotations.
Local Open Scope R_scope.

Section Loops.
Variable B : Type.                 (* a batch: features, labels and the samples drawn around them in that forward pass *)
Variable OS : Type.                (* what the optimiser remembers *)

(* the optimiser, the parameters of the model and the multiplier _lam *)
Record tst := { t_opt : OS; t_theta : vec; t_lam : xr }.

(* robust_loss(batch) at theta and lambda, and what backward() leaves in .grad: one number per parameter of the model, one
   for the multiplier *)
Variable obj : B -> vec -> xr -> xr.
Variable grad : B -> vec -> xr -> vec * xr.
(* robust_loss.get_initial_guess_at_dual(batch): the new value of _lam (dual_loss.py:143-178; InitGuess_Model.initial_guess) *)
Variable guess : B -> vec -> xr -> Result xr.

(* ---- README.md:246-258, doc/user_guide.rst:139-152 ---- *)
(* optim.AdamW(model.parameters(), lr=.1).step(): the optimiser is given the parameters of the model only *)
Variable opt_theta : OS -> vec -> vec -> OS * vec.

(* README.md:253-257: zero_grad, forward, backward, step; the number added to avg_loss is returned too *)
Definition readme_step (s : tst) (b : B) : tst * xr :=
  let (o, th) := opt_theta (t_opt s) (t_theta s) (fst (grad b (t_theta s) (t_lam s))) in
  ({| t_opt := o; t_theta := th; t_lam := t_lam s |}, obj b (t_theta s) (t_lam s)).

(* README.md:252-257: the loader, one batch after the other *)
Fixpoint readme_batches (s : tst) (bs : list B) : tst * list xr :=
  match bs with
  | [] => (s, [])
  | b :: r => let (s1, v) := readme_step s b in let (s2, vs) := readme_batches s1 r in (s2, v :: vs)
  end.

(* README.md:250-257: one epoch; [full] is (X, y) *)
Definition readme_epoch (full : B) (bs : list B) (s : tst) : Result (tst * list xr) :=
  do l <- guess full (t_theta s) (t_lam s);
  Ok (readme_batches {| t_opt := t_opt s; t_theta := t_theta s; t_lam := l |} bs).

(* README.md:249-258 *)
Fixpoint readme_train (epochs : nat) (full : B) (bs : list B) (s : tst) : Result tst :=
  match epochs with
  | O => Ok s
  | S k => do r <- readme_epoch full bs s; readme_train k full bs (fst r)
  end.

(* ---- the loops over dual_loss.parameters() ---- *)
(* one call of optimizer.step, with the closure it may evaluate anywhere: it is given the multiplier too *)
Variable opt_all : OS -> (vec -> xr -> xr * (vec * xr)) -> vec -> xr -> OS * (vec * xr).
Definition closure (b : B) (th : vec) (l : xr) : xr * (vec * xr) := (obj b th l, grad b th l).
Definition step_all (s : tst) (b : B) : tst :=
  let '(o, (th, l)) := opt_all (t_opt s) (closure b) (t_theta s) (t_lam s) in {| t_opt := o; t_theta := th; t_lam := l |}.

(* classifiers_comparison.py:67-70, regressors_comparison.py:67-70: "if lam <= 0: _lam.mul_(0.)" *)
Definition clip_lam (l : xr) : xr := if xle l (Fin 0) then xmul l (Fin 0) else l.
Definition clip (s : tst) : tst := {| t_opt := t_opt s; t_theta := t_theta s; t_lam := clip_lam (t_lam s) |}.

(* classifiers_comparison.py:65-70 *)
Fixpoint classif_loop (epochs : nat) (full : B) (s : tst) : tst :=
  match epochs with O => s | S k => classif_loop k full (clip (step_all s full)) end.
(* classifiers_comparison.py:51-76 *)
Definition classif_train (epochs : nat) (full : B) (s : tst) : Result tst :=
  do l <- guess full (t_theta s) (t_lam s);
  Ok (classif_loop epochs full {| t_opt := t_opt s; t_theta := t_theta s; t_lam := l |}).

(* regressors_comparison.py:64-72: the loss is read by closure() before the step, and compared with 1e-3 after it. The second
   result is the list of the losses that were read. *)
Fixpoint regress_loop (epochs : nat) (full : B) (s : tst) : tst * list xr :=
  match epochs with
  | O => (s, [])
  | S k =>
      let l := obj full (t_theta s) (t_lam s) in
      let s1 := clip (step_all s full) in
      if xlt l (Fin (/ 1000)) then (s1, [l])
      else let (s2, ls) := regress_loop k full s1 in (s2, l :: ls)
  end.
(* regressors_comparison.py:50-78 *)
Definition regress_train (epochs : nat) (full : B) (s : tst) : Result (tst * list xr) :=
  do l <- guess full (t_theta s) (t_lam s);
  Ok (regress_loop epochs full {| t_opt := t_opt s; t_theta := t_theta s; t_lam := l |}).

(* polynomial_regression.py:87-96: the guess on the first batch b0 of the loader, then a step per batch; no clipping. The
   loader is taken to have a batch, and to give the same batches in every epoch. *)
Definition poly_epoch (b0 : B) (rest : list B) (s : tst) : Result tst :=
  do l <- guess b0 (t_theta s) (t_lam s);
  Ok (fold_left step_all (b0 :: rest) {| t_opt := t_opt s; t_theta := t_theta s; t_lam := l |}).
Fixpoint poly_train (epochs : nat) (b0 : B) (rest : list B) (s : tst) : Result tst :=
  match epochs with O => Ok s | S k => do s1 <- poly_epoch b0 rest s; poly_train k b0 rest s1 end.

(* neural_net.py:157-175: no guess, no clipping *)
Fixpoint nn_train (epochs : nat) (bs : list B) (s : tst) : tst :=
  match epochs with O => s | S k => nn_train k bs (fold_left step_all bs s) end.
End Loops.
Arguments t_opt {OS}. Arguments t_theta {OS}. Arguments t_lam {OS}.

(* ---- pt.optim.AdamW(params, lr) with torch's default options, neural_net.py:158 and README.md:246 (torch code) ---- *)
(* one coordinate: betas=(.9,.999), eps=1e-8, weight_decay=.01, no amsgrad; the field a_vmax is not used *)
Definition adamw_default (lr : R) (s : adam) (x g : R) : adam * R :=
  let b1 := 9 / 10 in let b2 := 999 / 1000 in let eps := / 100000000 in let wd := / 100 in
  let t := S (a_t s) in
  let m := b1 * a_m s + (1 - b1) * g in
  let v := b2 * a_v s + (1 - b2) * (g * g) in
  let denom := sqrt v / sqrt (1 - b2 ^ t) + eps in
  ({| a_t := t; a_m := m; a_v := v; a_vmax := a_vmax s |}, x * (1 - lr * wd) - lr / (1 - b1 ^ t) * (m / denom)).

(* all coordinates of the model, each with its own moments *)
Fixpoint adamw_vec (lr : R) (ss : list adam) (th g : vec) : list adam * vec :=
  match ss, th, g with
  | s :: ss', x :: th', a :: g' =>
      let (s1, x1) := adamw_default lr s x a in let (ss1, th1) := adamw_vec lr ss' th' g' in (s1 :: ss1, x1 :: th1)
  | _, _, _ => (ss, th)
  end.

(* AdamW on the multiplier and the model: one evaluation of the closure, then every coordinate. A multiplier or a gradient
   that is not finite makes the multiplier NaN. *)
Definition adamw_all (lr : R) (o : adam * list adam) (c : vec -> xr -> xr * (vec * xr)) (th : vec) (l : xr) : (adam * list adam) * (vec * xr) :=
  let '(_, (gt, gl)) := c th l in
  let (ss, th1) := adamw_vec lr (snd o) th gt in
  match l, gl with
  | Fin x, Fin g => let (s1, x1) := adamw_default lr (fst o) x g in ((s1, ss), (th1, Fin x1))
  | _, _ => ((fst o, ss), (th1, NaN))
  end.
