(* Model of skwdro/base/problems.py: empirical distributions. Arrays are mutable objects at addresses in a heap. *)
From Coq Require Import Reals List Bool Arith.
From Verif Require Import PyBase.
Import ListNotations.

Record heap := { cells : nat -> list (list R); top : nat }.
(* what a caller can pass: an ndarray, a list (its copy takes no argument), a tensor (no copy method) *)
Inductive pyobj := Arr (a : nat) | PyList | Tensor.

(* the classes: class attribute with_labels is missing on the base class (:10-12), False at :68, True at :84 *)
Inductive cls := Base | WithoutLabels | WithLabels.
Record dist := { kind : cls; d_m : nat; f_samples : option pyobj; f_x : option pyobj; f_y : option pyobj }.

(* :70-77: the samples are kept as they are *)
Definition make_nolabels (m : nat) (samples : pyobj) : dist :=
  {| kind := WithoutLabels; d_m := m; f_samples := Some samples; f_x := None; f_y := None |}.
(* .copy('K') *)
Definition np_copy (h : heap) (o : pyobj) : Result (heap * pyobj) :=
  match o with
  | Arr a => Ok ({| cells := fun i => if i =? top h then cells h a else cells h i; top := S (top h) |}, Arr (top h))
  | PyList => Raise TypeError
  | Tensor => Raise AttributeError
  end.
(* :86-95 *)
Definition make_labels (h : heap) (m : nat) (x y : pyobj) : Result (heap * dist) :=
  do p <- np_copy h x;
  do q <- np_copy (fst p) y;
  Ok (fst q, {| kind := WithLabels; d_m := m; f_samples := None; f_x := Some (snd p); f_y := Some (snd q) |}).

(* self.with_labels *)
Definition with_labels (d : dist) : Result bool :=
  match kind d with Base => Raise AttributeError | WithoutLabels => Ok false | WithLabels => Ok true end.
(* :21-26, :35-40, :49-54; None is the Python None *)
Definition get_samples (d : dist) : Result (option pyobj) :=
  do b <- with_labels d; if b then Raise AttributeError else Ok (f_samples d).
Definition get_x (d : dist) : Result (option pyobj) :=
  do b <- with_labels d; if b then Ok (f_x d) else Raise AttributeError.
Definition get_y (d : dist) : Result (option pyobj) :=
  do b <- with_labels d; if b then Ok (f_y d) else Raise AttributeError.
(* :28-33, :42-47, :56-61 *)
Definition is_array (o : pyobj) : bool := match o with Arr _ => true | _ => false end.
Definition set_samples (d : dist) (o : pyobj) : Result dist :=
  if is_array o then Ok {| kind := kind d; d_m := d_m d; f_samples := Some o; f_x := f_x d; f_y := f_y d |} else Raise TypeError.
Definition set_x (d : dist) (o : pyobj) : Result dist :=
  if is_array o then Ok {| kind := kind d; d_m := d_m d; f_samples := f_samples d; f_x := Some o; f_y := f_y d |} else Raise TypeError.
Definition set_y (d : dist) (o : pyobj) : Result dist :=
  if is_array o then Ok {| kind := kind d; d_m := d_m d; f_samples := f_samples d; f_x := f_x d; f_y := Some o |} else Raise TypeError.

(* the caller writes into an array *)
Definition write (h : heap) (a : nat) (v : list (list R)) : heap :=
  {| cells := fun i => if i =? a then v else cells h i; top := top h |}.
(* contents of what a property returned *)
Definition contents (h : heap) (r : Result (option pyobj)) : option (list (list R)) :=
  match r with Ok (Some (Arr a)) => Some (cells h a) | _ => None end.
