(* What the gradients collected for the choice of the radius should be, without the model. *)
From Coq Require Import Reals List.
From Verif Require Import PyBase RList.
Import ListNotations.
Local Open Scope R_scope.

(* a table of rows of d numbers *)
Definition table (d : nat) (H : list vec) : Prop := Forall (fun r => List.length r = d) H.
(* entry of a table *)
Definition at_ (H : list vec) (i k : nat) : R := nth k (nth i H []) 0.
(* the gradients at the samples, each at its own label *)
Definition own_gradients (loss_grad : vec -> option R -> vec) (X : list vec) (y : option (list R)) : list vec :=
  match y with None => map (fun x => loss_grad x None) X | Some l => map2 (fun x a => loss_grad x (Some a)) X l end.
(* the sum of entry k over the first i+1 rows, on top of what was there before *)
Definition running_total (left : option vec) (G : list vec) (i k : nat) : R :=
  match left with None => 0 | Some v => nth k v 0 end + rsum (map (fun r => nth k r 0) (firstn (S i) G)).
(* sum of squared deviations *)
Definition spread (l : list R) : R := rsum (map (fun a => Rsqr (a - rmean l)) l).
(* quadratic form of a matrix given by its entries, on vectors of d numbers *)
Definition qform (d : nat) (A : nat -> nat -> R) (v : nat -> R) : R :=
  rsum (map (fun i => rsum (map (fun j => v i * A i j * v j) (seq 0 d))) (seq 0 d)).
(* products of the differences of two columns, over all pairs of rows *)
Definition pair_sum (H : list vec) (i j : nat) : R :=
  rsum (map (fun r => rsum (map (fun s => (nth i r 0 - nth i s 0) * (nth j r 0 - nth j s 0)) H)) H).
