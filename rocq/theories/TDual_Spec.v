(* Specification side of the tensor-level robust loss: how m data points with n samples each are laid out in tensors, and the rows
   of the objective. *)
From Coq Require Import Reals List.
From Verif Require Import PyBase RList Tensor Dual_Model.
Import ListNotations.
Local Open Scope R_scope.

(* an (n, m, k) tensor: n draws of m rows of width k *)
Definition grid (n m k : nat) (zs : list (list (list R))) : tensor := batch [n; m] k (List.concat zs).
Definition is_grid (n m k : nat) (zs : list (list (list R))) : Prop :=
  length zs = n /\ Forall (fun z => length z = m /\ widths k z) zs.

(* the rows of the objective: data point j with the j-th point of every draw *)
Definition point_rows {P} (dflt : P) (means xs : list P) (zs : list (list P)) : list (row P) :=
  map (fun j => {| r_mean := nth j means dflt; r_xi := nth j xs dflt; r_zeta := map (fun z => nth j z dflt) zs |}) (seq 0 (length xs)).

(* a value function that treats samples separately: one number per sample, on the axes of the samples *)
Definition per_point (n m : nat) (vals : list (list R)) : tensor := batch [n; m] 1 (map (fun v => [v]) (List.concat vals)).
Definition samplewise (value : tensor -> option tensor -> Result tensor) (k : nat) (L : vec -> R) : Prop :=
  forall n m zs, is_grid n m k zs -> value (grid n m k zs) None = Ok (per_point n m (map (map L) zs)).
Definition samplewise_labelled (value : tensor -> option tensor -> Result tensor) (k kl : nat) (L : vec -> vec -> R) : Prop :=
  forall n m zs zls, is_grid n m k zs -> is_grid n m kl zls ->
  value (grid n m k zs) (Some (grid n m kl zls)) = Ok (per_point n m (map2 (map2 L) zs zls)).

(* labelled points *)
Definition pairs (xs ys : list vec) : list (vec * vec) := List.combine xs ys.
