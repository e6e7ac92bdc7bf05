(* What primal losses are for. *)
From Coq Require Import Reals List.
From Verif Require Import PyBase RList Tensor.
Import ListNotations.
Local Open Scope R_scope.

(* a loss that treats the rows of a flat batch separately: row x with label y has the k values g x y *)
Definition rowwise_labelled (loss : tensor -> option tensor -> Result tensor) (d dl k : nat) (g : vec -> vec -> vec) : Prop :=
  forall xs ys, widths d xs -> widths dl ys -> length xs = length ys ->
  loss (batch [length xs] d xs) (Some (batch [length xs] dl ys)) = Ok (batch [length xs] k (map2 g xs ys)).
Definition rowwise (loss : tensor -> option tensor -> Result tensor) (d k : nat) (g : vec -> vec) : Prop :=
  forall xs, widths d xs -> loss (batch [length xs] d xs) None = Ok (batch [length xs] k (map g xs)).
(* the same for losses that return one number per row without a trailing axis *)
Definition rowwise_flat_labelled (loss : tensor -> option tensor -> Result tensor) (d dl : nat) (h : vec -> vec -> R) : Prop :=
  forall xs ys, widths d xs -> widths dl ys -> length xs = length ys ->
  loss (batch [length xs] d xs) (Some (batch [length xs] dl ys)) = Ok (mkT [length xs] (map2 h xs ys)).

(* one value per sample, on the axes of the samples *)
Definition per_sample (b : list nat) (vals : list R) : tensor := batch b 1 (map (fun v => [v]) vals).

(* a long-only, fully invested portfolio *)
Definition long_only (w : vec) : Prop := Forall (fun a => 0 < a) w /\ rsum w = 1.

(* conditional value at risk of the losses zs at level alpha: the largest mean over reweightings of density at most 1/alpha *)
Definition reweighting (alpha : R) (zs q : vec) : Prop :=
  length q = length zs /\ Forall (fun a => 0 <= a <= 1 / (alpha * INR (length zs))) q /\ rsum q = 1.
Definition is_cvar (alpha : R) (zs : vec) (c : R) : Prop :=
  (exists q, reweighting alpha zs q /\ dot q zs = c) /\ forall q, reweighting alpha zs q -> dot q zs <= c.

(* portfolio loss of one return vector, for weights w and threshold tau *)
Definition risk_loss (eta alpha : R) (w : vec) (tau : R) (x : vec) : R :=
  - dot w x + eta * (tau + Rmax (- dot w x - tau) 0 / alpha).
