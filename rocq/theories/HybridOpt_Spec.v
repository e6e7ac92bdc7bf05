(* Rules of a parameter group, and what an inner optimiser may do. *)
From Coq Require Import Reals List String.
From Verif Require Import PyBase RList HybridOpt_Model.
Import ListNotations.
Open Scope R_scope.

Definition rule_names : list string := ["mwu"; "mwu_simplex"; "max"; "bound"; "non_neg"]%string.
(* the group names the rule k and no other *)
Definition only (k : string) (g : group) : Prop :=
  In k rule_names /\ In k (g_keys g) /\ forall k', In k' rule_names -> In k' (g_keys g) -> k' = k.
Definition no_rule (g : group) : Prop := forall k, In k rule_names -> ~ In k (g_keys g).

(* an inner optimiser keeps the groups, their keys and the number of their parameters *)
Definition keeps_groups (inner : list group -> list group * option exn) : Prop :=
  forall gs, Forall2 (fun g g' => g_keys g' = g_keys g /\ List.length (g_params g') = List.length (g_params g)) gs (fst (inner gs)).

Definition positive (p : par) : Prop := Forall (fun x => 0 < x) (val p).
Definition well_shaped (p : par) : Prop := match grad p with None => True | Some g => List.length g = List.length (val p) end.

(* one step of multiplicative weights, of its normalised form, of gradient ascent, of clipped descent *)
Definition mw (lr : R) (p : par) : list R :=
  match grad p with None => val p | Some g => map2 (fun x d => x * exp (- lr * d)) (val p) g end.
Definition normalised (v : list R) : list R := map (fun x => x / rsum v) v.
Definition ascent (lr : R) (p : par) : list R :=
  match grad p with None => val p | Some g => map2 (fun x d => x + lr * d) (val p) g end.
Definition descent (lr : R) (p : par) : list R :=
  match grad p with None => val p | Some g => map2 (fun x d => x - lr * d) (val p) g end.
