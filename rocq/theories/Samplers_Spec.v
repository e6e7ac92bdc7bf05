(* Vocabulary for the sampler properties, independent of how the samplers are implemented. *)
From Coq Require Import Reals List Bool ZArith.
From Verif Require Import PyBase RList XReal Samplers_Model.
Import ListNotations.
Local Open Scope R_scope.

(* the location of a law, and the law up to its location *)
Definition loc_of (d : dist) : batch := match d with LocScale _ l _ | DiracAt l => l end.
Definition same_law (d d' : dist) : Prop :=
  match d, d' with
  | LocScale f _ s, LocScale f' _ s' => f = f' /\ s = s'
  | DiracAt _, DiracAt _ => True
  | _, _ => False
  end.
Definition same_law_opt (d d' : option dist) : Prop :=
  match d, d' with None, None => True | Some a, Some b => same_law a b | _, _ => False end.

(* a sampler made by one of the two constructors *)
Definition built (s : csampler) : Prop :=
  exists c xi sigma seed, nolabels_init c xi sigma seed = Ok s \/ exists y, labeled_init c xi y sigma seed = Ok s.

(* everything but the means *)
Definition kept (s s' : csampler) : Prop :=
  cs_cost s' = cs_cost s /\ cs_sigma s' = cs_sigma s /\ cs_seed s' = cs_seed s /\
  same_law (cs_data s) (cs_data s') /\ same_law_opt (cs_labels s) (cs_labels s').

(* the means in force after a list of resets: the last ones given, where a labelled sampler ignores (and rejects)
   the resets without labels and an unlabelled one ignores the labels *)
Fixpoint last_means (labelled : bool) (cur : batch * option batch) (l : list (batch * option batch)) : batch * option batch :=
  match l with
  | [] => cur
  | (xi, y) :: r =>
      last_means labelled (if labelled then match y with None => cur | Some _ => (xi, y) end else (xi, None)) r
  end.

Definition has_labels (s : csampler) : bool := match cs_labels s with None => false | Some _ => true end.
Definition means (s : csampler) : batch * option batch := (loc_of (cs_data s), option_map loc_of (cs_labels s)).

(* the zetas of the samplers standing at the successive batches, all drawn from one generator state *)
Definition at_batch (s : csampler) (b : batch * option batch) : csampler := cs_reset_caught s b.

(* entries of a matrix and of the covariance L L^T *)
Definition entry (M : mat) (i j : nat) : R := nth j (nth i M []) 0.
Definition cov_entry (L : mat) (i j : nat) : R := dot (nth i L []) (nth j L []).

(* probability that a random label differs from y *)
Definition prob_switch (law : list (R * R)) (y : R) : R :=
  rsum (map (fun wz => if Req_EM_T (snd wz) y then 0 else fst wz) law).

(* row-major indexing *)
Fixpoint flat (shape idx : list nat) : nat :=
  match shape, idx with n :: sh, i :: is => (i * prod sh + flat sh is)%nat | _, _ => 0%nat end.
Definition valid_idx (shape idx : list nat) : Prop := Forall2 (fun n i => (i < n)%nat) shape idx.
Definition tget (t : tensor) (idx : list nat) : option xr := nth_error (t_data t) (flat (t_shape t) idx).

(* the k-th element (event) of a flat value *)
Definition event (E : nat) (v : list xr) (k : nat) : list xr := firstn E (skipn (k * E) v).
Definition finite_list (l : list xr) : Prop := Forall (fun x => exists r, x = Fin r) l.
