(* Model of the rest of skwdro/distributions/dirac_distribution.py: validation of the arguments, expand, moments, support,
   entropy. Samplers_Model has the constructor without validation, rsample and log_prob. *)
From Coq Require Import Reals List Bool ZArith.
From Verif Require Import PyBase RList XReal Samplers_Model.
Import ListNotations.
Local Open Scope R_scope.

(* n rows of k entries *)
Fixpoint split_rows (n k : nat) (l : list xr) : list (list xr) :=
  match n with O => [] | S m => firstn k l :: split_rows m k (skipn k l) end.

(* torch.Tensor.expand between shapes of the same length: which sizes are accepted, and the entries *)
Fixpoint compat (src tgt : list nat) : bool :=
  match src, tgt with
  | [], [] => true
  | s :: ss, t :: ts => (Nat.eqb s t || Nat.eqb s 1) && compat ss ts
  | _, _ => false
  end.
Fixpoint bdata (src tgt : list nat) (d : list xr) : list xr :=
  match src, tgt with
  | s :: ss, t :: ts =>
      let all := List.concat (map (bdata ss ts) (split_rows s (prod ss) d)) in
      if Nat.eqb s t then all else List.concat (repeat all t)
  | _, _ => d
  end.
(* x.expand(shape) for sizes >= 0: missing axes are added in front with size 1; RuntimeError when the sizes do not fit (torch) *)
Definition pad (shape src : list nat) : list nat := repeat 1%nat (List.length shape - List.length src) ++ src.
Definition texpand (shape : list nat) (t : tensor) : Result tensor :=
  if Nat.leb (List.length (t_shape t)) (List.length shape) && compat (pad shape (t_shape t)) shape
  then Ok {| t_shape := shape; t_data := bdata (pad shape (t_shape t)) shape (t_data t) |}
  else Raise RuntimeError.

(* Dirac(loc, n_batch_dims, validate_args), dirac_distribution.py:12-30, with the validation done by torch's
   Distribution.__init__ unless validate_args is False: the constraint real_vector refuses a 0-dimensional loc and NaN entries
   (ValueError), and fails to reshape a tensor with an empty leading axis (RuntimeError) *)
Definition dirac_new (loc : tensor) (n_batch_dims : nat) (validate_args : option bool) : Result dirac :=
  match validate_args with
  | Some false => Ok (Dirac loc n_batch_dims)
  | _ =>
      match t_shape loc with
      | [] => Raise ValueError
      | sh => if Nat.eqb (prod (removelast sh)) 0 then Raise RuntimeError
              else if existsb isnan (t_data loc) then Raise ValueError else Ok (Dirac loc n_batch_dims)
      end
  end.

(* Dirac.expand, dirac_distribution.py:32-69 (no subclass instance given; cast_to_size, :106-111, does not change the sizes) *)
Definition dirac_expand (d : dirac) (bs : list nat) : Result dirac :=
  do l <- texpand (bs ++ d_event d) (d_loc d); Ok {| d_loc := l; d_batch := bs; d_event := d_event d |}.

(* mean, mode and variance, dirac_distribution.py:71-81 *)
Definition dirac_mean (d : dirac) : tensor := d_loc d.
Definition dirac_mode (d : dirac) : tensor := d_loc d.
Definition dirac_variance (d : dirac) : tensor :=
  {| t_shape := t_shape (d_loc d); t_data := map (fun _ => Fin 0) (t_data (d_loc d)) |}.

(* enumerate_support, dirac_distribution.py:93-97 *)
Definition dirac_support (d : dirac) (expand : bool) : Result tensor :=
  if expand then Ok (dirac_rsample d [1%nat]) else Raise NotImplementedError.

(* entropy and perplexity, dirac_distribution.py:99-103: scalar tensors *)
Definition dirac_entropy (d : dirac) : tensor := {| t_shape := []; t_data := [MInf] |}.
Definition dirac_perplexity (d : dirac) : tensor := {| t_shape := []; t_data := [Fin 0] |}.
