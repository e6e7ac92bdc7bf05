(* Extended numbers with IEEE-style special values, exact on finite ones (no rounding, no overflow).
   Used where control flow of the code depends on NaN or infinite values. Signed zeros are not modelled: a zero
   divisor counts as +0. *)
From Coq Require Import Reals List Lra Bool.
Import ListNotations.
Local Open Scope R_scope.

Inductive xr := Fin (r : R) | PInf | MInf | NaN.

Definition Rltb (x y : R) : bool := if Rlt_dec x y then true else false.
Definition Rleb (x y : R) : bool := if Rle_dec x y then true else false.
Definition Reqb (x y : R) : bool := if Req_EM_T x y then true else false.

Lemma Rltb_true x y : Rltb x y = true <-> x < y.
Proof. unfold Rltb. destruct (Rlt_dec x y); split; auto; discriminate. Qed.
Lemma Rltb_false x y : Rltb x y = false <-> y <= x.
Proof. unfold Rltb. destruct (Rlt_dec x y); split; intros; try discriminate; try lra; auto. Qed.
Lemma Rleb_true x y : Rleb x y = true <-> x <= y.
Proof. unfold Rleb. destruct (Rle_dec x y); split; auto; discriminate. Qed.
Lemma Rleb_false x y : Rleb x y = false <-> y < x.
Proof. unfold Rleb. destruct (Rle_dec x y); split; intros; try discriminate; try lra; auto. Qed.
Lemma Reqb_true x y : Reqb x y = true <-> x = y.
Proof. unfold Reqb. destruct (Req_EM_T x y); split; auto; discriminate. Qed.
Lemma Reqb_false x y : Reqb x y = false <-> x <> y.
Proof. unfold Reqb. destruct (Req_EM_T x y); split; intros; try discriminate; auto. contradiction. Qed.

Definition isfinite (x : xr) : bool := match x with Fin _ => true | _ => false end.
Definition isnan (x : xr) : bool := match x with NaN => true | _ => false end.

Definition xopp (x : xr) : xr := match x with Fin r => Fin (- r) | PInf => MInf | MInf => PInf | NaN => NaN end.

Definition xadd (x y : xr) : xr :=
  match x, y with
  | NaN, _ | _, NaN => NaN
  | Fin a, Fin b => Fin (a + b)
  | PInf, MInf | MInf, PInf => NaN
  | PInf, _ | _, PInf => PInf
  | MInf, _ | _, MInf => MInf
  end.
Definition xsub (x y : xr) : xr := xadd x (xopp y).

(* infinity times a finite number *)
Definition inf_times (neg : bool) (a : R) : xr :=
  if Reqb a 0 then NaN else if xorb neg (Rltb a 0) then MInf else PInf.

Definition xmul (x y : xr) : xr :=
  match x, y with
  | NaN, _ | _, NaN => NaN
  | Fin a, Fin b => Fin (a * b)
  | PInf, Fin a | Fin a, PInf => inf_times false a
  | MInf, Fin a | Fin a, MInf => inf_times true a
  | PInf, PInf | MInf, MInf => PInf
  | PInf, MInf | MInf, PInf => MInf
  end.

Definition xdiv (x y : xr) : xr :=
  match x, y with
  | NaN, _ | _, NaN => NaN
  | Fin a, Fin b =>
      if Reqb b 0 then (if Reqb a 0 then NaN else if Rltb a 0 then MInf else PInf) else Fin (a / b)
  | Fin _, (PInf | MInf) => Fin 0
  | PInf, Fin b => if Rltb b 0 then MInf else PInf
  | MInf, Fin b => if Rltb b 0 then PInf else MInf
  | (PInf | MInf), (PInf | MInf) => NaN
  end.

(* comparisons: false as soon as one side is NaN *)
Definition xlt (x y : xr) : bool :=
  match x, y with
  | NaN, _ | _, NaN => false
  | Fin a, Fin b => Rltb a b
  | MInf, MInf => false
  | MInf, _ => true
  | _, MInf => false
  | PInf, _ => false
  | Fin _, PInf => true
  end.
Definition xeq (x y : xr) : bool :=
  match x, y with
  | Fin a, Fin b => Reqb a b
  | PInf, PInf | MInf, MInf => true
  | _, _ => false
  end.
Definition xle (x y : xr) : bool := xlt x y || xeq x y.

(* torch.min / torch.max of two tensors: NaN propagates *)
Definition xmin (x y : xr) : xr :=
  match x, y with NaN, _ | _, NaN => NaN | _, _ => if xlt y x then y else x end.
Definition xmax (x y : xr) : xr :=
  match x, y with NaN, _ | _, NaN => NaN | _, _ => if xlt x y then y else x end.

Definition xsum (l : list xr) : xr := fold_right xadd (Fin 0) l.
