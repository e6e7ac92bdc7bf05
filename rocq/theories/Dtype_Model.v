(* The numeric types through which the data pass on their way to the solver.
   Numbers of numpy's integer and float types are dyadic: m * 2^e. *)
From Coq Require Import Reals List Bool ZArith.
From Verif Require Import PyBase RList XReal Estim_Model.
Import ListNotations.
Local Open Scope R_scope.

Record dyadic := Dy { dm : Z; de : Z }.
Definition two_pow (e : Z) : R := powerRZ 2 e.
Definition d2r (x : dyadic) : R := IZR (dm x) * two_pow (de x).

(* A binary format: significands below 2^prec, exponents from emin, magnitudes below 2^emax. *)
Record fmt := Fmt { prec : Z; emin : Z; emax : Z }.
Definition float16 : fmt := Fmt 11 (-24) 16.
Definition float32 : fmt := Fmt 24 (-149) 128.
Definition float64 : fmt := Fmt 53 (-1074) 1024.

(* m / 2^s to the nearest integer, ties to even *)
Definition div_even (m s : Z) : Z :=
  let q := (m / 2 ^ s)%Z in
  let r := (m mod 2 ^ s)%Z in
  match (2 * r ?= 2 ^ s)%Z with
  | Lt => q
  | Gt => (q + 1)%Z
  | Eq => if Z.even q then q else (q + 1)%Z
  end.

(* The exponent of the last place kept for m * 2^e *)
Definition last_place (f : fmt) (x : dyadic) : Z := Z.max (Z.log2 (Z.abs (dm x)) + de x - (prec f - 1)) (emin f).

(* IEEE conversion with unbounded exponent range above: nearest, ties to even *)
Definition round_to (f : fmt) (x : dyadic) : dyadic :=
  let E := last_place f x in
  if (E <=? de x)%Z then x else Dy (div_even (dm x) (E - de x)) E.

(* ... and infinite from 2^emax. The magnitude is compared through the position of the leading bit. *)
Definition too_big (f : fmt) (x : dyadic) : bool := (negb (dm x =? 0) && (emax f <=? Z.log2 (Z.abs (dm x)) + de x))%Z.
Definition convert (f : fmt) (x : dyadic) : xr :=
  let y := round_to f x in
  if too_big f y then (if (0 <? dm y)%Z then PInf else MInf) else Fin (d2r y).

(* pt.Tensor(array): torch's legacy constructor, which always makes a tensor of the default type float32.
   extract_data, solvers/entropic_dual_torch.py:13-42, and the same conversion in fit: _linear_regression.py:186-187,
   _logistic_regression.py:280-281, _weber.py:136-137, _portfolio.py:224, _newsvendor.py:162. A distribution is its rows
   (features, labels) or features only. *)
Definition pt_Tensor (rows : list (list dyadic)) : list (list xr) := map (map (convert float32)) rows.
Definition extract_data (samples : list (list dyadic)) (samples_y : option (list (list dyadic))) : list (list xr) * option (list (list xr)) :=
  match samples_y with
  | Some y => (pt_Tensor samples, Some (pt_Tensor y))
  | None => (pt_Tensor samples, None)
  end.

(* ---------- the labels of LogisticRegression take the type of the features ---------- *)
Inductive kind := KBool | KUnsigned (bits : Z) | KSigned (bits : Z) | KFloat (f : fmt).

Section Labels.
(* The value of (uint)(-1.0): undefined in C, and different between platforms. *)
Variable negative_cast : Z -> Z.

(* the numbers -1, 0, 1 stored in an array of each kind: bool() is "not zero", signed integers wrap around *)
Definition store (k : kind) (v : Z) : R :=
  match k with
  | KBool => if (v =? 0)%Z then 0 else 1
  | KUnsigned b => if (v <? 0)%Z then IZR (negative_cast b) else IZR (v mod 2 ^ b)
  | KSigned b => IZR ((v + 2 ^ (b - 1)) mod 2 ^ b - 2 ^ (b - 1))
  | KFloat f => match convert f (Dy v 0) with Fin r => r | _ => 0 end
  end.

(* _logistic_regression.py:175-205 with X.dtype of the given kind: the encoded labels are cast to it (:187, :198) before the zeros
   are overwritten with -1. (:188). check_X_y keeps the type of numeric and boolean arrays. *)
Definition lg_targets_typed (k : kind) (y : list Z) : Result (list vec) :=
  let classes := unique_labels y in
  match List.length classes with
  | 2%nat => Ok (map (fun v => [let e := store k (Z.of_nat (index_of v classes)) in if Reqb e 0 then store k (-1) else e]) y)
  | 0%nat | 1%nat => Raise ValueError
  | _ => Ok (map (fun v => map (fun c => store k (if (v =? c)%Z then 1 else 0)) classes) y)
  end.
End Labels.
