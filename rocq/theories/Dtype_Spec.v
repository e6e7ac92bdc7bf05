(* Numbers of a binary format, written without the conversion. *)
From Coq Require Import Reals List ZArith.
From Verif Require Import RList Dtype_Model.
Import ListNotations.
Local Open Scope R_scope.

(* the finite numbers of a format *)
Definition representable (f : fmt) (r : R) : Prop :=
  exists m e, r = IZR m * powerRZ 2 e /\ (Z.abs m < 2 ^ prec f)%Z /\ (emin f <= e)%Z /\ Rabs r < powerRZ 2 (emax f).

(* a usable format: at least one bit, and room between the bounds of the exponents *)
Definition good_fmt (f : fmt) : Prop := (1 < prec f)%Z /\ (emin f + prec f <= emax f)%Z.

(* the training loss of binary logistic regression with given targets *)
Definition logistic_mean (w : vec) (b : R) (xs : list vec) (ts : list R) : R :=
  rmean (map2 (fun x t => ln (1 + exp (- (t * (dot w x + b))))) xs ts).

(* types of numpy that hold -1: signed integers and floats *)
Definition signed_kind (k : kind) : Prop :=
  match k with
  | KBool | KUnsigned _ => False
  | KSigned b => (2 <= b)%Z
  | KFloat f => (1 < prec f)%Z /\ (emin f <= 0)%Z /\ (0 < emax f)%Z
  end.
Definition usable_kind (k : kind) : Prop :=
  match k with KBool => True | KUnsigned b => (1 <= b)%Z | _ => signed_kind k end.
