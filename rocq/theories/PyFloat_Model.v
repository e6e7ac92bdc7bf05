(* A concrete reader for float(s), used to instantiate the oracle of CostDecoder_Model in examples and witnesses.
   It covers [sign] digits [. digits] [e|E [sign] digits] and the words inf, infinity, nan (lower case).
   Simplified: surrounding white space, underscores between digits and other capitalisations of the words, which
   Python also accepts, are not read; values are exact rationals instead of rounded doubles. *)
From Coq Require Import List String Ascii Bool ZArith QArith.
Import ListNotations.
Local Open Scope string_scope.

Inductive pyf := Rat (q : Q) | Inf (neg : bool) | Nan.

Definition digit (c : ascii) : option Z :=
  let n := nat_of_ascii c in
  if (Nat.leb 48 n && Nat.leb n 57)%bool then Some (Z.of_nat (n - 48)) else None.

(* reads a maximal run of digits: value, number of digits, rest *)
Fixpoint digits (s : string) (acc : Z) (cnt : nat) : Z * nat * string :=
  match s with
  | String c r => match digit c with
                  | Some d => digits r (10 * acc + d) (S cnt)
                  | None => (acc, cnt, s)
                  end
  | EmptyString => (acc, cnt, s)
  end.

Definition take_sign (s : string) : bool * string :=
  match s with
  | String c r => if Ascii.eqb c "-" then (true, r) else if Ascii.eqb c "+" then (false, r) else (false, s)
  | EmptyString => (false, s)
  end.

(* optional exponent part; the whole rest must be consumed *)
Definition exponent (s : string) : option Z :=
  match s with
  | EmptyString => Some 0%Z
  | String c r =>
      if (Ascii.eqb c "e" || Ascii.eqb c "E")%bool then
        let '(neg, r1) := take_sign r in
        let '(v, cnt, r2) := digits r1 0 0 in
        match cnt, r2 with
        | S _, EmptyString => Some (if neg then Z.opp v else v)
        | _, _ => None
        end
      else None
  end.

Definition scale10 (m e : Z) : Q :=
  Qred (if Z.leb 0 e then inject_Z (m * 10 ^ e) else Qmake m (Z.to_pos (10 ^ (- e)))).

Definition pyfloat_c (s : string) : option pyf :=
  let '(neg, r) := take_sign s in
  if (String.eqb r "inf" || String.eqb r "infinity")%bool then Some (Inf neg)
  else if String.eqb r "nan" then Some Nan
  else
    let '(ip, ci, r1) := digits r 0 0 in
    let '(m, cf, r2) := match r1 with
                        | String c r' => if Ascii.eqb c "." then digits r' ip 0 else (ip, 0%nat, r1)
                        | EmptyString => (ip, 0%nat, r1)
                        end in
    if Nat.eqb (ci + cf) 0 then None
    else match exponent r2 with
         | Some e => Some (Rat (scale10 (if neg then Z.opp m else m) (e - Z.of_nat cf)))
         | None => None
         end.

Definition two_c : pyf := Rat 2.
Definition dk_c : pyf := Rat 100000000.                       (* 1e8 *)
Definition ge0_c (x : pyf) : bool :=
  match x with Rat q => Qle_bool 0 q | Inf neg => negb neg | Nan => false end.
