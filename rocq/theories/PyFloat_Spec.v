(* What a numeral means, read from its parts and not from a parser: a sign, digits, optionally a point and digits, optionally
   an exponent. *)
From Coq Require Import List String Ascii ZArith QArith.
Import ListNotations.
Local Open Scope string_scope.

(* the text of a list of digits 0..9, and its value: each digit times the power of ten of its place *)
Fixpoint digits_text (l : list nat) : string :=
  match l with [] => "" | d :: r => String (ascii_of_nat (48 + d)) (digits_text r) end.
Fixpoint place_value (l : list nat) : Z :=
  match l with [] => 0 | d :: r => Z.of_nat d * 10 ^ Z.of_nat (List.length r) + place_value r end%Z.
Definition digit_list (l : list nat) : Prop := Forall (fun d => d < 10)%nat l.

Inductive sign := Plain | Plus | Minus.
Definition sign_text (s : sign) : string := match s with Plain => "" | Plus => "+" | Minus => "-" end.
Definition signed (s : sign) (z : Z) : Z := match s with Minus => - z | _ => z end%Z.

(* the parts of a numeral: sign, digits before the point, digits after the point (None: no point), exponent *)
Record numeral := { n_sign : sign; n_int : list nat; n_frac : option (list nat); n_exp : option (ascii * sign * list nat) }.
Definition frac (n : numeral) : list nat := match n_frac n with Some l => l | None => [] end.
Definition numeral_ok (n : numeral) : Prop :=
  digit_list (n_int n) /\ digit_list (frac n) /\ (n_int n ++ frac n)%list <> [] /\
  match n_exp n with Some (c, _, l) => (c = "e" \/ c = "E")%char /\ digit_list l /\ l <> [] | None => True end.
Definition numeral_text (n : numeral) : string :=
  sign_text (n_sign n) ++ digits_text (n_int n) ++
  match n_frac n with Some l => "." ++ digits_text l | None => "" end ++
  match n_exp n with Some (c, s, l) => String c (sign_text s ++ digits_text l) | None => "" end.
Definition numeral_value (n : numeral) : Q :=
  inject_Z (signed (n_sign n) (place_value (n_int n ++ frac n)))
  * (10 # 1) ^ (match n_exp n with Some (_, s, l) => signed s (place_value l) | None => 0 end - Z.of_nat (List.length (frac n))).
