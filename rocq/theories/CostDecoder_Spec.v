(* Specification side for cost strings: texts are built by joining fields, independently of split_dash. *)
From Coq Require Import List String Ascii.
From Verif Require Import PyBase CostDecoder_Model.
Import ListNotations.
Local Open Scope string_scope.

(* "f1-f2-...-fn" *)
Fixpoint join_dash (fs : list string) : string :=
  match fs with
  | [] => ""
  | [f] => f
  | f :: r => f ++ "-" ++ join_dash r
  end.

(* no dash inside a field *)
Fixpoint no_dash (s : string) : Prop :=
  match s with
  | EmptyString => True
  | String c r => c <> "-"%char /\ no_dash r
  end.

(* [fields code fs]: code is the text of the dash-free fields fs (at least one field). *)
Definition fields (code : string) (fs : list string) : Prop :=
  fs <> [] /\ Forall no_dash fs /\ join_dash fs = code.

(* Two outcomes that a user cannot tell apart: same exception, or costs equal except for the display name. *)
Definition same_cost {F} (a b : Result (cost F)) : Prop :=
  match a, b with
  | Ok x, Ok y => c_kind x = c_kind y /\ c_p x = c_p y /\ c_power x = c_power y /\ c_kappa x = c_kappa y
  | Raise e, Raise e' => e = e'
  | _, _ => False
  end.

(* The name of a kind in a cost string. *)
Definition kind_text (k : kind) : string := match k with NC => "NC" | NLC => "NLC" end.

(* The meaning documented in the docstring of cost_from_str: fields engine, kind, power, norm [, kappa, ignored...]. *)
Inductive means {F} (read : string -> option F) (dk : F) : list string -> kind -> F -> F -> F -> Prop :=
| means_intro : forall k pw ty rest vpw vty vk,
    read pw = Some vpw -> read ty = Some vty ->
    match rest with [] => vk = dk | t :: _ => read t = Some vk end ->
    means read dk ("t" :: kind_text k :: pw :: ty :: rest) k vpw vty vk.

(* The reading of "t-NC-k-p" given in doc/tutos/costs.rst: norm k, power p. *)
Definition tutorial_reading {F} (r : Result (cost F)) (k p : F) : Prop :=
  exists c, r = Ok c /\ c_p c = k /\ c_power c = p.
