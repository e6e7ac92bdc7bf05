(* Model of skwdro/base/cost_decoder.py (whole file) and of the two cost constructors it calls. *)
From Coq Require Import List String Ascii Bool.
From Verif Require Import PyBase.
Import ListNotations.
Local Open Scope string_scope.

(* str.split('-') : always at least one field (used at cost_decoder.py:40 and :106). *)
Fixpoint split_dash (s : string) : list string :=
  match s with
  | EmptyString => [EmptyString]
  | String c r =>
      if Ascii.eqb c "-"%char then EmptyString :: split_dash r
      else match split_dash r with
           | [] => [String c EmptyString]        (* unreachable: split_dash is never empty *)
           | f :: fs => String c f :: fs
           end
  end.

Inductive kind := NC | NLC.      (* NormCost | NormLabelCost *)

Section Decoder.
  (* Python floats are abstract here: [F] with the oracle [pyfloat] for the call float(s) on a string
     (None = ValueError), the literals used in the file and the test [kappa >= 0]. *)
  Variable F : Type.
  Variable pyfloat : string -> option F.
  Variable two : F.                 (* the literal 2. *)
  Variable default_kappa : F.       (* DEFAULT_KAPPA = 1e8, cost_decoder.py:11 *)
  Variable is_two : F -> bool.      (* x == 2 *)
  Variable ge0 : F -> bool.         (* x >= 0 (false on NaN) *)

  (* The attributes of the cost object: normcost.py:26-28, normlabelcost.py:28-33. *)
  Record cost := mkCost {
    c_kind : kind; c_p : F; c_power : F;
    c_kappa : option F;             (* None for NormCost, which has no such attribute *)
    c_name : string }.

  (* float(s), cost_decoder.py passim *)
  Definition to_float (s : string) : Result F :=
    match pyfloat s with Some x => Ok x | None => Raise ValueError end.

  (* NormCost.__init__, normcost.py:13-28; name None becomes "Norm" *)
  Definition NormCost (p power : F) (name : option string) : Result cost :=
    Ok (mkCost NC p power None (match name with None => "Norm" | Some n => n end)).

  (* NormLabelCost.__init__, normlabelcost.py:19-40; the assertion message is dropped *)
  Definition NormLabelCost (p power kappa : F) (name : option string) : Result cost :=
    do _ <- assert_ (ge0 kappa);
    Ok (mkCost NLC p power (Some kappa) (match name with None => "Kappa-norm" | Some n => n end)).

  (* cost_from_str, cost_decoder.py:14-60. Line 41 unpacks splitted[:4], a ValueError when there are fewer than
     four fields; further fields after the fifth are ignored. *)
  Definition cost_from_str (code : string) : Result cost :=
    match split_dash code with
    | engine_ :: id_ :: power_ :: type_ :: rest =>
        do kappa <- (match rest with
                     | k :: _ => to_float k                 (* :42 *)
                     | [] => Ok default_kappa
                     end);
        if String.eqb engine_ "t" then
          if String.eqb id_ "NC" then
            do p <- to_float type_; do power <- to_float power_;
            NormCost p power (Some code)
          else if String.eqb id_ "NLC" then
            do p <- to_float type_; do power <- to_float power_;
            NormLabelCost p power kappa (Some code)
          else Raise ValueError
        else Raise ValueError
    | _ => Raise ValueError
    end.

  (* ParsedCost, cost_decoder.py:63-79 *)
  Record parsed := mkParsed {
    p_engine : string; p_id : string; p_power : F; p_type : F; p_kappa : F }.

  (* ParsedCost.can_imp_samp, cost_decoder.py:71-72 *)
  Definition can_imp_samp (c : parsed) : bool := is_two (p_power c) && is_two (p_type c).

  (* parse_code_torch, cost_decoder.py:82-120 *)
  Definition parse_code_torch (code : option string) (has_labels : bool) : Result parsed :=
    match code with
    | None => Ok (mkParsed "t" (if has_labels then "NLC" else "NC") two two default_kappa)
    | Some code =>
        match split_dash code with
        | [engine_; id_; power_; type_] =>
            do _ <- assert_ (String.eqb engine_ "t");
            do pw <- to_float power_; do ty <- to_float type_;
            Ok (mkParsed engine_ id_ pw ty default_kappa)
        | [id_; power_; type_] =>
            do pw <- to_float power_; do ty <- to_float type_;
            Ok (mkParsed "t" id_ pw ty default_kappa)
        | [engine_; id_; power_; type_; kappa_] =>
            do kappa <- to_float kappa_;
            do pw <- to_float power_; do ty <- to_float type_;
            Ok (mkParsed engine_ id_ pw ty kappa)
        | _ => Raise ValueError
        end
    end.

  (* cost_from_parse_torch, cost_decoder.py:123-153 (float() of a float is the identity) *)
  Definition cost_from_parse_torch (c : parsed) : Result cost :=
    if String.eqb (p_id c) "NC" then NormCost (p_type c) (p_power c) None
    else if String.eqb (p_id c) "NLC" then NormLabelCost (p_type c) (p_power c) (p_kappa c) None
    else Raise ValueError.

  (* The composition used by dualize_primal_loss, wrap_problem.py:182 and :194 *)
  Definition decode_torch (code : option string) (has_labels : bool) : Result cost :=
    do c <- parse_code_torch code has_labels; cost_from_parse_torch c.
End Decoder.

Arguments mkCost {F}. Arguments c_kind {F}. Arguments c_p {F}. Arguments c_power {F}.
Arguments c_kappa {F}. Arguments c_name {F}.
Arguments mkParsed {F}. Arguments p_engine {F}. Arguments p_id {F}. Arguments p_power {F}.
Arguments p_type {F}. Arguments p_kappa {F}.
