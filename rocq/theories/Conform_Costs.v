(* The project's own tests, run on the models: tests/misc/test_cost_parser_grammar.py, tests/torch_tests/test_costs.py and
   tests/torch_tests/test_sampler.py. Where a test draws its data at random the example is for all data of that kind.
   These are checks of the models against the expectations their authors wrote down; they belong to no property. *)
From Coq Require Import Reals List Bool String QArith Lra Lia ZArith.
From Verif Require Import PyBase PyFloat_Model CostDecoder_Model.
Import ListNotations.
Open Scope string_scope.

(* ---------- test_cost_parser_grammar.py ---------- *)
Definition from_str := cost_from_str pyf pyfloat_c dk_c ge0_c.
Definition parse := parse_code_torch pyf pyfloat_c two_c dk_c.
Definition from_parse := cost_from_parse_torch pyf ge0_c.

(* TestCostFromStr; the power is written first *)
Example test_norm_cost_basic : from_str "t-NC-2.0-2.0" = Ok (mkCost NC two_c two_c None "t-NC-2.0-2.0").
Proof. reflexivity. Qed.
Example test_norm_cost_with_custom_values : from_str "t-NC-1.5-3.0" = Ok (mkCost NC (Rat 3) (Rat (3 # 2)) None "t-NC-1.5-3.0").
Proof. reflexivity. Qed.
Example test_norm_label_cost_with_default_kappa : from_str "t-NLC-2.0-2.0" = Ok (mkCost NLC two_c two_c (Some dk_c) "t-NLC-2.0-2.0").
Proof. reflexivity. Qed.
Example test_norm_label_cost_with_custom_kappa : from_str "t-NLC-2.0-2.0-5000.0" = Ok (mkCost NLC two_c two_c (Some (Rat 5000)) "t-NLC-2.0-2.0-5000.0").
Proof. reflexivity. Qed.
Example test_invalid_id_raises_error : from_str "t-INVALID-2.0-2.0" = Raise ValueError.
Proof. reflexivity. Qed.
Example test_invalid_engine_raises_error : from_str "x-NC-2.0-2.0" = Raise ValueError.
Proof. reflexivity. Qed.

(* TestParsedCost *)
Definition is2 (x : pyf) : bool := match x with Rat q => Qeq_bool q 2 | _ => false end.
Example test_can_imp_samp : map (fun c => can_imp_samp pyf is2 c) [mkParsed "t" "NC" two_c two_c dk_c; mkParsed "t" "NC" (Rat (3 # 2)) two_c dk_c; mkParsed "t" "NC" two_c (Rat 3) dk_c] = [true; false; false].
Proof. reflexivity. Qed.

(* TestParseCodeTorch *)
Example test_none : parse None false = Ok (mkParsed "t" "NC" two_c two_c dk_c) /\ parse None true = Ok (mkParsed "t" "NLC" two_c two_c dk_c).
Proof. split; reflexivity. Qed.
Example test_parts : forall b,
  parse (Some "t-NC-1.5-3.0") b = Ok (mkParsed "t" "NC" (Rat (3 # 2)) (Rat 3) dk_c) /\
  parse (Some "NC-1.5-3.0") b = Ok (mkParsed "t" "NC" (Rat (3 # 2)) (Rat 3) dk_c) /\
  parse (Some "t-NLC-1.5-3.0-5000.0") b = Ok (mkParsed "t" "NLC" (Rat (3 # 2)) (Rat 3) (Rat 5000)) /\
  parse (Some "t-NC") b = Raise ValueError /\ parse (Some "x-NC-1.5-3.0") b = Raise AssertionError.
Proof. intros b. repeat split. Qed.

(* TestCostFromParseTorch *)
Example test_from_parse :
  from_parse (mkParsed "t" "NC" two_c two_c dk_c) = Ok (mkCost NC two_c two_c None "Norm") /\
  from_parse (mkParsed "t" "NLC" two_c two_c (Rat 5000)) = Ok (mkCost NLC two_c two_c (Some (Rat 5000)) "Kappa-norm") /\
  from_parse (mkParsed "t" "INVALID" two_c two_c dk_c) = Raise ValueError.
Proof. repeat split. Qed.
(* TestNormLabelCost.test_init_negative_kappa_raises *)
Example test_init_negative_kappa_raises : NormLabelCost pyf ge0_c two_c two_c (Rat (-1)) None = Raise AssertionError.
Proof. reflexivity. Qed.
