(* Properties C01-C05: cost specification strings. *)
From Coq Require Import List String Ascii QArith.
From Verif Require Import PyBase CostDecoder_Model CostDecoder_Spec CostDecoder_Proofs PyFloat_Model PyFloat_Spec PyFloat_Proofs.
Import ListNotations.
Local Open Scope string_scope.

(* C01. For every behaviour of float(), the two decoders cannot be told apart on 4- and 5-field 't' codes. *)
Theorem C01_decoders_agree :
  forall (F : Type) (pyfloat : string -> option F) (two dk : F) (ge0 : F -> bool) code fs hl,
    fields code fs -> (List.length fs = 4%nat \/ List.length fs = 5%nat) -> hd "" fs = "t" ->
    same_cost (cost_from_str F pyfloat dk ge0 code) (decode_torch F pyfloat two dk ge0 (Some code) hl).
Proof. exact decoders_agree. Qed.
Print Assumptions C01_decoders_agree.

Example C01_case :
  fields "t-NLC-1-2-inf" ["t"; "NLC"; "1"; "2"; "inf"] /\
  cost_from_str pyf pyfloat_c dk_c ge0_c "t-NLC-1-2-inf"
  = Ok (mkCost NLC (Rat 2) (Rat 1) (Some (Inf false)) "t-NLC-1-2-inf").
Proof. split; [apply fields_split|]; vm_compute; reflexivity. Qed.

(* The restriction to 4 or 5 fields is needed: with six fields one decoder accepts and the other rejects. *)
Example C01_six_fields :
  ~ same_cost (cost_from_str pyf pyfloat_c dk_c ge0_c "t-NC-2-2-1-1")
              (decode_torch pyf pyfloat_c two_c dk_c ge0_c (Some "t-NC-2-2-1-1") false).
Proof. vm_compute. intros H; exact H. Qed.

(* C02. Exact result of cost_from_str: [means] is the documented reading of the fields. Every string has a unique
   list of fields (C02_fields), and either a meaning, which fixes the result, or none, and ValueError is raised. *)
Theorem C02_fields : forall code, exists fs, fields code fs /\ forall fs', fields code fs' -> fs' = fs.
Proof. exact unique_fields. Qed.
Print Assumptions C02_fields.

Theorem C02_accepted :
  forall (F : Type) (pyfloat : string -> option F) (dk : F) (ge0 : F -> bool) code fs k vpw vty vk,
    fields code fs -> means pyfloat dk fs k vpw vty vk ->
    cost_from_str F pyfloat dk ge0 code =
      match k with
      | NC => Ok (mkCost NC vty vpw None code)
      | NLC => if ge0 vk then Ok (mkCost NLC vty vpw (Some vk) code) else Raise AssertionError
      end.
Proof. exact from_str_means. Qed.
Print Assumptions C02_accepted.

Theorem C02_rejected :
  forall (F : Type) (pyfloat : string -> option F) (dk : F) (ge0 : F -> bool) code fs,
    fields code fs -> (forall k vpw vty vk, ~ means pyfloat dk fs k vpw vty vk) ->
    cost_from_str F pyfloat dk ge0 code = Raise ValueError.
Proof. exact from_str_no_means. Qed.
Print Assumptions C02_rejected.

Example C02_case : means pyfloat_c dk_c ["t"; "NC"; "1.5"; "inf"] NC (Rat (3#2)) (Inf false) dk_c.
Proof. apply (means_intro pyfloat_c dk_c NC); reflexivity. Qed.

Example C02_reject_case :
  fields "t-NC-2" ["t"; "NC"; "2"] /\ forall k vpw vty vk, ~ means pyfloat_c dk_c ["t"; "NC"; "2"] k vpw vty vk.
Proof. split; [apply fields_split; reflexivity|]. intros k vpw vty vk H; inversion H. Qed.

(* C03 is false: a literal that float() reads, but which contains a dash, is cut in two. For every float() that reads
   "1e-3" and rejects "1e" the code t-NC-1e-3-2 raises ValueError instead of giving power 1e-3 and norm 2. *)
Theorem C03_any_literal_refuted :
  exists lit : string,
    pyfloat_c lit = Some (Rat (1 # 1000)) /\
    (forall (F : Type) (pyfloat : string -> option F) (dk : F) (ge0 : F -> bool),
       pyfloat "1e" = None ->
       cost_from_str F pyfloat dk ge0 (join_dash ["t"; "NC"; lit; "2"]) = Raise ValueError).
Proof. exact any_literal_refuted. Qed.
Print Assumptions C03_any_literal_refuted.

Example C03_case : pyfloat_c "1e" = None.
Proof. reflexivity. Qed.

(* What does hold: a dash-free literal is read back as it is, in both number fields. *)
Theorem C03_dash_free_partial :
  forall (F : Type) (pyfloat : string -> option F) (dk : F) (ge0 : F -> bool) a b va vb,
    no_dash a -> no_dash b -> pyfloat a = Some va -> pyfloat b = Some vb ->
    cost_from_str F pyfloat dk ge0 (join_dash ["t"; "NC"; a; b]) =
      Ok (mkCost NC vb va None (join_dash ["t"; "NC"; a; b])).
Proof. exact dash_free_literals. Qed.
Print Assumptions C03_dash_free_partial.

Example C03_partial_case : no_dash "1e3" /\ pyfloat_c "1e3" = Some (Rat 1000).
Proof. split; [repeat split; discriminate | reflexivity]. Qed.

(* float() itself on a numeral built from its parts: the value is the sum of the digits times their powers of ten, scaled by
   the exponent; a sign, a missing integer part ("." first), a missing fraction and both exponent letters are covered, and
   the words inf, infinity and nan are read with their sign *)
Theorem C03_numerals :
  forall n, numeral_ok n ->
    (exists q, pyfloat_c (numeral_text n) = Some (Rat q) /\ (q == numeral_value n)%Q) /\
    (no_dash (numeral_text n) <-> n_sign n <> Minus /\ (forall c s l, n_exp n = Some (c, s, l) -> s <> Minus)).
Proof. intros n H. split; [exact (reads_numeral n H)|exact (no_dash_numeral n H)]. Qed.
Print Assumptions C03_numerals.

Theorem C03_words :
  forall g,
    pyfloat_c (sign_text g ++ "inf") = Some (Inf (match g with Minus => true | _ => false end)) /\
    pyfloat_c (sign_text g ++ "infinity") = Some (Inf (match g with Minus => true | _ => false end)) /\
    pyfloat_c (sign_text g ++ "nan") = Some Nan.
Proof. exact reads_words. Qed.
Print Assumptions C03_words.

(* from the text of a cost to its numbers: any two numerals without a minus sign are decoded to their values *)
Theorem C03_numerals_in_cost :
  forall a b, numeral_ok a -> numeral_ok b -> no_dash (numeral_text a) -> no_dash (numeral_text b) ->
  exists p k, cost_from_str pyf pyfloat_c dk_c ge0_c (join_dash ["t"; "NC"; numeral_text a; numeral_text b]) =
    Ok (mkCost NC (Rat k) (Rat p) None (join_dash ["t"; "NC"; numeral_text a; numeral_text b])) /\
    (p == numeral_value a)%Q /\ (k == numeral_value b)%Q.
Proof. exact numerals_in_cost. Qed.
Print Assumptions C03_numerals_in_cost.

(* the label weight kappa of an NLC code: every numeral without a minus sign is accepted with its value, infinity is accepted,
   nan fails the assertion of the constructor, and a negative weight cannot even be written: its dash starts a new field and
   the empty field before it raises ValueError, so the assertion kappa >= 0 never sees a negative number *)
Theorem C03_kappa_text :
  forall a b, numeral_ok a -> numeral_ok b -> no_dash (numeral_text a) -> no_dash (numeral_text b) ->
  exists p q, (p == numeral_value a)%Q /\ (q == numeral_value b)%Q /\
  (forall n, numeral_ok n -> no_dash (numeral_text n) -> exists k, (k == numeral_value n)%Q /\
     cost_from_str pyf pyfloat_c dk_c ge0_c (join_dash ["t"; "NLC"; numeral_text a; numeral_text b; numeral_text n]) =
       Ok (mkCost NLC (Rat q) (Rat p) (Some (Rat k)) (join_dash ["t"; "NLC"; numeral_text a; numeral_text b; numeral_text n]))) /\
  cost_from_str pyf pyfloat_c dk_c ge0_c (join_dash ["t"; "NLC"; numeral_text a; numeral_text b; "inf"]) =
    Ok (mkCost NLC (Rat q) (Rat p) (Some (Inf false)) (join_dash ["t"; "NLC"; numeral_text a; numeral_text b; "inf"])) /\
  cost_from_str pyf pyfloat_c dk_c ge0_c (join_dash ["t"; "NLC"; numeral_text a; numeral_text b; "nan"]) = Raise AssertionError /\
  (forall t, no_dash t -> cost_from_str pyf pyfloat_c dk_c ge0_c (join_dash ["t"; "NLC"; numeral_text a; numeral_text b; "-" ++ t]) = Raise ValueError).
Proof. exact kappa_text. Qed.
Print Assumptions C03_kappa_text.

(* "+29.75E3" is 29750 and ".5" is 1/2 *)
Example C03_numerals_case :
  let a := {| n_sign := Plus; n_int := [2; 9]%nat; n_frac := Some [7; 5]%nat; n_exp := Some ("E"%char, Plain, [3]%nat) |} in
  let b := {| n_sign := Plain; n_int := []; n_frac := Some [5]%nat; n_exp := None |} in
  numeral_ok a /\ numeral_ok b /\ numeral_text a = "+29.75E3" /\ numeral_text b = ".5" /\
  (numeral_value a == 29750)%Q /\ (numeral_value b == 1 # 2)%Q /\ no_dash (numeral_text a) /\ no_dash (numeral_text b).
Proof.
  cbv zeta. unfold numeral_ok, digit_list. cbn [n_int n_frac n_exp n_sign frac app]. repeat split; try discriminate;
    try (right; reflexivity); repeat constructor; discriminate.
Qed.

(* C04 is false, for every pair of distinct numbers: in t-NC-k-p the first number is the power and the second the norm. *)
Theorem C04_tutorial_order_never :
  forall (F : Type) (pyfloat : string -> option F) (dk : F) (ge0 : F -> bool) k p vk vp,
    no_dash k -> no_dash p -> pyfloat k = Some vk -> pyfloat p = Some vp -> vk <> vp ->
    ~ tutorial_reading (cost_from_str F pyfloat dk ge0 (join_dash ["t"; "NC"; k; p])) vk vp.
Proof. exact tutorial_order_refuted. Qed.
Print Assumptions C04_tutorial_order_never.

Example C04_case :
  cost_from_str pyf pyfloat_c dk_c ge0_c "t-NC-2-1" = Ok (mkCost NC (Rat 1) (Rat 2) None "t-NC-2-1").
Proof. vm_compute. reflexivity. Qed.

Theorem C04_tutorial_order_refuted :
  exists k p vk vp,
    pyfloat_c k = Some vk /\ pyfloat_c p = Some vp /\
    ~ tutorial_reading (cost_from_str pyf pyfloat_c dk_c ge0_c (join_dash ["t"; "NC"; k; p])) vk vp.
Proof. exact tutorial_order_witness. Qed.
Print Assumptions C04_tutorial_order_refuted.

(* C05. The default specification; the engine check of four-field codes; its absence for five-field codes. *)
Theorem C05_default :
  forall (F : Type) (pyfloat : string -> option F) (two dk : F) (ge0 : F -> bool) (hl : bool),
    ge0 dk = true ->
    decode_torch F pyfloat two dk ge0 None hl =
      Ok (if hl then mkCost NLC two two (Some dk) "Kappa-norm" else mkCost NC two two None "Norm").
Proof. exact default_ok. Qed.
Print Assumptions C05_default.

Example C05_case : ge0_c dk_c = true.
Proof. reflexivity. Qed.

Theorem C05_engine_four_fields :
  forall (F : Type) (pyfloat : string -> option F) (two dk : F) (ge0 : F -> bool) code e i pw ty hl,
    fields code [e; i; pw; ty] -> e <> "t" ->
    decode_torch F pyfloat two dk ge0 (Some code) hl = Raise AssertionError.
Proof. exact engine4_checked. Qed.
Print Assumptions C05_engine_four_fields.

Example C05_four_case : fields "jx-NC-2-2" ["jx"; "NC"; "2"; "2"] /\ "jx" <> "t".
Proof. split; [apply fields_split; reflexivity | discriminate]. Qed.

Theorem C05_engine_five_fields_ignored :
  forall (F : Type) (pyfloat : string -> option F) (two dk : F) (ge0 : F -> bool) e i pw ty k hl,
    Forall no_dash [e; i; pw; ty; k] ->
    decode_torch F pyfloat two dk ge0 (Some (join_dash [e; i; pw; ty; k])) hl
    = decode_torch F pyfloat two dk ge0 (Some (join_dash ["t"; i; pw; ty; k])) hl.
Proof. exact engine5_ignored. Qed.
Print Assumptions C05_engine_five_fields_ignored.

Theorem C05_engine_five_fields_refuted :
  exists code e rest c,
    fields code (e :: rest) /\ e <> "t" /\ decode_torch pyf pyfloat_c two_c dk_c ge0_c (Some code) false = Ok c.
Proof. exact engine5_witness. Qed.
Print Assumptions C05_engine_five_fields_refuted.

Example C05_five_case :
  decode_torch pyf pyfloat_c two_c dk_c ge0_c (Some "jx-NC-2-2-1") false
  = Ok (mkCost NC (Rat 2) (Rat 2) None "Norm").
Proof. vm_compute. reflexivity. Qed.

(* ---------- concrete cases of the theorems above, one each ---------- *)
Example C01_decoders_agree_case : same_cost (cost_from_str pyf pyfloat_c dk_c ge0_c "t-NLC-1-2-inf") (decode_torch pyf pyfloat_c two_c dk_c ge0_c (Some "t-NLC-1-2-inf") true).
Proof. apply (C01_decoders_agree _ _ _ _ _ _ ["t"; "NLC"; "1"; "2"; "inf"]); [exact (proj1 C01_case)|right; reflexivity|reflexivity]. Qed.
Example C02_fields_case : forall fs, fields "t-NC-2" fs -> fs = ["t"; "NC"; "2"].
Proof. destruct (C02_fields "t-NC-2") as (fs & _ & U). intros fs' H. rewrite (U _ H). symmetry. apply U. exact (proj1 C02_reject_case). Qed.
Example C02_rejected_case : cost_from_str pyf pyfloat_c dk_c ge0_c "t-NC-2" = Raise ValueError.
Proof. exact (C02_rejected pyf pyfloat_c dk_c ge0_c "t-NC-2" ["t"; "NC"; "2"] (proj1 C02_reject_case) (proj2 C02_reject_case)). Qed.
Example C02_accepted_case : cost_from_str pyf pyfloat_c dk_c ge0_c (join_dash ["t"; "NC"; "1.5"; "inf"]) = Ok (mkCost NC (Inf false) (Rat (3#2)) None (join_dash ["t"; "NC"; "1.5"; "inf"])).
Proof.
  refine (C02_accepted pyf pyfloat_c dk_c ge0_c (join_dash ["t"; "NC"; "1.5"; "inf"]) ["t"; "NC"; "1.5"; "inf"] NC (Rat (3#2)) (Inf false) dk_c _ C02_case).
  split; [discriminate|]. split; [repeat constructor; unfold no_dash; cbn; intuition discriminate|reflexivity].
Qed.
Example C03_dash_free_partial_case : cost_from_str pyf pyfloat_c dk_c ge0_c "t-NC-1e3-1e3" = Ok (mkCost NC (Rat 1000) (Rat 1000) None "t-NC-1e3-1e3").
Proof. destruct C03_partial_case as [D V]. exact (C03_dash_free_partial pyf pyfloat_c dk_c ge0_c "1e3" "1e3" _ _ D D V V). Qed.
Definition num_a : numeral := {| n_sign := Plus; n_int := [2; 9]%nat; n_frac := Some [7; 5]%nat; n_exp := Some ("E"%char, Plain, [3]%nat) |}.
Definition num_b : numeral := {| n_sign := Plain; n_int := []; n_frac := Some [5]%nat; n_exp := None |}.
Example C03_numerals_in_cost_case : exists p k, cost_from_str pyf pyfloat_c dk_c ge0_c "t-NC-+29.75E3-.5" = Ok (mkCost NC (Rat k) (Rat p) None "t-NC-+29.75E3-.5") /\ (p == 29750)%Q /\ (k == 1 # 2)%Q.
Proof. destruct C03_numerals_case as (A & B & _ & _ & VA & VB & DA & DB). destruct (C03_numerals_in_cost num_a num_b A B DA DB) as (p & k & E & P & K). exists p, k. split; [exact E|]. split; [rewrite P; exact VA|rewrite K; exact VB]. Qed.
Example C03_kappa_text_case : cost_from_str pyf pyfloat_c dk_c ge0_c "t-NLC-+29.75E3-.5-nan" = Raise AssertionError /\ cost_from_str pyf pyfloat_c dk_c ge0_c "t-NLC-+29.75E3-.5--1" = Raise ValueError.
Proof.
  destruct C03_numerals_case as (A & B & _ & _ & _ & _ & DA & DB). destruct (C03_kappa_text num_a num_b A B DA DB) as (p & q & _ & _ & _ & _ & N & M).
  split; [exact N|]. apply (M "1"). unfold no_dash. cbn. intuition discriminate.
Qed.
Example C04_tutorial_order_never_case : ~ tutorial_reading (cost_from_str pyf pyfloat_c dk_c ge0_c "t-NC-2-1") (Rat 2) (Rat 1).
Proof. apply (C04_tutorial_order_never pyf pyfloat_c dk_c ge0_c "2" "1" (Rat 2) (Rat 1)); try reflexivity; try discriminate; unfold no_dash; cbn; intuition discriminate. Qed.
Example C05_default_case : decode_torch pyf pyfloat_c two_c dk_c ge0_c None true = Ok (mkCost NLC two_c two_c (Some dk_c) "Kappa-norm").
Proof. exact (C05_default pyf pyfloat_c two_c dk_c ge0_c true C05_case). Qed.
Example C05_engine_four_fields_case : decode_torch pyf pyfloat_c two_c dk_c ge0_c (Some "jx-NC-2-2") true = Raise AssertionError.
Proof. exact (C05_engine_four_fields pyf pyfloat_c two_c dk_c ge0_c _ _ _ _ _ true (proj1 C05_four_case) (proj2 C05_four_case)). Qed.
Example C05_engine_five_fields_ignored_case : decode_torch pyf pyfloat_c two_c dk_c ge0_c (Some "jx-NC-2-2-1") false = decode_torch pyf pyfloat_c two_c dk_c ge0_c (Some "t-NC-2-2-1") false.
Proof. apply (C05_engine_five_fields_ignored pyf pyfloat_c two_c dk_c ge0_c "jx" "NC" "2" "2" "1" false). repeat constructor; unfold no_dash; cbn; intuition discriminate. Qed.
