(* Property C37: wrapped solver results. V is any type of values, none the value None. *)
From Coq Require Import List Bool String Arith Lia.
From Verif Require Import PyBase Result_Model Result_Proofs.
Import ListNotations.
Open Scope string_scope.
Open Scope list_scope.

(* Tuples of 1 to 4 components: iterating gives the tuple back, attributes are its components or None. *)
Theorem C37_tuple :
  forall (V : Type) (none : V) (l : list V), 1 <= List.length l <= 4 ->
    exists r view, wrap none (LTuple l) = Ok (r, view) /\ iterate r view = Ok l /\
      getattr r "coef" = Ok (match component V l "coef" with Some v => v | None => none end) /\
      getattr r "intercept" = Ok (match component V l "intercept" with Some v => v | None => none end) /\
      getattr r "dual_var" = Ok (match component V l "dual_var" with Some v => v | None => none end) /\
      getattr r "robust_loss" = Ok (match component V l "robust_loss" with Some v => v | None => none end).
Proof. exact tuple_roundtrip. Qed.
Print Assumptions C37_tuple.

Theorem C37_other_tuples :
  forall (V : Type) (none : V) (l : list V), List.length l < 1 \/ 4 < List.length l -> wrap none (LTuple l) = Raise AssertionError.
Proof. exact tuple_lengths. Qed.
Print Assumptions C37_other_tuples.

(* Dicts: iteration gives the values in order, attributes the entries; missing standard attributes are None, others raise. *)
Theorem C37_dict :
  forall (V : Type) (none : V) (d : list (string * V)),
    NoDup (map fst d) -> ~ In "self" (map fst d) -> ~ In "_iter_attrs" (map fst d) ->
    exists r view, wrap none (LDict d) = Ok (r, view) /\ iterate r view = Ok (map snd d) /\
      (forall k v, In (k, v) d -> getattr r k = Ok v) /\
      (forall k, ~ In k (map fst d) -> getattr r k = if is_named k then Ok none else Raise AttributeError).
Proof. exact dict_roundtrip. Qed.
Print Assumptions C37_dict.

Theorem C37_dict_reserved :
  forall (V : Type) (none : V) (d : list (string * V)),
    In "self" (map fst d) \/ In "_iter_attrs" (map fst d) -> wrap none (LDict d) = Raise TypeError.
Proof. exact dict_reserved. Qed.
Print Assumptions C37_dict_reserved.

(* The keys are those of the solver's own dict at the time of the iteration: a key added later makes iteration fail. *)
Theorem C37_dict_extended_later :
  forall (V : Type) (none : V) (d : list (string * V)) k v r view,
    NoDup (map fst d) -> ~ In k (map fst d) -> ~ In k ["coef"; "intercept"; "dual_var"; "robust_loss"] ->
    wrap none (LDict d) = Ok (r, view) -> iterate r (map fst (d ++ [(k, v)])) = Raise AttributeError.
Proof. exact dict_extended. Qed.
Print Assumptions C37_dict_extended_later.

(* Wrapped results pass through, anything else raises. *)
Theorem C37_passthrough :
  forall (V : Type) (none : V) x,
    match x with
    | LResult r view => wrap none x = Ok (r, view)
    | LOther => wrap none x = Raise RuntimeError
    | _ => True
    end.
Proof. intros V none []; exact I || reflexivity. Qed.
Print Assumptions C37_passthrough.

Example C37_case :
  component nat [10; 20; 30; 40] "robust_loss" = Some 40 /\ component nat [10; 20] "dual_var" = Some 20 /\ component nat [10; 20] "intercept" = None /\
  exists r view, wrap 0 (LDict [("intercept", 5); ("n_iter", 7)]) = Ok (r, view) /\ iterate r view = Ok [5; 7] /\
    getattr r "n_iter" = Ok 7 /\ getattr r "coef" = Ok 0 /\ iterate r ["intercept"; "n_iter"; "new"] = Raise AttributeError.
Proof. repeat split. eexists _, _. repeat split. Qed.

(* ---------- concrete cases of the theorems above, one each; values are numbers, None is 0 ---------- *)
Example C37_tuple_case : exists r view, wrap 0 (LTuple [10; 20; 30]) = Ok (r, view) /\ iterate r view = Ok [10; 20; 30] /\ getattr r "coef" = Ok 10 /\ getattr r "robust_loss" = Ok 0.
Proof. destruct (C37_tuple nat 0 [10; 20; 30]) as (r & view & A & B & C & _ & _ & D); [simpl; lia|]. exists r, view. auto. Qed.
Example C37_other_tuples_case : wrap 0 (LTuple []) = Raise AssertionError /\ wrap 0 (LTuple [1; 2; 3; 4; 5]) = Raise AssertionError.
Proof. split; apply C37_other_tuples; simpl; lia. Qed.
Example C37_dict_case : exists r view, wrap 0 (LDict [("intercept", 5); ("n_iter", 7)]) = Ok (r, view) /\ iterate r view = Ok [5; 7] /\
  getattr r "n_iter" = Ok 7 /\ getattr r "coef" = Ok 0 /\ getattr r "other" = Raise AttributeError.
Proof.
  destruct (C37_dict nat 0 [("intercept", 5); ("n_iter", 7)]) as (r & view & A & B & C & D).
  { repeat constructor; simpl; intuition discriminate. } { simpl; intuition discriminate. } { simpl; intuition discriminate. }
  exists r, view. split; [exact A|]. split; [exact B|]. split; [apply C; simpl; auto|]. split; [apply (D "coef")|apply (D "other")]; simpl; intuition discriminate.
Qed.
Example C37_dict_reserved_case : wrap 0 (LDict [("coef", 1); ("self", 2)]) = Raise TypeError.
Proof. apply C37_dict_reserved. simpl. auto. Qed.
Example C37_dict_extended_later_case : exists r view, wrap 0 (LDict [("intercept", 5)]) = Ok (r, view) /\ iterate r ["intercept"; "n_iter"] = Raise AttributeError.
Proof.
  eexists _, _. split; [reflexivity|]. refine (C37_dict_extended_later nat 0 [("intercept", 5)] "n_iter" 9 _ _ _ _ _ eq_refl); [repeat constructor; intros []|simpl; intuition discriminate|simpl; intuition discriminate].
Qed.
