(* C162: the tag binary_only, and which estimators the test-suite checks against scikit-learn's conventions. *)
From Coq Require Import Reals List Bool Arith String Lia Lra.
From Verif Require Import PyBase RList XReal Estim_Model Tuner_Model Lifecycle_Model Lifecycle_Spec Lifecycle_Proofs Props_Lifecycle Tags_Model.
Import ListNotations.
Local Open Scope string_scope.

Section P.
Variable rf : string -> option R.
(* with the dedicated solver the tag is right: a fit that succeeds was given two classes *)
Theorem C162_dedicated_is_binary : forall x s s', look s "solver" = Some (PStr "dedicated") -> fit rf ELogistic x s = (s', Ok tt) -> v_classes x = 2%nat.
Proof.
  intros x s s' Hs H. cbn [fit] in H. unfold lg_fit in H. runs H; settle.
  - repeat match goal with B : (_ <? _)%nat = _ |- _ => first [apply Nat.ltb_ge in B|apply Nat.ltb_lt in B] end. lia.
Qed.
End P.
(* and the refusal of more classes is a NotImplementedError, all else going well *)
Theorem C162_dedicated_refuses : forall n c, (2 < c)%nat -> exists s s', init ELogistic (typical "dedicated") = Ok s /\
  fit no_float ELogistic (good n c) s = (s', Raise NotImplementedError).
Proof.
  intros n c Hc. destruct (typical_init ELogistic "dedicated") as [s I]. pose proof (proj2 (init_ok _ _ _ I)) as E. exists s. cbn in E; subst s.
  destruct c as [|[|[|c]]]; [lia|lia|lia|]. eexists. split; [exact I|]. reflexivity.
Qed.
(* with the default solver any number of classes from two on is fitted *)
Theorem C162_more_classes : forall n c, (2 <= c)%nat -> exists s s', init ELogistic (typical "entropic_torch") = Ok s /\
  fit no_float ELogistic (good n c) s = (s', Ok tt) /\ look s' "is_fitted_" = Some (PBool true) /\
  look s' "le_" = Some (PObj (if (c =? 2)%nat then "LabelEncoder" else "OneHotEncoder") n).
Proof.
  intros n c Hc. destruct (typical_init ELogistic "entropic_torch") as [s I]. pose proof (proj2 (init_ok _ _ _ I)) as E. exists s. cbn in E; subst s.
  destruct c as [|[|c]]; [lia|lia|]. eexists. split; [exact I|]. split; [reflexivity|]. split; reflexivity.
Qed.
(* so that the tag does not describe the class *)
Theorem C162_binary_only_refuted : tag "binary_only" = true /\ exists x s s', init ELogistic (typical "entropic_torch") = Ok s /\
  v_classes x <> 2%nat /\ fit no_float ELogistic x s = (s', Ok tt).
Proof.
  split; [reflexivity|]. destruct (C162_more_classes 1 3) as (s & s' & I & F & _); [lia|]. exists (good 1 3), s, s'. split; [exact I|]. split; [discriminate|exact F].
Qed.

(* str.endswith, as a specification *)
Lemma append_len a b : String.length (a ++ b) = (String.length a + String.length b)%nat.
Proof. induction a; cbn; congruence. Qed.
Lemma substring_all s : substring 0 (String.length s) s = s.
Proof. induction s; cbn; congruence. Qed.
Lemma substring_app p e : substring (String.length p) (String.length e) (p ++ e) = e.
Proof. induction p; cbn; [apply substring_all|exact IHp]. Qed.
Lemma split_at s : forall n, (n <= String.length s)%nat -> exists p, String.length p = n /\ s = p ++ substring n (String.length s - n) s.
Proof.
  induction s as [|a s IH]; intros [|n] H; cbn in *; try lia.
  - exists "". split; reflexivity.
  - exists "". cbn. rewrite substring_all. split; reflexivity.
  - destruct (IH n) as (p & L & E); [lia|]. exists (String a p). cbn. split; [congruence|]. rewrite <- E. reflexivity.
Qed.
Theorem C162_ends_with : forall e s, ends_with e s = true <-> exists p, s = p ++ e.
Proof.
  intros e s. unfold ends_with. rewrite andb_true_iff, Nat.leb_le, String.eqb_eq. split.
  - intros [L E]. destruct (split_at s (String.length s - String.length e)) as (p & _ & Q); [lia|].
    replace (String.length s - (String.length s - String.length e))%nat with (String.length e) in Q by lia. rewrite E in Q. exists p. exact Q.
  - intros [p ->]. rewrite append_len. split; [lia|]. replace (String.length p + String.length e - String.length e)%nat with (String.length p) by lia. apply substring_app.
Qed.

(* scikit-learn's checks are run on the entries with a dedicated solver, on their own class and solver, and on no other *)
Theorem C162_checked : forall check n e s, In (n, (e, s)) table ->
  test_all check n = Ok (if String.eqb s "dedicated" then Checked e s (check e s) else XFail).
Proof. intros check n e s I. cbn in I. repeat (destruct I as [I|I]; [injection I as <- <- <-; reflexivity|]). destruct I. Qed.
(* what the checks say about another solver cannot change the outcome of a test *)
Theorem C162_blind : forall c1 c2 n, (forall e, c1 e "dedicated" = c2 e "dedicated") -> In n (map fst table) -> test_all c1 n = test_all c2 n.
Proof.
  intros c1 c2 n A I. apply in_map_iff in I. destruct I as ([m [e s]] & <- & I). cbn [fst]. rewrite !(C162_checked _ _ _ _ I).
  destruct (String.eqb_spec s "dedicated") as [->|]; [rewrite A|]; reflexivity.
Qed.
(* any name in the suffix's family is excused, whether or not it is in the table *)
Theorem C162_presampled_excused : forall check p, test_all check (p ++ "(entropic presampled)") = Ok XFail.
Proof.
  intros check p. unfold test_all. destruct (String.eqb _ _); [reflexivity|].
  rewrite (proj2 (C162_ends_with "(entropic presampled)" _)); [reflexivity|eexists; reflexivity].
Qed.
(* a name that is neither in the table nor excused is a KeyError *)
Theorem C162_unknown : forall check n, ~ In n (map fst table) -> (forall p, n <> p ++ "(entropic presampled)") -> test_all check n = Raise KeyError.
Proof.
  intros check n N S. unfold test_all. destruct (String.eqb_spec n "Weber (entropic presampled)") as [->|_]; [exfalso; apply N; cbn; tauto|].
  destruct (ends_with _ n) eqn:E; [apply C162_ends_with in E; destruct E as [p E]; exfalso; exact (S p E)|].
  destruct (find _ table) as [[m [e s]]|] eqn:F; [|reflexivity]. apply find_some in F. destruct F as [I Q]. cbn [fst] in Q. apply String.eqb_eq in Q. subst m.
  exfalso. apply N. apply in_map_iff. exists (n, (e, s)). split; [reflexivity|exact I].
Qed.
(* not every class is checked: no entry of Weber is *)
Theorem C162_every_class_refuted : exists c, (exists n s, In (n, (c, s)) table) /\
  forall check n e s r, In n (map fst table) -> test_all check n = Ok (Checked e s r) -> e <> c.
Proof.
  exists EWeber. split; [exists "Weber (entropic presampled)", "entropic_torch_pre"; cbn; tauto|].
  intros check n e s r I H. apply in_map_iff in I. destruct I as ([m [e' s']] & <- & I). cbn [fst] in H. rewrite (C162_checked _ _ _ _ I) in H.
  cbn in I. repeat (destruct I as [I|I]; [injection I as <- <- <-; cbn in H; try discriminate; injection H as <- <- <-; discriminate|]). destruct I.
Qed.

(* ---------- cases ---------- *)
Example C162_fit_case : exists s s', look s "solver" = Some (PStr "dedicated") /\ fit no_float ELogistic (good 7 2) s = (s', Ok tt).
Proof.
  destruct (typical_init ELogistic "dedicated") as [s I]. pose proof (proj2 (init_ok _ _ _ I)) as E. exists s. cbn in E; subst s. eexists. split; reflexivity.
Qed.
Example C162_table_case : In ("Portfolio", (EPortfolio, "dedicated")) table /\
  test_all (fun _ _ => Raise ValueError) "Portfolio" = Ok (Checked EPortfolio "dedicated" (Raise ValueError)) /\
  test_all (fun _ _ => Ok tt) "Portfolio_entropic" = Raise KeyError.
Proof. split; [cbn; tauto|]. split; reflexivity. Qed.
Example C162_unknown_case : ~ In "Portfolio_entropic" (map fst table) /\ forall p, "Portfolio_entropic" <> p ++ "(entropic presampled)".
Proof.
  split; [cbn; intuition discriminate|]. intros p E. assert (H : ends_with "(entropic presampled)" "Portfolio_entropic" = true) by (apply C162_ends_with; exists p; exact E). discriminate.
Qed.
Example C162_blind_case : exists c1 c2 : estimator -> string -> Result unit, (forall e, c1 e "dedicated" = c2 e "dedicated") /\
  c1 EWeber "entropic_torch_pre" <> c2 EWeber "entropic_torch_pre".
Proof. exists (fun _ _ => Ok tt), (fun _ s => if String.eqb s "dedicated" then Ok tt else Raise ValueError). split; [reflexivity|discriminate]. Qed.

Print Assumptions C162_dedicated_is_binary.
Print Assumptions C162_dedicated_refuses.
Print Assumptions C162_more_classes.
Print Assumptions C162_binary_only_refuted.
Print Assumptions C162_ends_with.
Print Assumptions C162_checked.
Print Assumptions C162_blind.
Print Assumptions C162_presampled_excused.
Print Assumptions C162_unknown.
Print Assumptions C162_every_class_refuted.
