(* Properties C84, C85, C92 and C93: empirical distributions; stopping conditions held by estimators. *)
From Coq Require Import Reals List Bool String ZArith Arith Lra Lia.
From Verif Require Import PyBase XReal OptCond_Model OptCond_Spec OptCond_Proofs EstCond_Model EstCond_Proofs Distrib_Model.
Import ListNotations.

(* ---------- C84 ---------- *)
(* A distribution gives back the data it was given, under the names of its kind; the other names raise AttributeError. *)
Theorem C84_labelled : forall h m a b h' d, (a < top h)%nat -> (b < top h)%nat -> make_labels h m (Arr a) (Arr b) = Ok (h', d) ->
  contents h' (get_x d) = Some (cells h a) /\ contents h' (get_y d) = Some (cells h b) /\ get_samples d = Raise AttributeError /\ d_m d = m /\
  (forall i, (i < top h)%nat -> cells h' i = cells h i).
Proof.
  intros h m a b h' d Ha Hb H. cbn in H. injection H as <- <-. cbn [contents get_x get_y get_samples with_labels kind f_x f_y bind cells d_m].
  assert (E0 : top h =? S (top h) = false) by (apply Nat.eqb_neq; lia). assert (E1 : b =? top h = false) by (apply Nat.eqb_neq; lia).
  rewrite E0, !Nat.eqb_refl, E1. split; [reflexivity|]. split; [reflexivity|]. split; [reflexivity|]. split; [reflexivity|].
  intros i Hi. assert (E2 : i =? S (top h) = false) by (apply Nat.eqb_neq; lia). assert (E3 : i =? top h = false) by (apply Nat.eqb_neq; lia). rewrite E2, E3. reflexivity.
Qed.
Print Assumptions C84_labelled.
Theorem C84_unlabelled : forall h m a, let d := make_nolabels m (Arr a) in
  contents h (get_samples d) = Some (cells h a) /\ get_x d = Raise AttributeError /\ get_y d = Raise AttributeError /\ d_m d = m.
Proof. intros. repeat split. Qed.
Print Assumptions C84_unlabelled.
(* Assigning through a property of the right kind is read back and leaves the rest alone. *)
Theorem C84_set_then_get : forall d o,
  (forall d', get_samples d <> Raise AttributeError -> set_samples d o = Ok d' -> get_samples d' = Ok (Some o)) /\
  (forall d', get_x d <> Raise AttributeError -> set_x d o = Ok d' -> get_x d' = Ok (Some o) /\ get_y d' = get_y d) /\
  (forall d', get_y d <> Raise AttributeError -> set_y d o = Ok d' -> get_y d' = Ok (Some o) /\ get_x d' = get_x d).
Proof.
  intros d o. unfold get_samples, get_x, get_y, set_samples, set_x, set_y, with_labels.
  repeat split; intros; destruct (is_array o); try discriminate; match goal with H : Ok _ = Ok _ |- _ => injection H as <- end; cbn;
    destruct (kind d); cbn in *; try reflexivity; congruence.
Qed.
Print Assumptions C84_set_then_get.
(* Only arrays should be accepted: so it is of the setters and of the labelled constructor ... *)
Theorem C84_arrays_only : forall d o, is_array o = false ->
  set_samples d o = Raise TypeError /\ set_x d o = Raise TypeError /\ set_y d o = Raise TypeError /\
  forall h m p, (exists e, make_labels h m o p = Raise e) /\ (exists e, make_labels h m p o = Raise e).
Proof.
  intros d o H. unfold set_samples, set_x, set_y. rewrite H. repeat split; destruct o; try discriminate; cbn; eauto; destruct p; cbn; eauto.
Qed.
Print Assumptions C84_arrays_only.
(* ... but not of the unlabelled constructor; *)
Theorem C84_arrays_only_refuted : exists o m, is_array o = false /\ get_samples (make_nolabels m o) = Ok (Some o).
Proof. exists PyList, 3%nat. split; reflexivity. Qed.
Print Assumptions C84_arrays_only_refuted.
(* and a property of the wrong kind can be assigned, although it can never be read. *)
Theorem C84_wrong_kind_refuted : exists d o d', set_samples d o = Ok d' /\ get_samples d' = Raise AttributeError.
Proof. exists {| kind := WithLabels; d_m := 2; f_samples := None; f_x := Some (Arr 0); f_y := Some (Arr 1) |}, (Arr 5). eexists. split; reflexivity. Qed.
Print Assumptions C84_wrong_kind_refuted.
Definition ex_heap : heap := {| cells := fun i => match i with 0 => [[1%R; 2%R]] | _ => [[3%R]] end; top := 2 |}.
Example C84_case : exists h' d, make_labels ex_heap 1 (Arr 0) (Arr 1) = Ok (h', d) /\ contents h' (get_x d) = Some [[1%R; 2%R]] /\ contents h' (get_y d) = Some [[3%R]].
Proof. eexists. eexists. split; [reflexivity|]. split; reflexivity. Qed.

(* ---------- C85 ---------- *)
(* A distribution is a snapshot: what the caller writes into the arrays later is not seen. Labelled: *)
Theorem C85_labelled_snapshot : forall h m a b h' d writes, (a < top h)%nat -> (b < top h)%nat -> make_labels h m (Arr a) (Arr b) = Ok (h', d) ->
  Forall (fun p => (fst p < top h)%nat) writes ->
  let h'' := fold_left (fun k p => write k (fst p) (snd p)) writes h' in
  contents h'' (get_x d) = Some (cells h a) /\ contents h'' (get_y d) = Some (cells h b).
Proof.
  intros h m a b h' d writes Ha Hb H HW. destruct (C84_labelled _ _ _ _ _ _ Ha Hb H) as (X & Y & _).
  cbn in H. injection H as Hh Hd. subst d. clear Hh. revert h' X Y. induction HW as [|[i v] writes Hi HW IH]; intros h' X Y; [split; assumption|].
  cbn in Hi. cbn [fold_left fst snd]. apply IH; cbn [contents get_x get_y with_labels kind f_x f_y bind cells write] in *.
  - assert (E : top h =? i = false) by (apply Nat.eqb_neq; lia). rewrite E. exact X.
  - assert (E : S (top h) =? i = false) by (apply Nat.eqb_neq; lia). rewrite E. exact Y.
Qed.
Print Assumptions C85_labelled_snapshot.
(* Unlabelled, it is not: *)
Theorem C85_unlabelled_refuted : exists h m a v, (a < top h)%nat /\
  contents (write h a v) (get_samples (make_nolabels m (Arr a))) <> contents h (get_samples (make_nolabels m (Arr a))).
Proof. exists ex_heap, 1%nat, 0%nat, [[9%R]]. split; [cbn; lia|]. cbn. intros H. discriminate. Qed.
Print Assumptions C85_unlabelled_refuted.
Theorem C85_unlabelled_aliases : forall h m a v, contents (write h a v) (get_samples (make_nolabels m (Arr a))) = Some v.
Proof. intros. cbn. rewrite Nat.eqb_refl. reflexivity. Qed.
Print Assumptions C85_unlabelled_aliases.
Example C85_case : exists h' d, make_labels ex_heap 1 (Arr 0) (Arr 1) = Ok (h', d) /\ contents (write h' 0 [[7%R]]) (get_x d) = Some [[1%R; 2%R]].
Proof. eexists. eexists. split; reflexivity. Qed.

(* ---------- C92 ---------- *)
(* Estimators holding separate conditions do not influence each other: in any program of fits, the answers of the conditions
   to the fits of one estimator are those of the program in which only this estimator is fitted. *)
Theorem C92_separate : forall vnorm w e evs, separate w ->
  filter (fun p => fst p =? e) (program vnorm w evs) = program vnorm w (filter (fun p => fst p =? e) evs).
Proof. intros. apply program_local; auto. Qed.
Print Assumptions C92_separate.
(* The first fit of an estimator built with opt_cond=None is decided by a new condition, whatever happened before. *)
Theorem C92_none_first_fit : forall vnorm w e hs c, opt_cond w e = None -> default_cond = Ok c -> snd (fit vnorm w e hs) = answers vnorm c hs /\ fresh c.
Proof.
  intros vnorm w e hs c H Hc. destruct (fit_spec vnorm w e hs) as (c' & [V|[V D]] & A & _).
  - unfold view in V. rewrite H in V. discriminate.
  - destruct default_ok as (c0 & H0 & F). split; congruence.
Qed.
Print Assumptions C92_none_first_fit.
(* By default all estimators of a class share one condition, and the fits are not independent: *)
Theorem C92_default_refuted : exists w l c big small, default_cond = Ok c /\ conds w l = c /\ opt_cond w 0 = Some l /\ opt_cond w 1 = Some l /\
  Forall in_budget small /\
  filter (fun p => fst p =? 1) (program abs1 w [(0, big); (1, small)]) = [(1, [Ok true])] /\
  program abs1 w [(1, small)] = [(1, [Ok false; Ok false])].
Proof.
  destruct default_ok as (c & Hc & F).
  exists {| conds := fun _ => c; next := 1; opt_cond := fun _ => Some 0 |}, 0, c, big_run, small_run.
  do 4 (split; [first [exact Hc|reflexivity]|]). split; [apply small_budget|]. split.
  - cbn [program fit ensure_cond opt_cond conds]. cbn -[answers cond_after]. rewrite (small_after c Hc). reflexivity.
  - cbn -[answers cond_after]. rewrite (small_alone c Hc). reflexivity.
Qed.
Print Assumptions C92_default_refuted.
(* With opt_cond=None the condition made by the first fit is kept, and the second fit is not independent of the first. *)
Theorem C92_refit_refuted : exists w big small, opt_cond w 0 = None /\ Forall in_budget small /\
  program abs1 w [(0, big); (0, small)] = [(0, [Ok false]); (0, [Ok true])] /\ program abs1 w [(0, small)] = [(0, [Ok false; Ok false])].
Proof.
  destruct default_ok as (c & Hc & F).
  exists {| conds := fun _ => c; next := 1; opt_cond := fun _ => None |}, big_run, small_run. split; [reflexivity|]. split; [apply small_budget|].
  assert (B : answers abs1 c big_run = [Ok false]).
  { destruct (default_witness 0) as (c' & H' & F' & M & Me & Mo & T & P). assert (c' = c) by congruence. subst c'.
    unfold answers. assert (E : evals abs1 c big_run = [Ok false]); [|rewrite E; reflexivity].
    unfold big_run. rewrite (grad_theta abs1 c Rel) with (g0 := [Fin 1]) (gs := []); auto.
    - repeat constructor; exists [[Fin 1]]; repeat split; discriminate.
    - repeat constructor; unfold in_budget; cbn; lia. }
  split.
  - cbn -[answers cond_after default_cond]. unfold fit, ensure_cond. cbn -[answers cond_after default_cond]. rewrite Hc. cbn -[answers cond_after default_cond].
    unfold upd. cbn -[answers cond_after default_cond]. rewrite B, (small_after c Hc). reflexivity.
  - cbn -[answers cond_after default_cond]. unfold fit, ensure_cond. cbn -[answers cond_after default_cond]. rewrite Hc. cbn -[answers cond_after default_cond].
    unfold upd. cbn -[answers cond_after default_cond]. rewrite (small_alone c Hc). reflexivity.
Qed.
Print Assumptions C92_refit_refuted.
(* What the defaults look at: the gradient in theta, relative to the first one, down to 1e-4 for LogisticRegression and 1e-8 for the
   others. *)
Theorem C92_defaults_watch : forall vnorm h hs g0 gs, Forall2 shows_grad (h :: hs) (g0 :: gs) -> Forall in_budget (h :: hs) ->
  exists c c', logistic_cond = Ok c /\ default_cond = Ok c' /\
    evals vnorm c (h :: hs) = Ok false :: map (fun g => Ok (passes Rel (Fin (/ 10000)) (vnorm g0) (vnorm g))) gs /\
    evals vnorm c' (h :: hs) = Ok false :: map (fun g => Ok (passes Rel (Fin (/ 100000000)) (vnorm g0) (vnorm g))) gs.
Proof.
  intros vnorm h hs g0 gs S B. eexists. eexists. split; [reflexivity|]. split; [reflexivity|]. split.
  - refine (grad_theta vnorm _ Rel h hs g0 gs _ _ _ _ _ S B); [repeat split|left; reflexivity|reflexivity|reflexivity|cbn; apply Rltb_true; lra].
  - refine (grad_theta vnorm _ Rel h hs g0 gs _ _ _ _ _ S B); [repeat split|left; reflexivity|reflexivity|reflexivity|cbn; apply Rltb_true; lra].
Qed.
Print Assumptions C92_defaults_watch.
Example C92_defaults_watch_case : Forall2 shows_grad [(shot 0 1 4 0 10, 0%Z); (shot 0 1 3 5 10, 1%Z)] [[Fin 4]; [Fin 3]] /\
  Forall in_budget [(shot 0 1 4 0 10, 0%Z); (shot 0 1 3 5 10, 1%Z)].
Proof.
  split.
  - constructor; [exists [[Fin 4]]; repeat split; discriminate|]. constructor; [exists [[Fin 3]]; repeat split; discriminate|]. constructor.
  - repeat constructor; unfold in_budget; cbn; lia.
Qed.
Example C92_case : exists w, separate w /\ opt_cond w 0 = Some 0 /\ opt_cond w 1 = Some 1 /\
  filter (fun p => fst p =? 1) (program abs1 w [(0, big_run); (1, small_run)]) = program abs1 w [(1, small_run)].
Proof.
  destruct default_ok as (c & Hc & F).
  exists {| conds := fun _ => c; next := 2; opt_cond := fun e => match e with 0 => Some 0 | 1 => Some 1 | _ => None end |}.
  assert (S : separate {| conds := fun _ => c; next := 2; opt_cond := fun e => match e with 0 => Some 0 | 1 => Some 1 | _ => None end |}).
  { split; cbn.
    - intros [|[|e]] l H; try discriminate; injection H as <-; lia.
    - intros [|[|e]] [|[|e']] l H H'; try discriminate; try reflexivity; congruence. }
  split; [exact S|]. split; [reflexivity|]. split; [reflexivity|]. exact (C92_separate abs1 _ 1 [(0, big_run); (1, small_run)] S).
Qed.

(* ---------- C93 ---------- *)
(* The constructor accepts exactly the positive orders and 'inf', and builds a condition with the requested settings and no memory. *)
Theorem C93_orders : forall o tt tl mi mon mo me, (exists c, oc_init o tt tl mi mon mo me = Ok c) <-> o = OrdStr "inf" \/ exists n, o = OrdInt n /\ (0 < n)%Z.
Proof. exact oc_init_ok. Qed.
Print Assumptions C93_orders.
Theorem C93_built : forall o tt tl mi mon mo me c, oc_init o tt tl mi mon mo me = Ok c ->
  tol_theta c = tt /\ tol_lambda c = tl /\ monitoring c = mon /\ mode c = mo /\ metric c = me /\ fresh c /\ (forall n, mi = Some n -> max_iter c = n).
Proof.
  intros o tt tl mi mon mo me c H. unfold oc_init in H. destruct (match o with OrdInt n => assert_ (0 <? n)%Z | OrdStr s => assert_ (s =? "inf")%string end); cbn in H; [|discriminate].
  injection H as <-. cbn. repeat split. intros n ->. reflexivity.
Qed.
Print Assumptions C93_built.
(* The argument max_iter changes nothing: every call first replaces it by the number of iterations of the problem. Without it, and
   before any call, there is no limit. *)
Theorem C93_max_iter_unused : forall vnorm o tt tl mi mi' mon mo me c c' l, oc_init o tt tl mi mon mo me = Ok c -> oc_init o tt tl mi' mon mo me = Ok c' ->
  evals vnorm c l = evals vnorm c' l /\ (mi = None -> forall it, check_iter c it = false).
Proof.
  intros vnorm o tt tl mi mi' mon mo me c c' l H H'. unfold oc_init in H, H'.
  destruct (match o with OrdInt n => assert_ (0 <? n)%Z | OrdStr s => assert_ (s =? "inf")%string end); cbn [bind] in H, H'; [|discriminate].
  injection H as <-. injection H' as <-. split; [|intros ->; intros it; reflexivity]. destruct l as [|[ob it] r]; reflexivity.
Qed.
Print Assumptions C93_max_iter_unused.
Example C93_max_iter_unused_case : exists c c', oc_init (OrdInt 2) (Fin 1) (Fin 3) None "theta" "rel" "grad" = Ok c /\ oc_init (OrdInt 2) (Fin 1) (Fin 3) (Some 7%Z) "theta" "rel" "grad" = Ok c' /\ c <> c'.
Proof. eexists. eexists. split; [reflexivity|]. split; [reflexivity|]. intros H. apply (f_equal max_iter) in H. discriminate. Qed.
Example C93_case : (exists c, oc_init (OrdStr "inf") (Fin 1) (Fin 1) None "theta" "rel" "grad" = Ok c) /\ ~ (exists c, oc_init (OrdInt 0) (Fin 1) (Fin 1) None "theta" "rel" "grad" = Ok c).
Proof. split; [apply oc_init_ok; left; reflexivity|]. intros H. apply oc_init_ok in H. destruct H as [H|(n & H & L)]; [discriminate|]. injection H as <-. lia. Qed.

(* what exactly happens when something else than arrays is given: a list has a copy method without arguments, a tensor has none; the
   features are looked at first *)
Theorem C84_not_arrays : forall h m,
  (forall p, make_labels h m PyList p = Raise TypeError /\ make_labels h m Tensor p = Raise AttributeError) /\
  (forall a, make_labels h m (Arr a) PyList = Raise TypeError /\ make_labels h m (Arr a) Tensor = Raise AttributeError).
Proof. intros h m. split; intros; split; reflexivity. Qed.
Print Assumptions C84_not_arrays.

(* ---------- concrete cases of the theorems above, one each ---------- *)
Example C84_labelled_case : exists h' d, make_labels ex_heap 1 (Arr 0) (Arr 1) = Ok (h', d) /\ get_samples d = Raise AttributeError /\ cells h' 1 = [[3%R]].
Proof.
  destruct C84_case as (h' & d & E & _). exists h', d. split; [exact E|]. destruct (C84_labelled ex_heap 1 0 1 h' d ltac:(simpl; lia) ltac:(simpl; lia) E) as (_ & _ & G & _ & K).
  split; [exact G|]. rewrite (K 1%nat ltac:(simpl; lia)). reflexivity.
Qed.
Example C84_set_then_get_case : exists h d d', make_labels ex_heap 1 (Arr 0) (Arr 1) = Ok (h, d) /\ set_y d (Arr 0) = Ok d' /\ get_y d' = Ok (Some (Arr 0)) /\ get_x d' = get_x d.
Proof. eexists _, _, _. split; [reflexivity|]. split; [reflexivity|]. refine (proj2 (proj2 (C84_set_then_get _ (Arr 0))) _ _ eq_refl). discriminate. Qed.
Example C84_arrays_only_case : set_x (make_nolabels 1 (Arr 0)) PyList = Raise TypeError.
Proof. apply C84_arrays_only. reflexivity. Qed.
Example C85_labelled_snapshot_case : exists h' d, make_labels ex_heap 1 (Arr 0) (Arr 1) = Ok (h', d) /\ contents (write (write h' 0 []) 1 [[9%R]]) (get_y d) = Some [[3%R]].
Proof.
  destruct C84_case as (h' & d & E & _). exists h', d. split; [exact E|].
  refine (proj2 (C85_labelled_snapshot ex_heap 1 0 1 h' d [(0, []); (1, [[9%R]])] _ _ E _)); try (simpl; lia). repeat constructor.
Qed.
Example C92_none_first_fit_case : exists c, default_cond = Ok c /\ fresh c.
Proof. destruct default_ok as (c & Hc & F). exists c. split; [exact Hc|exact F]. Qed.
Example C93_orders_case : exists c, oc_init (OrdInt 2) (Fin 1) (Fin 1) None "theta" "rel" "grad" = Ok c.
Proof. apply C93_orders. right. exists 2%Z. split; [reflexivity|lia]. Qed.
Example C93_built_case : exists c, oc_init (OrdInt 2) (Fin 1) (Fin 3) (Some 7%Z) "theta" "rel" "grad" = Ok c /\ tol_lambda c = Fin 3 /\ max_iter c = 7%Z.
Proof.
  destruct (proj2 (C93_orders (OrdInt 2) (Fin 1) (Fin 3) (Some 7%Z) "theta" "rel" "grad")) as [c E]; [right; exists 2%Z; split; [reflexivity|lia]|].
  exists c. split; [exact E|]. destruct (C93_built _ _ _ _ _ _ _ _ E) as (_ & T & _ & _ & _ & _ & M). split; [exact T|]. apply M. reflexivity.
Qed.
