(* C140: the soft-margin loss with labels in {0, 1}, as in doc/wdro.rst:20 and in the two landscape examples. *)
From Coq Require Import Reals List Lra Lia Arith.
From Verif Require Import PyBase RList XReal Tensor Loss_Model.
Import ListNotations.
Local Open Scope R_scope.

(* specification: one score and one label per observation, as the columns handed to the loss; the average of what it returns *)
Definition column (l : list R) : tensor := mkT [length l; 1%nat] l.
Definition average_loss (scores labels : list R) (r : R) : Prop :=
  exists t, softmargin (column scores) (column labels) = Ok t /\ r = rmean (dat t).
Definition logloss (m : R) : R := ln (1 + exp (- m)).
(* scores of the linear model theta, b *)
Definition scores_of (theta : vec) (b : R) (xs : list vec) : list R := map (fun x => dot theta x + b) xs.

Lemma logsig_eq m : - logsigmoid m = logloss m.
Proof. unfold logsigmoid, logloss. replace (1 / (1 + exp (- m))) with (/ (1 + exp (- m))) by (unfold Rdiv; ring). rewrite ln_Rinv by (pose proof (exp_pos (- m)); lra). ring. Qed.
Lemma softmargin_columns s y : length s = length y -> softmargin (column s) (column y) = Ok (mkT [length s; 1%nat] (map2 (fun t i => logloss (t * i)) y s)).
Proof.
  intros L. unfold softmargin, view, column. cbn [shp dat]. rewrite <- L. destruct (_ =? _)%nat eqn:E; [|exfalso; apply Nat.eqb_neq in E; apply E; cbn; lia].
  cbn [bind]. f_equal. f_equal. cbn [dat]. apply map2_ext. intros. apply logsig_eq.
Qed.
Lemma average_eq s y r : length s = length y -> (average_loss s y r <-> r = rmean (map2 (fun t i => logloss (t * i)) y s)).
Proof.
  intros L. unfold average_loss. rewrite softmargin_columns by exact L. split.
  - intros (t & E & ->). injection E as <-. reflexivity.
  - intros ->. eexists. split; [reflexivity|reflexivity].
Qed.
Lemma logloss_pos m : 0 < logloss m.
Proof. unfold logloss. rewrite <- ln_1. apply ln_increasing; [lra|]. pose proof (exp_pos (- m)). lra. Qed.
Lemma logloss_dec a b : a < b -> logloss b < logloss a.
Proof. intros H. unfold logloss. apply ln_increasing; [pose proof (exp_pos (- b)); lra|]. apply Rplus_lt_compat_l, exp_increasing. lra. Qed.
Lemma logloss_0 : logloss 0 = ln 2.
Proof. unfold logloss. rewrite Ropp_0, exp_0. reflexivity. Qed.
Lemma logloss_ge m : - m <= logloss m.
Proof. unfold logloss. rewrite <- (ln_exp (- m)) at 1. left. apply ln_increasing; [apply exp_pos|lra]. Qed.

(* The score of an observation labelled 0 has no influence on the loss. *)
Theorem C140_zero_label_ignored : forall scores scores' labels r r', length scores = length labels -> length scores' = length labels ->
  (forall i, (i < length labels)%nat -> nth i labels 0 <> 0 -> nth i scores 0 = nth i scores' 0) ->
  average_loss scores labels r -> average_loss scores' labels r' -> r = r'.
Proof.
  intros s s' y r r' L L' H A A'. apply average_eq in A; [|exact L]. apply average_eq in A'; [|exact L']. subst. f_equal.
  revert s s' L L' H. induction y as [|t y IH]; intros [|a s] [|a' s'] L L' H; try discriminate; [reflexivity|]. cbn. f_equal.
  - destruct (Req_dec t 0) as [->|N]; [rewrite !Rmult_0_l; reflexivity|]. rewrite (H 0%nat ltac:(cbn; lia) N : a = a'). reflexivity.
  - apply IH; [cbn in L; lia|cbn in L'; lia|]. intros i Hi. apply (H (S i)). cbn. lia.
Qed.
Print Assumptions C140_zero_label_ignored.

(* An observation labelled 0 costs log 2 whatever the model; labelled -1 or 1 it costs less than log 2 exactly when it is well classified. *)
Theorem C140_one_observation : forall s r, (average_loss [s] [0] r -> r = ln 2) /\
  (forall y, y = 1 \/ y = -1 -> average_loss [s] [y] r -> (r < ln 2 <-> 0 < y * s) /\ (ln 2 < r <-> y * s < 0)).
Proof.
  intros s r. assert (One : forall y, average_loss [s] [y] r -> r = logloss (y * s)) by (intros y A; apply average_eq in A; [|reflexivity]; rewrite A; unfold rmean; cbn; lra). split.
  - intros A. rewrite (One 0 A), Rmult_0_l. apply logloss_0.
  - intros y _ A. rewrite (One y A), <- logloss_0. destruct (Rtotal_order (y * s) 0) as [H|[H|H]].
    + pose proof (logloss_dec _ _ H). lra.
    + rewrite H. lra.
    + pose proof (logloss_dec _ _ H). lra.
Qed.
Print Assumptions C140_one_observation.

(* With labels in {0, 1} every linear model with an intercept is beaten by one that puts every observation in class 1. *)
Theorem C140_everything_in_class_1 : forall xs labels theta b r, length xs = length labels -> Forall (fun y => y = 0 \/ y = 1) labels -> In 1 labels ->
  average_loss (scores_of theta b xs) labels r ->
  exists b' r', average_loss (scores_of theta b' xs) labels r' /\ r' < r /\ Forall (fun s => 0 < s) (scores_of theta b' xs).
Proof.
  intros xs y theta b r L F I A. set (b' := b + 1 + rmax0 (map (fun x => - (dot theta x + b)) xs)). exists b', (rmean (map2 (fun t i => logloss (t * i)) y (scores_of theta b' xs))).
  assert (Ls : forall c, length (scores_of theta c xs) = length y) by (intros; unfold scores_of; rewrite map_length; exact L). split; [apply average_eq; [apply Ls|reflexivity]|].
  apply average_eq in A; [|apply Ls]. subst r. assert (Bb : b + 1 <= b') by (unfold b'; pose proof (rmax0_nonneg (map (fun x => - (dot theta x + b)) xs)); lra). split.
  - unfold scores_of. rewrite !map2_map_r. rewrite !map2_map_combine. unfold rmean. rewrite !map_length. unfold Rdiv. apply Rmult_lt_compat_r.
    { apply Rinv_0_lt_compat. rewrite combine_length, L, Nat.min_id. apply INR_length_pos. intros E. rewrite E in I. destruct I. }
    assert (J : exists x, In (1, x) (List.combine y xs)).
    { clear -I L. revert xs L. induction y as [|t y IH]; intros [|x xs] L; try discriminate; [destruct I|]. destruct I as [->|I]; [exists x; left; reflexivity|]. destruct (IH I xs ltac:(cbn in L; lia)) as [z Z]. exists z. right. exact Z. }
    destruct J as [x J]. clear -F J Bb L. assert (Fl : forall p, In p (List.combine y xs) -> fst p = 0 \/ fst p = 1) by (intros [t z] P; apply in_combine_l in P; rewrite Forall_forall in F; apply F; exact P).
    clear F L. induction (List.combine y xs) as [|p l IH]; [destruct J|]. cbn.
    assert (Le : forall p, fst p = 0 \/ fst p = 1 -> logloss (fst p * (dot theta (snd p) + b')) <= logloss (fst p * (dot theta (snd p) + b))).
    { intros [t z] [E|E]; cbn in *; subst t; [rewrite !Rmult_0_l; lra|]. left. apply logloss_dec. lra. }
    assert (Tl : rsum (map (fun p => logloss (fst p * (dot theta (snd p) + b'))) l) <= rsum (map (fun p => logloss (fst p * (dot theta (snd p) + b))) l)) by (apply rsum_map_le; intros q Q; apply Le, Fl; right; exact Q).
    destruct J as [->|J].
    + cbn. assert (logloss (1 * (dot theta x + b')) < logloss (1 * (dot theta x + b))) by (apply logloss_dec; lra). lra.
    + pose proof (Le p (Fl p (or_introl eq_refl))). specialize (IH J (fun q Q => Fl q (or_intror Q))). lra.
  - unfold scores_of. rewrite Forall_map, Forall_forall. intros x Hx. assert (- (dot theta x + b) <= rmax0 (map (fun x => - (dot theta x + b)) xs)) by (apply rmax0_ge; apply in_map_iff; exists x; auto). unfold b'. lra.
Qed.
Print Assumptions C140_everything_in_class_1.

(* Once recoded to {-1, 1}, as classifiers_comparison.py:44 does, raising the intercept costs as much as one likes when both classes occur. *)
Theorem C140_recoded : forall xs labels theta, length xs = length labels -> Forall (fun y => y = 0 \/ y = 1) labels -> In 0 labels ->
  forall K, exists b0, forall b r, b0 <= b -> average_loss (scores_of theta b xs) (map (fun y => 2 * y - 1) labels) r -> K < r.
Proof.
  intros xs y theta L F I K. assert (J : exists x, In (0, x) (List.combine y xs)).
  { clear -I L. revert xs L. induction y as [|t y IH]; intros [|x xs] L; try discriminate; [destruct I|]. destruct I as [->|I]; [exists x; left; reflexivity|]. destruct (IH I xs ltac:(cbn in L; lia)) as [z Z]. exists z. right. exact Z. }
  destruct J as [x J]. set (n := INR (length y)). assert (Hn : 0 < n) by (apply INR_length_pos; intros E; rewrite E in I; destruct I).
  exists (n * (Rabs K + 1) - dot theta x). intros b r Hb A. apply average_eq in A; [|unfold scores_of; rewrite !map_length; exact L]. subst r.
  unfold scores_of. rewrite map2_map_r, map2_map_l, map2_map_combine. unfold rmean. rewrite map_length, combine_length, L, Nat.min_id. fold n.
  assert (S : n * (Rabs K + 1) <= rsum (map (fun p => logloss ((2 * fst p - 1) * (dot theta (snd p) + b))) (List.combine y xs))).
  { clear -J Hb. induction (List.combine y xs) as [|p l IH]; [destruct J|]. cbn. assert (Nn : 0 <= rsum (map (fun p => logloss ((2 * fst p - 1) * (dot theta (snd p) + b))) l)) by (apply rsum_map_nonneg; intros; left; apply logloss_pos).
    destruct J as [->|J].
    - cbn. replace ((2 * 0 - 1) * (dot theta x + b)) with (- (dot theta x + b)) by ring. pose proof (logloss_ge (- (dot theta x + b))). lra.
    - pose proof (logloss_pos ((2 * fst p - 1) * (dot theta (snd p) + b))). specialize (IH J). lra. }
  apply (Rmult_lt_reg_r n); [exact Hn|]. unfold Rdiv. rewrite Rmult_assoc, Rinv_l, Rmult_1_r by lra. pose proof (Rle_abs K). nra.
Qed.
Print Assumptions C140_recoded.

(* Two points that a linear model separates: with labels 0 and 1 every model has a better one that misclassifies the first. *)
Theorem C140_separable_refuted : exists xs labels theta b, average_loss (scores_of theta b xs) labels (ln 2 / 2 + logloss 1 / 2) /\
  Forall2 (fun s y => (y = 1 -> 0 < s) /\ (y = 0 -> s < 0)) (scores_of theta b xs) labels /\
  forall theta' b' r', average_loss (scores_of theta' b' xs) labels r' ->
    exists b'' r'', average_loss (scores_of theta' b'' xs) labels r'' /\ r'' < r' /\ ~ Forall2 (fun s y => (y = 1 -> 0 < s) /\ (y = 0 -> s < 0)) (scores_of theta' b'' xs) labels.
Proof.
  exists [[-1]; [1]], [0; 1], [1], 0. split; [|split].
  - apply average_eq; [reflexivity|]. unfold scores_of, rmean, dot. cbn. rewrite Rmult_0_l, logloss_0. replace (1 * (1 * 1 + 0 + 0)) with 1 by ring. field.
  - unfold scores_of, dot. cbn. constructor; [split; lra|]. constructor; [split; lra|constructor].
  - intros theta' b' r' A. destruct (C140_everything_in_class_1 [[-1]; [1]] [0; 1] theta' b' r') as (b'' & r'' & A' & Lt & P); [reflexivity| | |exact A|].
    { constructor; [left; reflexivity|]. constructor; [right; reflexivity|constructor]. } { right. left. reflexivity. }
    exists b'', r''. split; [exact A'|]. split; [exact Lt|]. intros F. inversion F as [|? ? ? ? [_ Q] _]; subst. inversion P; subst. specialize (Q eq_refl). lra.
Qed.
Print Assumptions C140_separable_refuted.

(* non-vacuity *)
Example C140_case : average_loss [3; 1] [0; 1] (ln 2 / 2 + logloss 1 / 2) /\ average_loss [-7; 1] [0; 1] (ln 2 / 2 + logloss 1 / 2).
Proof. split; apply average_eq; try reflexivity; unfold rmean; cbn; rewrite Rmult_0_l, logloss_0; replace (1 * 1) with 1 by ring; field. Qed.
