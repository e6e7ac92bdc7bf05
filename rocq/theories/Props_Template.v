(* C130: the template estimators: nearest neighbour, square root and constant. *)
From Coq Require Import Reals List Bool ZArith Arith Lia Lra.
From Verif Require Import PyBase RList XReal Tensor Estim_Model Estim_Proofs Template_Model.
Import ListNotations.
Local Open Scope R_scope.

Definition matrix (d : nat) (X : list vec) : Prop := X <> [] /\ (0 < d)%nat /\ Forall (fun x => List.length x = d) X.
Definition dist2 (q x : vec) : R := rsum (map2 (fun a b => (a - b) * (a - b)) q x).

Lemma checked d X : matrix d X -> check_array X = Ok (X, d).
Proof.
  intros (N & D & F). destruct X as [|r X]; [congruence|]. unfold check_array. inversion F as [|? ? Hr F']; subst.
  replace (List.length r =? 0)%nat with false by (symmetry; apply Nat.eqb_neq; lia). cbn [negb andb].
  replace (forallb _ _) with true; [reflexivity|]. symmetry. apply forallb_forall. intros x Hx. rewrite Forall_forall in F. apply Nat.eqb_eq. apply F. exact Hx.
Qed.
Lemma checked_inv X c : check_array X = Ok c -> fst c = X /\ matrix (snd c) X.
Proof.
  destruct X as [|r X]; [discriminate|]. unfold check_array. destruct (List.length r =? 0)%nat eqn:D; [discriminate|]. cbn [negb andb].
  destruct (forallb _ _) eqn:F; [|discriminate]. intros H. injection H as <-. split; [reflexivity|]. apply Nat.eqb_neq in D. rewrite forallb_forall in F.
  split; [discriminate|]. split; [cbn; lia|]. apply Forall_forall. intros x Hx. apply Nat.eqb_eq. exact (F x Hx).
Qed.

(* Any other data are refused by every method. *)
Theorem C130_only_matrices :
  forall X (y : list Z), (forall d, ~ matrix d X) -> te_fit X y = Raise ValueError /\ tc_fit X y = Raise ValueError /\ tt_fit X = Raise ValueError /\
    (forall b, te_predict b X = Raise ValueError) /\ (forall c, tc_predict (Some c) X = Raise ValueError) /\ (forall n, tt_transform (Some n) X = Raise ValueError).
Proof.
  intros X y H. assert (E : check_array X = Raise ValueError).
  { destruct (check_array X) as [c|e] eqn:E; [exfalso; apply (H (snd c)), checked_inv; exact E|]. revert E. unfold check_array. destruct X; [intros [= <-]; reflexivity|]. destruct (_ && _)%bool; [discriminate|]. intros [= <-]. reflexivity. }
  unfold te_fit, tc_fit, tt_fit, check_X_y, te_predict, tc_predict, tt_transform. rewrite E. repeat split.
Qed.
Print Assumptions C130_only_matrices.

Lemma argmin_from_spec l : forall best at_ i (l0 : list R), List.length l0 = i -> (at_ < i)%nat -> nth at_ l0 0 = best -> (forall j, (j < i)%nat -> best <= nth j l0 0) -> (forall j, (j < at_)%nat -> best < nth j l0 0) ->
  let k := argmin_from best at_ i l in let m := l0 ++ l in (k < List.length m)%nat /\ (forall j, (j < List.length m)%nat -> nth k m 0 <= nth j m 0) /\ (forall j, (j < k)%nat -> nth k m 0 < nth j m 0).
Proof.
  induction l as [|v l IH]; intros best at_ i l0 L A E M S; cbn [argmin_from].
  - rewrite app_nil_r. subst i. rewrite E. auto.
  - replace (l0 ++ v :: l) with ((l0 ++ [v]) ++ l) by (rewrite <- app_assoc; reflexivity). destruct (Rltb v best) eqn:V.
    + apply Rltb_true in V. apply IH.
      * rewrite app_length. simpl. lia.
      * lia.
      * rewrite app_nth2, L, Nat.sub_diag by lia. reflexivity.
      * intros j Hj. destruct (Nat.eq_dec j i) as [->|]; [rewrite app_nth2, L, Nat.sub_diag by lia; simpl; lra|]. rewrite app_nth1 by lia. specialize (M j ltac:(lia)). lra.
      * intros j Hj. rewrite app_nth1 by lia. specialize (M j Hj). lra.
    + apply Rltb_false in V. apply IH.
      * rewrite app_length. simpl. lia.
      * lia.
      * rewrite app_nth1 by lia. exact E.
      * intros j Hj. destruct (Nat.eq_dec j i) as [->|]; [rewrite app_nth2, L, Nat.sub_diag by lia; simpl; lra|]. rewrite app_nth1 by lia. apply M. lia.
      * intros j Hj. rewrite app_nth1 by lia. apply S. exact Hj.
Qed.
Lemma argmin_spec l : l <> [] -> (argmin l < List.length l)%nat /\ (forall j, (j < List.length l)%nat -> nth (argmin l) l 0 <= nth j l 0) /\ (forall j, (j < argmin l)%nat -> nth (argmin l) l 0 < nth j l 0).
Proof.
  destruct l as [|v l]; [congruence|]. intros _. apply (argmin_from_spec l v 0 1 [v]); simpl; try reflexivity; try lia.
  intros j Hj. replace j with 0%nat by lia. lra.
Qed.
Lemma dist2_expand q x : List.length q = List.length x -> dot q q - 2 * dot q x + dot x x = dist2 q x.
Proof. unfold dot, dist2. revert x. induction q as [|a q IH]; intros [|b x] L; try discriminate; cbn [map2 rsum]; [ring|]. injection L as L. rewrite <- (IH x L). ring. Qed.
Lemma dist2_nonneg q x : 0 <= dist2 q x.
Proof. unfold dist2. revert x. induction q as [|a q IH]; intros [|b x]; simpl; try lra. pose proof (IH x). pose proof (Rle_0_sqr (a - b)). unfold Rsqr in *. lra. Qed.
Lemma distance_row d q X : List.length q = d -> Forall (fun x => List.length x = d) X ->
  map (fun x => sqrt (Rmax (dot q q - 2 * dot q x + dot x x) 0)) X = map (fun x => sqrt (dist2 q x)) X.
Proof. intros L F. apply map_ext_in. intros x Hx. rewrite Forall_forall in F. rewrite dist2_expand by (rewrite L; symmetry; apply F; exact Hx). rewrite Rmax_left by apply dist2_nonneg. reflexivity. Qed.

(* Each query gets the label of the first of its nearest training samples. *)
Theorem C130_nearest_neighbour :
  forall d X y c Q, tc_fit X y = Ok c -> matrix d X -> matrix d Q ->
    exists out, tc_predict (Some c) Q = Ok out /\ List.length out = List.length Q /\
      forall k q, nth_error Q k = Some q -> exists i x v, nth_error X i = Some x /\ nth_error y i = Some v /\ nth_error out k = Some v /\
        forall j x', nth_error X j = Some x' -> dist2 q x <= dist2 q x' /\ ((j < i)%nat -> dist2 q x < dist2 q x').
Proof.
  intros d X y c Q H MX MQ. unfold tc_fit, check_X_y in H. rewrite (checked d X MX) in H. cbn [bind] in H. destruct (List.length X =? List.length y)%nat eqn:L; [|discriminate]. apply Nat.eqb_eq in L. cbn [bind fst snd] in H. injection H as <-.
  unfold tc_predict. rewrite (checked d Q MQ). cbn [bind fst snd columns X_ y_]. rewrite Nat.eqb_refl. eexists. split; [reflexivity|]. unfold euclidean_distances. rewrite map_map. split; [apply map_length|].
  intros k q Hq. destruct MX as (NX & _ & FX), MQ as (_ & _ & FQ). rewrite (map_nth_error _ _ _ Hq). assert (Lq : List.length q = d) by (rewrite Forall_forall in FQ; apply FQ; eapply nth_error_In; exact Hq).
  rewrite (distance_row d q X Lq FX). set (l := map (fun x => sqrt (dist2 q x)) X). assert (Nl : l <> []) by (unfold l; destruct X; [congruence|discriminate]).
  destruct (argmin_spec l Nl) as (A & B & C). set (i := argmin l) in *. assert (Ll : List.length l = List.length X) by apply map_length. rewrite Ll in *.
  destruct (nth_error X i) as [x|] eqn:Ex; [|apply nth_error_None in Ex; lia]. destruct (nth_error y i) as [v|] eqn:Ev; [|apply nth_error_None in Ev; lia].
  exists i, x, v. split; [exact Ex|]. split; [exact Ev|]. split; [f_equal; apply nth_error_nth; exact Ev|]. 
  assert (V : forall j x', nth_error X j = Some x' -> nth j l 0 = sqrt (dist2 q x')) by (intros j x' E; apply nth_error_nth; unfold l; apply map_nth_error with (f := fun x => sqrt (dist2 q x)); exact E).
  intros j x' Ej. assert (Hj : (j < List.length X)%nat) by (apply nth_error_Some; congruence). split.
  - specialize (B j Hj). rewrite (V _ _ Ex), (V _ _ Ej) in B. apply sqrt_le_0; [apply dist2_nonneg|apply dist2_nonneg|exact B].
  - intros Lt. specialize (C j Lt). rewrite (V _ _ Ex), (V _ _ Ej) in C. apply sqrt_lt_0; [apply dist2_nonneg|apply dist2_nonneg|exact C].
Qed.
Print Assumptions C130_nearest_neighbour.

Lemma dist2_zero q x : List.length q = List.length x -> dist2 q x = 0 -> q = x.
Proof.
  unfold dist2. revert x. induction q as [|a q IH]; intros [|b x] L H; try discriminate; [reflexivity|]. injection L as L. cbn [map2 rsum] in H.
  pose proof (dist2_nonneg q x) as P. unfold dist2 in P. pose proof (Rle_0_sqr (a - b)) as S. unfold Rsqr in S. f_equal; [|apply IH; [exact L|lra]].
  assert (Z : (a - b) * (a - b) = 0) by lra. apply Rmult_integral in Z. lra.
Qed.
Lemma dist2_refl q : dist2 q q = 0.
Proof. unfold dist2. rewrite map2_same. rewrite (map_ext _ (fun _ => 0)); [rewrite rsum_map_const; ring|]. intros a. ring. Qed.
Lemma nth_error_same {A} (l m : list A) : (forall k, nth_error l k = nth_error m k) -> l = m.
Proof. revert m. induction l as [|a l IH]; intros [|b m] H; [reflexivity|specialize (H 0%nat); discriminate|specialize (H 0%nat); discriminate|]. pose proof (H 0%nat) as E. injection E as ->. f_equal. apply IH. intros k. exact (H (S k)). Qed.
(* Training data on which equal rows have equal labels are given back exactly, ... *)
Theorem C130_training_labels :
  forall d X y c, tc_fit X y = Ok c -> matrix d X -> (forall i j x v w, nth_error X i = Some x -> nth_error X j = Some x -> nth_error y i = Some v -> nth_error y j = Some w -> v = w) ->
    tc_predict (Some c) X = Ok y.
Proof.
  intros d X y c H M K. destruct (C130_nearest_neighbour d X y c X H M M) as (out & E & L & N). rewrite E. f_equal.
  assert (Ly : List.length X = List.length y). { unfold tc_fit, check_X_y in H. rewrite (checked d X M) in H. cbn [bind] in H. destruct (List.length X =? List.length y)%nat eqn:L'; [apply Nat.eqb_eq; exact L'|discriminate]. }
  apply nth_error_same. intros k. destruct (nth_error X k) as [q|] eqn:Hq.
  - destruct (N k q Hq) as (i & x & v & Ex & Ev & Eo & B). rewrite Eo. destruct (B k q Hq) as [Z _]. rewrite dist2_refl in Z.
    assert (Q : x = q).
    { symmetry. apply dist2_zero; [|pose proof (dist2_nonneg q x); lra]. destruct M as (_ & _ & F). rewrite Forall_forall in F. rewrite (F q), (F x); [reflexivity| |]; eapply nth_error_In; eassumption. }
    subst x. destruct (nth_error y k) as [w|] eqn:Ew; [f_equal; exact (K i k q v w Ex Hq Ev Ew)|]. apply nth_error_None in Ew. assert (k < List.length X)%nat by (apply nth_error_Some; congruence). lia.
  - apply nth_error_None in Hq. rewrite (proj2 (nth_error_None out k)), (proj2 (nth_error_None y k)) by lia. reflexivity.
Qed.
Print Assumptions C130_training_labels.
(* ... and others are not: the second label of a repeated row is lost. *)
Theorem C130_repeated_row_refuted : exists X y c, tc_fit X y = Ok c /\ tc_predict (Some c) X <> Ok y.
Proof.
  exists [[1]; [1]], [5; 6]%Z. eexists. split; [reflexivity|]. destruct (C130_nearest_neighbour 1 [[1]; [1]] [5; 6]%Z _ [[1]; [1]] eq_refl) as (out & E & _ & N); [repeat constructor; discriminate|repeat constructor; discriminate|].
  cbv zeta. rewrite E. intros [= ->]. destruct (N 1%nat [1] eq_refl) as (i & x & v & Ex & Ev & Eo & B). cbn in Eo. injection Eo as <-. destruct i as [|[|i]]; cbn in Ev; try discriminate.
  - destruct (B 0%nat [1] eq_refl) as [_ S]. cbn in Ex. injection Ex as <-. specialize (S ltac:(lia)). lra.
  - destruct i; discriminate.
Qed.
Print Assumptions C130_repeated_row_refuted.

(* Before a fit every method that needs one raises NotFittedError; data of another width are refused by the classifier and the transformer,
   while the estimator does not look at it and returns ones. *)
Theorem C130_refusals :
  forall d d' X y c n Q, tc_fit X y = Ok c -> tt_fit X = Ok n -> matrix d X -> matrix d' Q ->
    te_fit X y = Ok true /\ te_predict true Q = Ok (repeat 1%Z (List.length Q)) /\ te_predict false Q = Raise NotFittedError /\ tc_predict None Q = Raise NotFittedError /\ tt_transform None Q = Raise NotFittedError /\
    (d' <> d -> tc_predict (Some c) Q = Raise ValueError /\ tt_transform (Some n) Q = Raise ValueError).
Proof.
  intros d d' X y c n Q H T M M'. unfold tc_fit, te_fit, tt_fit, check_X_y in *. rewrite (checked d X M) in *. cbn [bind fst snd] in *. destruct (List.length X =? List.length y)%nat; [|discriminate]. cbn [bind fst snd] in *.
  injection H as <-. injection T as <-. unfold te_predict, tc_predict, tt_transform. rewrite (checked d' Q M'). cbn [bind fst snd columns]. split; [reflexivity|].
  split; [f_equal; clear; induction Q as [|q Q IH]; [reflexivity|cbn; rewrite IH; reflexivity]|]. split; [reflexivity|]. split; [reflexivity|]. split; [reflexivity|]. intros N. apply Nat.eqb_neq in N. rewrite N. split; reflexivity.
Qed.
Print Assumptions C130_refusals.
(* targets that do not come one per row *)
Theorem C130_targets : forall d X (y : list Z), matrix d X -> List.length y <> List.length X -> te_fit X y = Raise ValueError /\ tc_fit X y = Raise ValueError.
Proof. intros d X y M N. unfold te_fit, tc_fit, check_X_y. rewrite (checked d X M). cbn [bind]. replace (List.length X =? List.length y)%nat with false by (symmetry; apply Nat.eqb_neq; lia). split; reflexivity. Qed.
Print Assumptions C130_targets.

(* The transformer takes square roots: squaring gives non-negative data back, and a negative entry becomes NaN. *)
Theorem C130_square_roots :
  forall d X, matrix d X -> exists T, tt_fit_transform X = Ok T /\ List.length T = List.length X /\
    forall i r j a, nth_error X i = Some r -> nth_error r j = Some a -> exists t b, nth_error T i = Some t /\ List.length t = d /\ nth_error t j = Some b /\
      (a < 0 -> b = NaN) /\ (0 <= a -> exists s, b = Fin s /\ 0 <= s /\ s * s = a).
Proof.
  intros d X M. unfold tt_fit_transform, tt_fit, tt_transform. rewrite (checked d X M). cbn [bind fst snd]. rewrite Nat.eqb_refl. cbn [negb]. eexists. split; [reflexivity|]. split; [apply map_length|].
  intros i r j a Hr Ha. exists (map np_sqrt r), (np_sqrt a). split; [apply map_nth_error; exact Hr|]. split; [rewrite map_length; destruct M as (_ & _ & F); rewrite Forall_forall in F; apply F; eapply nth_error_In; exact Hr|].
  split; [apply map_nth_error; exact Ha|]. unfold np_sqrt. destruct (Rltb a 0) eqn:E; [apply Rltb_true in E|apply Rltb_false in E]; (split; [intros; try reflexivity; lra|]); intros P; [lra|].
  exists (sqrt a). split; [reflexivity|]. split; [apply sqrt_pos|apply sqrt_sqrt; exact P].
Qed.
Print Assumptions C130_square_roots.

Example C130_nearest_neighbour_case : exists c, tc_fit [[0; 0]; [4; 0]; [0; 4]] [7; 8; 9]%Z = Ok c /\ tc_predict (Some c) [[3; 1]; [0; 0]] = Ok [8; 7]%Z.
Proof.
  eexists. split; [reflexivity|]. destruct (C130_nearest_neighbour 2 [[0; 0]; [4; 0]; [0; 4]] [7; 8; 9]%Z _ [[3; 1]; [0; 0]] eq_refl) as (out & E & L & N); [repeat constructor; discriminate|repeat constructor; discriminate|].
  refine (eq_trans E _). f_equal. destruct out as [|a [|b [|]]]; try discriminate. unfold dist2 in N.
  destruct (N 0%nat [3; 1] eq_refl) as (i & x & v & Ex & Ev & Eo & B). destruct (N 1%nat [0; 0] eq_refl) as (i' & x' & v' & Ex' & Ev' & Eo' & B'). cbn in Eo, Eo'. injection Eo as ->. injection Eo' as ->.
  destruct (B 1%nat [4; 0] eq_refl) as [B1 _]. destruct (B' 0%nat [0; 0] eq_refl) as [B2 _]. clear B B'. f_equal; [|f_equal].
  - destruct i as [|[|[|i]]]; cbn in Ex, Ev; try (destruct i; discriminate); injection Ex as <-; injection Ev as <-; cbn in B1; try reflexivity; exfalso; lra.
  - destruct i' as [|[|[|i']]]; cbn in Ex', Ev'; try (destruct i'; discriminate); injection Ex' as <-; injection Ev' as <-; cbn in B2; try reflexivity; exfalso; lra.
Qed.
Example C130_training_labels_case : exists c, tc_fit [[1]; [1]; [2]] [5; 5; 6]%Z = Ok c /\ tc_predict (Some c) [[1]; [1]; [2]] = Ok [5; 5; 6]%Z.
Proof.
  eexists. split; [reflexivity|]. apply (C130_training_labels 1); [reflexivity|repeat constructor; discriminate|].
  intros i j x v w A B C D. destruct i as [|[|[|i]]], j as [|[|[|j]]]; cbn in *; try (destruct i; discriminate); try (destruct j; discriminate); try congruence; exfalso; injection A as <-; injection B as E; lra.
Qed.
Example C130_refusals_case : tc_predict None [[1]] = Raise NotFittedError /\ tt_transform (Some 2%nat) [[1]] = Raise ValueError.
Proof.
  destruct (C130_refusals 2 1 [[1; 2]] [3]%Z {| X_ := [[1; 2]]; y_ := [3]%Z; classes_ := [3]%Z; columns := 2 |} 2 [[1]]) as (_ & _ & _ & A & _ & B); [reflexivity|reflexivity|repeat constructor; discriminate|repeat constructor; discriminate|].
  split; [exact A|]. apply B. lia.
Qed.
Example C130_only_matrices_case : tc_fit [[1]; [2; 3]] [1; 2]%Z = Raise ValueError /\ tc_fit [] [] = Raise ValueError.
Proof.
  split; apply C130_only_matrices; intros d (N & D & F); [|congruence]. inversion F as [|? ? A F']. inversion F' as [|? ? B _]. cbn in A, B. lia.
Qed.
Example C130_targets_case : tc_fit [[1]; [2]] [1]%Z = Raise ValueError.
Proof. apply (C130_targets 1); [repeat constructor; discriminate|cbn; lia]. Qed.
Example C130_square_roots_case : exists T t s, tt_fit_transform [[4; -1]; [0; 2]] = Ok T /\ nth_error T 0 = Some t /\ nth_error t 0 = Some (Fin s) /\ s * s = 4.
Proof.
  destruct (C130_square_roots 2 [[4; -1]; [0; 2]]) as (T & E & _ & H); [repeat constructor; discriminate|]. destruct (H 0%nat [4; -1] 0%nat 4 eq_refl eq_refl) as (t & b & A & _ & B & _ & C).
  destruct (C ltac:(lra)) as (s & -> & _ & S). exists T, t, s. auto.
Qed.
