(* C110, C111 and complements to C50, C90, C91: what fit hands to the robust loss, and what predict does with the result. *)
From Coq Require Import Reals List Bool ZArith String Arith Lra Lia.
From Verif Require Import PyBase RList XReal CostDecoder_Model OptCond_Model Samplers_Model Samplers_Spec Samplers_Proofs Wrap_Model Wrap_Proofs Estim_Model Estim_Proofs Handover_Proofs
  Predict_Model DedProg_Model DedProg_Spec DedLin_Proofs Tuner_Model.
Import ListNotations.
Local Open Scope R_scope.

(* ---------- C110 ---------- *)
(* NewsVendor: no labels, no penalty, and the averages of the features as data *)
Theorem C110_newsvendor : forall pf a X d t, nv_dispatch pf a X = Ok (FTorch d t) ->
  t = None /\ a_reduce_spatial d = true /\
  exists xi, received d (nv_rho a) (nv_n_zeta a) (nv_lr a) (Some (nv_solver_reg a)) None None (nv_seed a) (nv_n_iter a) xi None /\
    List.length xi = List.length X /\
    forall i, (i < List.length X)%nat -> (0 < List.length (nth i X []))%nat ->
      exists m, nth i xi [] = [m] /\ m * INR (List.length (nth i X [])) = rsum (nth i X []).
Proof.
  intros pf a X d t H. destruct (nv_received _ _ _ _ _ H) as (T & R & Q). split; [exact T|]. split; [exact R|].
  eexists. split; [exact Q|]. split; [apply map_length|]. intros i Hi Hr. exists (rmean (nth i X [])). split.
  - rewrite (nth_indep _ [] ((fun r => [rmean r]) [])) by (rewrite map_length; exact Hi). apply (map_nth (fun r => [rmean r])).
  - unfold rmean. unfold vec in *. field. apply not_0_INR. lia.
Qed.
Print Assumptions C110_newsvendor.

(* Portfolio: no labels, the matrix itself as data *)
Theorem C110_portfolio : forall pf a X d t, pf_dispatch pf a X = Ok (FTorch d t) ->
  t = None /\ a_reduce_spatial d = true /\
  received d (pf_rho a) (pf_n_zeta a) (pf_lr a) (Some (pf_solver_reg a)) None (Some 0) (pf_seed a) (pf_n_iter a) X None.
Proof. exact pf_received. Qed.
Print Assumptions C110_portfolio.

(* a column of labels *)
Definition column (t : batch) (y : vec) : Prop := List.length t = List.length y /\ forall i, (i < List.length y)%nat -> nth i t [] = [nth i y 0].
Lemma column_of y : column (map (fun v => [v]) y) y.
Proof.
  split; [apply map_length|]. intros i Hi. rewrite (nth_indep _ [] ((fun v => [v]) 0)) by (rewrite map_length; exact Hi). apply (map_nth (fun v => [v])).
Qed.

Theorem C110_weber : forall pf a X y d t, wb_dispatch pf a X y = Ok (FTorch d t) ->
  t = None /\ a_reduce_spatial d = true /\ (wb_n_iter a = None -> a_n_iter d = SInt 300) /\
  exists ly, column ly y /\
  received d (wb_rho a) (wb_n_zeta a) (wb_lr a) (Some (wb_solver_reg a)) (Some (wb_sampler_reg a)) (Some (wb_l2_reg a)) (wb_seed a) (wb_n_iter a) X (Some ly).
Proof.
  intros pf a X y d t H. destruct (wb_received _ _ _ _ _ _ H) as (T & R & Q & N). split; [exact T|]. split; [exact R|]. split; [exact N|].
  eexists. split; [apply column_of|exact Q].
Qed.
Print Assumptions C110_weber.

Theorem C110_linear : forall pf a X y d t, lr_dispatch pf a X y = Ok (FTorch d t) ->
  t = Some (width X, 1%nat, true) /\ a_reduce_spatial d = true /\
  exists ly, column ly y /\
  received d (lr_rho a) (lr_n_zeta a) (lr_lr a) (lr_solver_reg a) (lr_sampler_reg a) (Some (lr_l2_reg a)) (lr_seed a) (lr_n_iter a) X (Some ly).
Proof.
  intros pf a X y d t H. destruct (lr_received _ _ _ _ _ _ H) as (R & Q). split; [apply (lr_scheme _ _ _ _ _ _ H)|]. split; [exact R|].
  eexists. split; [apply column_of|exact Q].
Qed.
Print Assumptions C110_linear.

(* LogisticRegression: the targets are signs for two classes and indicator rows for more (also C54); the loss of two classes has one
   value per label and is averaged over them, the one of more classes is already one value per point *)
Theorem C110_logistic : forall pf a X y d t, lg_dispatch pf a X y = Ok (FTorch d t) ->
  exists classes ly, (forall v, In v classes <-> In v y) /\ NoDup classes /\ (2 <= List.length classes)%nat /\
    (a_reduce_spatial d = true <-> List.length classes = 2%nat) /\
    t = Some (width X, if (List.length classes =? 2)%nat then 1%nat else List.length classes, lg_fit_intercept a) /\
    List.length ly = List.length y /\
    (forall i, (i < List.length y)%nat -> (2 < List.length classes)%nat ->
       List.length (nth i ly []) = List.length classes /\
       forall c, (c < List.length classes)%nat -> nth c (nth i ly []) 0 = if Z.eq_dec (nth i y 0%Z) (nth c classes 0%Z) then 1 else 0) /\
    (forall i, (i < List.length y)%nat -> List.length classes = 2%nat ->
       nth i ly [] = [if Z.eq_dec (nth i y 0%Z) (Z.min (nth 0 classes 0%Z) (nth 1 classes 0%Z)) then -1 else 1]) /\
    received d (lg_rho a) (lg_n_zeta a) (lg_lr a) (lg_solver_reg a) (lg_sampler_reg a) (Some (lg_l2_reg a)) (lg_seed a) (lg_n_iter a) X (Some ly).
Proof.
  intros pf a X y d t H. destruct (lg_received _ _ _ _ _ _ H) as (ly & T & R & Q). exists (unique_labels y), ly.
  assert (SS := unique_sorted y).
  assert (C2 : (2 <= List.length (unique_labels y))%nat).
  { destruct (le_lt_dec 2 (List.length (unique_labels y))) as [|L]; [assumption|]. rewrite (targets_few y L) in T. discriminate. }
  split; [apply unique_in|]. split.
  { clear -SS. induction SS as [|v l S IH F]; constructor; [|assumption]. intros I. rewrite Forall_forall in F. specialize (F v I). lia. }
  split; [exact C2|]. split; [exact R|]. split; [apply (lg_scheme _ _ _ _ _ _ H)|].
  destruct (le_lt_eq_dec _ _ C2) as [L|L].
  - rewrite (targets_many y L) in T. injection T as <-. split; [apply map_length|]. split; [|split; [intros; lia|exact Q]].
    intros i Hi _.
    set (F := fun v => map (fun c => if (v =? c)%Z then 1 else 0) (unique_labels y)).
    assert (E : nth i (map F y) [] = F (nth i y 0%Z)).
    { rewrite (nth_indep _ [] (F 0%Z)) by (rewrite map_length; exact Hi). apply map_nth. }
    unfold vec in *. rewrite E. unfold F. split; [apply map_length|]. intros c Hc.
    rewrite (nth_indep _ 0 ((fun c => if (nth i y 0%Z =? c)%Z then 1 else 0) 0%Z)) by (rewrite map_length; exact Hc).
    rewrite (map_nth (fun c => if (nth i y 0%Z =? c)%Z then 1 else 0)). destruct (Z.eqb_spec (nth i y 0%Z) (nth c (unique_labels y) 0%Z)); destruct (Z.eq_dec _ _); congruence.
  - destruct (unique_labels y) as [|c0 [|c1 [|]]] eqn:U; simpl in L; try lia. rewrite (targets_two y c0 c1 U) in T. injection T as <-.
    split; [apply map_length|]. split; [intros; simpl in *; lia|]. split; [|exact Q]. intros i Hi _. cbn [nth].
    set (F := fun v => [if (v =? c0)%Z then -1 else 1]).
    assert (E : nth i (map F y) [] = F (nth i y 0%Z)).
    { rewrite (nth_indep _ [] (F 0%Z)) by (rewrite map_length; exact Hi). apply map_nth. }
    unfold vec in *. rewrite E. unfold F. inversion SS as [|? ? ? FF]; subst. rewrite Forall_forall in FF. specialize (FF c1 (or_introl eq_refl)). rewrite Z.min_l by lia.
    destruct (Z.eqb_spec (nth i y 0%Z) c0); destruct (Z.eq_dec _ _); congruence.
Qed.
Print Assumptions C110_logistic.

(* Portfolio: a matrix C of another width than the data is refused, whatever the solver, exactly when d is given too *)
Theorem C110_polyhedron : forall pf a X C, pf_C a = Some C -> width C <> width X -> is_ok (decode_cost pf (pf_cost a)) = true ->
  (forall dd, pf_d a = Some dd -> pf_dispatch pf a X = Raise ValueError) /\
  (pf_d a = None -> pf_dispatch pf a X = pf_dispatch pf (pf_without a) X).
Proof. intros pf a X C HC W K. split; [intros dd HD; eapply pf_columns_check; eauto|intros HD; apply pf_columns_unchecked; auto]. Qed.
Print Assumptions C110_polyhedron.

(* three classes *)
Definition read (s : string) : option xr := match s with "1"%string => Some (Fin 1) | "2"%string => Some (Fin 2) | _ => None end.
Example C110_case : exists d t, lg_dispatch read lg_defaults [[1; 2]; [3; 4]; [5; 6]] [4; 7; 9]%Z = Ok (FTorch d t) /\ a_reduce_spatial d = false.
Proof.
  assert (E : exists d t, lg_dispatch read lg_defaults [[1; 2]; [3; 4]; [5; 6]] [4; 7; 9]%Z = Ok (FTorch d t)).
  { unfold lg_dispatch. rewrite (targets_many [4; 7; 9]%Z) by (vm_compute; lia). cbn [bind lg_cost lg_defaults]. destruct (decode_22 read eq_refl) as [c Hc]. rewrite Hc. cbn [bind lg_solver_name lg_defaults].
    change (String.eqb "entropic_torch" "entropic") with false. change (String.eqb "entropic_torch" "dedicated") with false. change (contains "torch" "entropic_torch") with true. cbv iota.
    match goal with |- context [dualize read ?u] => destruct (dualize_22 read u (map (fun v => map (fun c => if (v =? c)%Z then 1 else 0) (unique_labels [4; 7; 9]%Z)) [4; 7; 9]%Z) eq_refl eq_refl eq_refl) as [d Hd]; [apply auto_sigma|]; rewrite Hd end.
    cbn [bind]. eauto. }
  destruct E as (d & t & E). exists d, t. split; [exact E|]. destruct (C110_logistic _ _ _ _ _ _ E) as (cl & ly & I & N & L2 & R & _).
  destruct (a_reduce_spatial d); [|reflexivity]. exfalso. assert (L : List.length cl = 2%nat) by (apply R; reflexivity).
  destruct cl as [|a [|b [|]]]; simpl in L; try lia. assert (H4 : In 4%Z [a; b]) by (apply I; simpl; auto). assert (H7 : In 7%Z [a; b]) by (apply I; simpl; auto). assert (H9 : In 9%Z [a; b]) by (apply I; simpl; auto).
  simpl in *. lia.
Qed.
Example C110_polyhedron_case : exists a, pf_C a = Some [[1; 2; 3]] /\ width [[1; 2; 3]] <> width [[1; 2]] /\ is_ok (decode_cost read (pf_cost a)) = true.
Proof.
  exists {| pf_rho := 1 / 100; pf_eta := 0; pf_alpha := 95 / 100; pf_C := Some [[1; 2; 3]]; pf_d := None; pf_fit_intercept := None;
     pf_cost := "t-NC-1-1"; pf_solver_name := "dedicated"; pf_solver_reg := 1 / 1000; pf_reparam := "softmax"; pf_lr := None;
     pf_n_zeta := 10; pf_seed := 0; pf_n_iter := None |}. split; [reflexivity|]. split; [discriminate|]. destruct (decode_11 read eq_refl) as [c Hc]. cbn [pf_cost]. rewrite Hc. reflexivity.
Qed.

(* ---------- C111 ---------- *)
(* one prediction per row: the affine function of the coefficients; another width is refused *)
Theorem C111_predictions : forall d coef b X, Forall (fun x : vec => List.length x = d) X ->
  (List.length coef <> d -> lr_predict d coef b X = Raise ValueError) /\
  (List.length coef = d -> exists p, lr_predict d coef b X = Ok p /\ List.length p = List.length X /\
     forall i, (i < List.length X)%nat -> nth i p 0 = rsum (map (fun j => nth j (nth i X []) 0 * nth j coef 0) (seq 0 d)) + b).
Proof.
  intros d coef b X W. unfold lr_predict. split; intros H.
  - apply Nat.eqb_neq in H. rewrite H. reflexivity.
  - apply Nat.eqb_eq in H as Hb. rewrite Hb. eexists. split; [reflexivity|]. split; [apply map_length|]. intros i Hi.
    rewrite (nth_indep _ 0 ((fun x => b + dot x coef) [])) by (rewrite map_length; exact Hi). rewrite (map_nth (fun x => b + dot x coef)).
    assert (Lx : List.length (nth i X []) = d) by (rewrite Forall_forall in W; apply W, nth_In; exact Hi).
    rewrite Rplus_comm. f_equal. clear -Lx H. unfold dot. generalize dependent d. generalize (nth i X []) as x. intros x d Lx Hc.
    revert x coef Lx Hc. induction d as [|d IH]; intros x coef Lx Hc; destruct x, coef; try discriminate; [reflexivity|].
    cbn [map2 rsum seq map nth]. rewrite <- seq_shift, map_map. cbn [nth]. rewrite (IH x coef); [reflexivity|simpl in *; lia|simpl in *; lia].
Qed.
Print Assumptions C111_predictions.

(* so the dedicated programme minimises the root-mean-square error of the predictions on the training data, plus the penalty *)
Theorem C111_training_error : forall d rho X y coef b p, lr_predict d coef b X = Ok p -> List.length X = List.length y -> X <> [] ->
  lin_objective rho (List.combine X y) coef b = sqrt (rmean (map2 (fun u v => (u - v) * (u - v)) p y)) + rho * norm2 coef.
Proof.
  intros d rho X y coef b p H L N. unfold lr_predict in H. destruct (List.length coef =? d)%nat; [|discriminate]. injection H as <-.
  unfold lin_objective. f_equal.
  assert (Q : forall X y, List.length X = List.length y -> sqnorm (map (lin_residual coef b) (List.combine X y)) = rsum (map2 (fun u v => (u - v) * (u - v)) (map (fun x => b + dot x coef) X) y)).
  { clear. induction X as [|x X IH]; intros [|v y] L; try discriminate; [reflexivity|]. unfold sqnorm, dot in *. cbn. rewrite IH by (simpl in L; lia). unfold lin_residual, dot. cbn [fst snd]. ring. }
  unfold norm2. rewrite Q by exact L. rewrite <- sqrt_div_alt.
  - f_equal. unfold rmean. rewrite combine_length, <- L, Nat.min_id. rewrite map2_length by (rewrite map_length; exact L). rewrite map_length. reflexivity.
  - apply lt_0_INR. rewrite combine_length, <- L, Nat.min_id. destruct X; [congruence|simpl; lia].
Qed.
Print Assumptions C111_training_error.
Example C111_case : exists p, lr_predict 2 [2; -1] 3 [[1; 1]; [0; 4]] = Ok p /\ p = [4; -1].
Proof. eexists. split; [reflexivity|]. unfold dot; cbn. f_equal; [ring|f_equal; ring]. Qed.

(* ---------- C50: which coefficients the programme ranges over ---------- *)
Theorem C50_with_intercept : forall d rho data coef b, 0 <= rho -> data <> [] -> Forall (fun xy : vec * R => List.length (fst xy) = d) data ->
  (lin_optimal d true rho data coef b <->
   List.length coef = d /\ forall coef' b' c, List.length coef' = d -> lin_worst_le d rho data coef' b' c -> lin_worst_le d rho data coef b c).
Proof.
  intros d rho data coef b Hr Hd Hx. split.
  - intros O. assert (F : lin_feasible d true coef b) by apply O. split; [apply F|]. intros coef' b' c L. apply (proj1 (lin_robust d true rho data coef b Hr Hd Hx F) O). split; [exact L|discriminate].
  - intros [L O]. assert (F : lin_feasible d true coef b) by (split; [exact L|discriminate]). apply (proj2 (lin_robust d true rho data coef b Hr Hd Hx F)).
    intros coef' b' c [L' _]. apply O. exact L'.
Qed.
Print Assumptions C50_with_intercept.
Theorem C50_without_intercept : forall d rho data coef b, 0 <= rho -> data <> [] -> Forall (fun xy : vec * R => List.length (fst xy) = d) data ->
  (lin_optimal d false rho data coef b <->
   List.length coef = d /\ b = 0 /\ forall coef' c, List.length coef' = d -> lin_worst_le d rho data coef' 0 c -> lin_worst_le d rho data coef 0 c).
Proof.
  intros d rho data coef b Hr Hd Hx. split.
  - intros O. assert (F : lin_feasible d false coef b) by apply O. destruct F as [L Z]. specialize (Z eq_refl). subst b. split; [exact L|]. split; [reflexivity|].
    intros coef' c L'. apply (proj1 (lin_robust d false rho data coef 0 Hr Hd Hx (conj L (fun _ => eq_refl))) O). split; [exact L'|reflexivity].
  - intros (L & -> & O). apply (proj2 (lin_robust d false rho data coef 0 Hr Hd Hx (conj L (fun _ => eq_refl)))).
    intros coef' b' c [L' Z]. rewrite (Z eq_refl). apply O. exact L'.
Qed.
Print Assumptions C50_without_intercept.

(* ---------- C90: the covariances ---------- *)
Lemma pair_sum (l m : list (R * R)) :
  rsum (map (fun p => rsum (map (fun q => (fst p - fst q) * (snd p - snd q)) m)) l) =
  INR (List.length m) * rsum (map (fun p => fst p * snd p) l) + INR (List.length l) * rsum (map (fun p => fst p * snd p) m)
  - rsum (map fst l) * rsum (map snd m) - rsum (map snd l) * rsum (map fst m).
Proof.
  assert (I : forall a b, rsum (map (fun q => (a - fst q) * (b - snd q)) m) =
    INR (List.length m) * (a * b) - a * rsum (map snd m) - b * rsum (map fst m) + rsum (map (fun p => fst p * snd p) m)).
  { intros a b. induction m as [|q m IH]; cbn [map rsum List.length]; [simpl; ring|]. rewrite IH, S_INR. ring. }
  induction l as [|p l IH]; cbn [map rsum List.length]; [simpl; ring|]. rewrite IH, I, S_INR. ring.
Qed.
Lemma rsum_fst (u v : vec) : List.length u = List.length v -> rsum (map fst (List.combine u v)) = rsum u /\ rsum (map snd (List.combine u v)) = rsum v.
Proof. revert v. induction u as [|a u IH]; intros [|b v] L; try discriminate; [split; reflexivity|]. cbn. destruct (IH v) as [-> ->]; [simpl in L; lia|split; reflexivity]. Qed.

(* the entries are the unbiased covariances: half the average product of differences over ordered pairs of distinct observations *)
Theorem C90_covariances : forall M i j n, (i < List.length M)%nat -> (j < List.length M)%nat -> (2 <= n)%nat ->
  List.length (nth i M []) = n -> List.length (nth j M []) = n ->
  nth j (nth i (np_cov M) []) 0 * (2 * INR (n * (n - 1))) =
  rsum (map (fun a => rsum (map (fun b => (nth a (nth i M []) 0 - nth b (nth i M []) 0) * (nth a (nth j M []) 0 - nth b (nth j M []) 0)) (seq 0 n))) (seq 0 n)).
Proof.
  intros M i j n Hi Hj Hn Li Lj. unfold np_cov.
  rewrite (nth_indep _ [] ((fun u => map (fun v => cov_entry u v) M) [])) by (rewrite map_length; exact Hi). rewrite (map_nth (fun u => map (fun v => cov_entry u v) M)).
  rewrite (nth_indep _ 0 ((fun v => cov_entry (nth i M []) v) [])) by (rewrite map_length; exact Hj). rewrite (map_nth (fun v => cov_entry (nth i M []) v)).
  unfold vec in *. generalize dependent (nth j M []). generalize dependent (nth i M []). intros u Lu v Lv.
  assert (C : forall (f : R -> R -> R), map (fun a => f (nth a u 0) (nth a v 0)) (seq 0 n) = map (fun p => f (fst p) (snd p)) (List.combine u v)).
  { intros f. clear -Lu Lv. revert u v Lu Lv. induction n as [|n IH]; intros u v Lu Lv; destruct u, v; try discriminate; [reflexivity|].
    cbn [seq map List.combine nth fst snd]. f_equal. rewrite <- seq_shift, map_map. cbn [nth]. apply IH; simpl in *; lia. }
  assert (E : map (fun a => rsum (map (fun b => (nth a u 0 - nth b u 0) * (nth a v 0 - nth b v 0)) (seq 0 n))) (seq 0 n) =
              map (fun p => rsum (map (fun q => (fst p - fst q) * (snd p - snd q)) (List.combine u v))) (List.combine u v)).
  { rewrite <- (C (fun x y => rsum (map (fun q => (x - fst q) * (y - snd q)) (List.combine u v)))). apply map_ext. intros a. f_equal. apply (C (fun x y => (nth a u 0 - x) * (nth a v 0 - y))). }
  rewrite E, pair_sum. destruct (rsum_fst u v) as [Fu Fv]; [congruence|]. rewrite Fu, Fv. rewrite combine_length, Lu, Lv, Nat.min_id.
  unfold cov_entry. rewrite Lu. rewrite map2_map_combine. cbv beta. unfold vec in *.
  assert (S : rsum (map (fun ab => (fst ab - rmean u) * (snd ab - rmean v)) (List.combine u v)) =
              rsum (map (fun p => fst p * snd p) (List.combine u v)) - rmean u * rsum v - rmean v * rsum u + INR n * (rmean u * rmean v)).
  { rewrite <- Fu, <- Fv. replace n with (List.length (List.combine u v)) by (rewrite combine_length; lia). clear -u.
    generalize (rmean u) (rmean v). intros a b. induction (List.combine u v) as [|p l IH]; cbn [map rsum List.length]; [simpl; ring|]. rewrite IH, S_INR. ring. }
  rewrite S. unfold rmean. rewrite Lu, Lv. rewrite mult_INR, minus_INR by lia. simpl (INR 1).
  assert (2 <= INR n) by (apply (le_INR 2); exact Hn). field. lra.
Qed.
Print Assumptions C90_covariances.
Example C90_covariances_case : nth 1 (nth 0 (np_cov [[1; 3]; [2; 8]]) []) 0 = 6.
Proof. unfold np_cov, cov_entry, rmean. cbn. field. Qed.

(* ---------- C91: the other estimators ---------- *)
Theorem C91_only_portfolio : forall e ded, e <> EPortfolio -> pf_blanchet_start e ded (Ok tt) = Raise NotImplementedError.
Proof. intros [] [] N; try congruence; reflexivity. Qed.
Print Assumptions C91_only_portfolio.
Example C91_only_case : EWeber <> EPortfolio.
Proof. discriminate. Qed.

(* ---------- concrete cases of the theorems above, one each ---------- *)
From Verif Require Props_Estim Props_DedProg.
Example C110_newsvendor_case : exists d t xi, nv_dispatch Props_Estim.read Props_Estim.nv_named_post [[1; 3]; [2; 8]] = Ok (FTorch d t) /\ t = None /\
  received d (1 / 100) 10 None (Some (1 / 100)) None None 0 None xi None /\ nth 1 xi [] = [5].
Proof.
  destruct (Props_Estim.nv_named_fits 0 "entropic_torch_post" [[1; 3]; [2; 8]] eq_refl) as (d & E & _).
  destruct (C110_newsvendor _ _ _ _ _ E) as (T & _ & xi & R & _ & M). exists d, None, xi. split; [exact E|]. split; [exact T|]. split; [exact R|].
  destruct (M 1%nat ltac:(simpl; lia) ltac:(simpl; lia)) as (m & -> & H). simpl in H. f_equal. lra.
Qed.
Example C110_portfolio_case : exists d t, pf_dispatch Props_Estim.read (Props_Estim.pf_with "entropic_torch_pre" "t-NC-1-2") [[1; 2]] = Ok (FTorch d t) /\
  a_reduce_spatial d = true /\ a_rho d = pf_rho (Props_Estim.pf_with "entropic_torch_pre" "t-NC-1-2").
Proof.
  destruct Props_Estim.pf_pre_fits as [d E]. exists d, None. split; [exact E|]. destruct (C110_portfolio _ _ _ _ _ E) as (_ & S & R). split; [exact S|]. apply R.
Qed.
Example C110_weber_case : exists d ly, wb_dispatch Props_Estim.read (Props_Estim.wb_named 10 "entropic_torch") [[1; 2]; [3; 4]] [7; 9] = Ok (FTorch d None) /\
  a_n_iter d = SInt 300 /\ nth 1 ly [] = [9] /\
  received d (1 / 10) 10 None (Some (1 / 100)) (Some (1 / 100)) (Some 0) 0 None [[1; 2]; [3; 4]] (Some ly).
Proof.
  destruct (Props_Estim.wb_named_fits 10 "entropic_torch" [[1; 2]; [3; 4]] [7; 9] eq_refl) as [d E].
  destruct (C110_weber _ _ _ _ _ _ E) as (_ & _ & N & ly & [_ C] & R). exists d, ly. split; [exact E|]. split; [exact (N eq_refl)|]. split; [exact (C 1%nat ltac:(simpl; lia))|exact R].
Qed.
Example C110_linear_case : exists d t ly, lr_dispatch read lr_defaults [[1; 2]; [3; 4]] [7; 9] = Ok (FTorch d t) /\ t = Some (2%nat, 1%nat, true) /\ nth 1 ly [] = [9] /\
  received d (1 / 100) 10 None None None (Some 0) 0 None [[1; 2]; [3; 4]] (Some ly).
Proof.
  assert (E : exists d t, lr_dispatch read lr_defaults [[1; 2]; [3; 4]] [7; 9] = Ok (FTorch d t)).
  { unfold lr_dispatch. cbn [lr_cost lr_defaults]. destruct (decode_22 read eq_refl) as [c Hc]. rewrite Hc. cbn [bind lr_solver_name lr_defaults].
    change (String.eqb "entropic_torch" "entropic") with false. change (contains "torch" "entropic_torch") with true. cbv iota.
    match goal with |- context [dualize read ?u] => destruct (dualize_22 read u (map (fun v => [v]) [7; 9]) eq_refl eq_refl eq_refl) as [d Hd]; [apply auto_sigma|]; rewrite Hd end.
    cbn [bind]. eauto. }
  destruct E as (d & t & E). destruct (C110_linear _ _ _ _ _ _ E) as (T & _ & ly & [_ C] & R). exists d, t, ly.
  split; [exact E|]. split; [exact T|]. split; [exact (C 1%nat ltac:(simpl; lia))|exact R].
Qed.
Example C110_logistic_case : exists d t, lg_dispatch read lg_defaults [[1; 2]; [3; 4]; [5; 6]] [4; 7; 9]%Z = Ok (FTorch d t) /\ exists k, t = Some (2%nat, k, true) /\ (2 < k)%nat.
Proof.
  destruct C110_case as (d & t & E & F). exists d, t. split; [exact E|]. destruct (C110_logistic _ _ _ _ _ _ E) as (cl & ly & _ & _ & L2 & R & T & _).
  destruct (List.length cl =? 2)%nat eqn:Q.
  - apply Nat.eqb_eq in Q. apply R in Q. congruence.
  - apply Nat.eqb_neq in Q. exists (List.length cl). split; [exact T|lia].
Qed.
Example C111_predictions_case : lr_predict 2 [2; -1; 5] 3 [[1; 1]; [0; 4]] = Raise ValueError /\ exists p, lr_predict 2 [2; -1] 3 [[1; 1]; [0; 4]] = Ok p /\ nth 1 p 0 = -1.
Proof.
  split; [apply (C111_predictions 2); [repeat constructor|discriminate]|].
  destruct (proj2 (C111_predictions 2 [2; -1] 3 [[1; 1]; [0; 4]] ltac:(repeat constructor)) eq_refl) as (p & E & _ & M). exists p. split; [exact E|].
  rewrite M by (simpl; lia). simpl. lra.
Qed.
Example C111_training_error_case : lin_objective (1 / 2) (List.combine [[1; 1]; [0; 4]] [4; 1]) [2; -1] 3 = sqrt (rmean [(4 - 4) * (4 - 4); (-1 - 1) * (-1 - 1)]) + 1 / 2 * norm2 [2; -1].
Proof. destruct C111_case as (p & E & ->). exact (C111_training_error 2 (1 / 2) [[1; 1]; [0; 4]] [4; 1] [2; -1] 3 _ E eq_refl ltac:(discriminate)). Qed.
(* one point (1, 1) and radius 1/2: the constant 1 is the best affine model, and the slope 1 the best linear one *)
Lemma lin_1 rho x y c b : lin_objective rho [([x], y)] [c] b = Rabs (x * c + b - y) + rho * Rabs c.
Proof. apply Props_DedProg.lin_objective_1. Qed.
Example C50_with_intercept_case : forall coef' b' c, List.length coef' = 1%nat -> lin_worst_le 1 (1 / 2) [([1], 1)] coef' b' c -> lin_worst_le 1 (1 / 2) [([1], 1)] [0] 1 c.
Proof.
  apply (C50_with_intercept 1 (1 / 2) [([1], 1)] [0] 1); [lra|discriminate|repeat constructor|].
  split; [split; [reflexivity|discriminate]|]. intros coef b [L _]. destruct coef as [|c [|]]; try discriminate. rewrite !lin_1.
  replace (1 * 0 + 1 - 1) with 0 by ring. rewrite Rabs_R0. pose proof (Rabs_pos (1 * c + b - 1)). pose proof (Rabs_pos c). lra.
Qed.
Example C50_without_intercept_case : forall coef' c, List.length coef' = 1%nat -> lin_worst_le 1 (1 / 2) [([1], 1)] coef' 0 c -> lin_worst_le 1 (1 / 2) [([1], 1)] [1] 0 c.
Proof.
  apply (C50_without_intercept 1 (1 / 2) [([1], 1)] [1] 0); [lra|discriminate|repeat constructor|].
  split; [split; [reflexivity|reflexivity]|]. intros coef b [L B]. specialize (B eq_refl). subst b. destruct coef as [|c [|]]; try discriminate. rewrite !lin_1.
  replace (1 * 1 + 0 - 1) with 0 by ring. rewrite Rabs_R0, Rabs_R1. unfold Rabs. destruct (Rcase_abs (1 * c + 0 - 1)), (Rcase_abs c); lra.
Qed.
Example C91_only_portfolio_case : pf_blanchet_start EWeber true (Ok tt) = Raise NotImplementedError.
Proof. apply C91_only_portfolio. discriminate. Qed.

(* ---------- C110: importance sampling ---------- *)
Lemma dualize_imp pf u d : dualize pf u = Ok d -> (a_imp_samp d = true <-> u_imp_samp u = true /\ c_power (a_cost d) = Fin 2 /\ c_p (a_cost d) = Fin 2).
Proof.
  intros E. unfold dualize in E. destruct (parse_code_torch _ _ _ _ _ _) as [pc|]; [|discriminate]. cbn [bind expert_hyperparams] in E.
  destruct (cost_from_parse_torch _ _ _) as [c|] eqn:Hc; [|discriminate]. cbn [bind] in E.
  destruct (match u_labels u with Some _ => _ | None => _ end) as [s|] eqn:S; [|discriminate]. cbn [bind] in E. injection E as <-. cbn [a_imp_samp a_cost].
  destruct (cost_from_parse_power pc c Hc) as (W1 & W2 & _).
  unfold decide_on_impsamp, can_imp_samp, x_is_two. rewrite !Bool.andb_true_iff, !xeq_fin, W1, W2. tauto.
Qed.
(* Importance sampling is used exactly with the squared Euclidean cost; LinearRegression and LogisticRegression use it only when they draw at each step. *)
Theorem C110_importance_sampling : forall pf d t,
  let euclidean := c_power (a_cost d) = Fin 2 /\ c_p (a_cost d) = Fin 2 in
  (forall a X, nv_dispatch pf a X = Ok (FTorch d t) -> (a_imp_samp d = true <-> euclidean)) /\
  (forall a X, pf_dispatch pf a X = Ok (FTorch d t) -> (a_imp_samp d = true <-> euclidean)) /\
  (forall a X y, wb_dispatch pf a X y = Ok (FTorch d t) -> (a_imp_samp d = true <-> euclidean)) /\
  (forall a X y, lr_dispatch pf a X y = Ok (FTorch d t) -> (a_imp_samp d = true <-> euclidean /\ (lr_solver_name a = "entropic_torch" \/ lr_solver_name a = "entropic_torch_post")%string)) /\
  (forall a X y, lg_dispatch pf a X y = Ok (FTorch d t) -> (a_imp_samp d = true <-> euclidean /\ (lg_solver_name a = "entropic_torch" \/ lg_solver_name a = "entropic_torch_post")%string)).
Proof.
  assert (Post : forall s, post_name s = true <-> (s = "entropic_torch" \/ s = "entropic_torch_post")%string).
  { intros s. unfold post_name. rewrite Bool.orb_true_iff, !String.eqb_eq. tauto. }
  intros pf d t euclidean. unfold euclidean. split; [|split; [|split; [|split]]].
  - intros a X. unfold nv_dispatch. destruct (decode_cost pf (nv_cost a)); simpl; [|discriminate]. destruct (String.eqb (nv_solver_name a) "entropic"); [discriminate|].
    destruct (contains "torch" (nv_solver_name a)); [|destruct (String.eqb (nv_solver_name a) "dedicated"); discriminate].
    destruct (dualize pf _) eqn:E; simpl; [|discriminate]. intros H. injection H as <- _. apply dualize_imp in E. cbn [u_imp_samp] in E. tauto.
  - intros a X. unfold pf_dispatch. destruct (decode_cost pf (pf_cost a)); simpl; [|discriminate]. destruct (negb (Nat.eqb _ _)); [discriminate|].
    destruct (String.eqb (pf_solver_name a) "entropic"); [discriminate|]. destruct (String.eqb (pf_solver_name a) "dedicated"); [discriminate|].
    destruct (contains "torch" (pf_solver_name a)); [|discriminate].
    destruct (dualize pf _) eqn:E; simpl; [|discriminate]. intros H. injection H as <- _. apply dualize_imp in E. cbn [u_imp_samp] in E. tauto.
  - intros a X y. unfold wb_dispatch. destruct (String.eqb (wb_solver_name a) "entropic"); [discriminate|]. destruct (contains "torch" (wb_solver_name a)); [|discriminate].
    destruct (dualize pf _) as [d0|] eqn:E; simpl; [|discriminate]. intros H. injection H as <- _. apply dualize_imp in E. cbn [u_imp_samp] in E.
    destruct (wb_n_iter a); cbn [set_n_iter a_imp_samp a_cost]; tauto.
  - intros a X y. unfold lr_dispatch. destruct (decode_cost pf (lr_cost a)); simpl; [|discriminate]. destruct (String.eqb (lr_solver_name a) "entropic"); [discriminate|].
    destruct (contains "torch" (lr_solver_name a)); [|destruct (String.eqb (lr_solver_name a) "dedicated"); discriminate].
    destruct (dualize pf _) eqn:E; simpl; [|discriminate]. intros H. injection H as <- _. apply dualize_imp in E. cbn [u_imp_samp] in E. rewrite <- Post. tauto.
  - intros a X y. unfold lg_dispatch. destruct (lg_targets y) as [ts|]; simpl; [|discriminate]. destruct (decode_cost pf (lg_cost a)); simpl; [|discriminate].
    destruct (String.eqb (lg_solver_name a) "entropic"); [discriminate|].
    destruct (String.eqb (lg_solver_name a) "dedicated"); [match goal with |- context [if ?c then Raise _ else Ok _] => destruct c end; discriminate|].
    destruct (contains "torch" (lg_solver_name a)); [|discriminate].
    destruct (dualize pf _) eqn:E; simpl; [|discriminate]. intros H. injection H as <- _. apply dualize_imp in E. cbn [u_imp_samp] in E. rewrite <- Post. tauto.
Qed.
Print Assumptions C110_importance_sampling.
(* Portfolio with the squared Euclidean cost uses it *)
Example C110_importance_sampling_case : exists d, pf_dispatch Props_Estim.read (Props_Estim.pf_with "entropic_torch_pre" "t-NC-2-2") [[1; 2]] = Ok (FTorch d None) /\ a_imp_samp d = true.
Proof.
  assert (Dc : exists c, decode_cost Props_Estim.read "t-NC-2-2" = Ok c) by (unfold decode_cost, cost_from_str; cbn -[dk x_ge0]; unfold NormCost; eauto). destruct Dc as [c Dc].
  assert (E : exists d, pf_dispatch Props_Estim.read (Props_Estim.pf_with "entropic_torch_pre" "t-NC-2-2") [[1; 2]] = Ok (FTorch d None) /\ c_power (a_cost d) = Fin 2 /\ c_p (a_cost d) = Fin 2).
  { unfold pf_dispatch. cbn [pf_cost Props_Estim.pf_with]. rewrite Dc. cbn [bind]. cbn -[dualize Props_Estim.read].
    match goal with |- context [dualize Props_Estim.read ?u] => destruct (dualize_outcome Props_Estim.read u (mkParsed "t" "NC" (Fin 2) (Fin 2) dk) (mkCost NC (Fin 2) (Fin 2) None "Norm") eq_refl eq_refl (Props_Estim.sigma_none_pos _)) as [H _];
      destruct H as (d & Hd & Ec & _); [right; split; reflexivity|]; rewrite Hd end.
    exists d. split; [reflexivity|]. rewrite Ec. split; reflexivity. }
  destruct E as (d & E & P). exists d. split; [exact E|]. apply (proj1 (proj2 (C110_importance_sampling _ d None)) _ _ E). exact P.
Qed.
