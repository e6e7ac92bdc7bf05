(* Properties C54-C57 and C79-C83: labels, predictions, probabilities, dispatch of the estimators, evaluation. *)
From Coq Require Import Reals List Bool ZArith String Ascii Arith Lra Lia Sorted QArith Qreals.
From Verif Require Import PyBase RList XReal PyFloat_Model CostDecoder_Model OptCond_Model Samplers_Model Samplers_Spec Wrap_Model Wrap_Proofs
  Estim_Model Estim_Proofs Tensor Loss_Model Loss_Spec Loss_Proofs Predict_Model Predict_Proofs DedProg_Model.
Import ListNotations.
Open Scope R_scope.

(* float() on the strings of the examples *)
Definition read (s : string) : option xr := match s with "1"%string => Some (Fin 1) | "2"%string => Some (Fin 2) | _ => None end.

Lemma Forall2_hd {A B} (P : A -> B -> Prop) a b l m : Forall2 P (a :: l) (b :: m) -> P a b.
Proof. intros H. inversion H. assumption. Qed.
Lemma Forall2_tl {A B} (P : A -> B -> Prop) a b l m : Forall2 P (a :: l) (b :: m) -> Forall2 P l m.
Proof. intros H. inversion H. assumption. Qed.

(* ---------- C54 ---------- *)
(* Two classes become -1 (smaller) and +1 (larger), one column. *)
Theorem C54_two_classes :
  forall y c0 c1, (c0 < c1)%Z -> (forall v, In v y <-> v = c0 \/ v = c1) ->
    lg_targets y = Ok (map (fun v => [if (v =? c0)%Z then -1 else 1]) y).
Proof.
  intros y c0 c1 L H. apply (targets_two y c0 c1). apply unique_of.
  - constructor; [repeat constructor|]. repeat constructor. exact L.
  - intros v. rewrite H. simpl. intuition.
Qed.
Print Assumptions C54_two_classes.

Theorem C54_one_class : forall y c, (forall v, In v y -> v = c) -> lg_targets y = Raise ValueError.
Proof.
  intros y c H. apply targets_few. destruct y as [|v y]; [simpl; lia|]. rewrite (unique_of (v :: y) [c]); [simpl; lia|repeat constructor|].
  intros w. split; [intros Hw; left; symmetry; auto|]. intros [<- |[]]. left. apply H. left. reflexivity.
Qed.
Print Assumptions C54_one_class.

(* More classes become one-hot rows: zeros and one 1, at the position of the label among the sorted classes. *)
Theorem C54_more_classes :
  forall y classes, StronglySorted Z.lt classes -> (forall v, In v y <-> In v classes) -> (2 < List.length classes)%nat ->
    exists rows, lg_targets y = Ok rows /\
      Forall2 (fun v r => List.length r = List.length classes /\ rsum r = 1 /\
                          forall i, (i < List.length classes)%nat -> nth i r 0 = if (nth i classes 0 =? v)%Z then 1 else 0) y rows.
Proof.
  intros y classes S H L. assert (E : unique_labels y = classes) by (apply unique_of; assumption).
  exists (map (fun v => map (fun c => if (v =? c)%Z then 1 else 0) classes) y). split; [rewrite targets_many, E by (rewrite E; exact L); reflexivity|].
  assert (G : forall v, In v y -> In v classes) by (intros v; apply H). clear H E. induction y as [|v y IH]; [constructor|]. constructor.
  - split; [apply map_length|]. split; [apply one_hot; [exact S|apply G; left; reflexivity]|]. intros i Hi.
    rewrite (nth_indep _ 0 (if (v =? 0)%Z then 1 else 0)) by (rewrite map_length; exact Hi). rewrite (map_nth (fun c => if (v =? c)%Z then 1 else 0)). rewrite Z.eqb_sym. reflexivity.
  - apply IH. intros w Hw. apply G. right. exact Hw.
Qed.
Print Assumptions C54_more_classes.

(* predict with two classes: one label per row, the larger class exactly when the score w'x + b is at least 0; coefficients of
   either solver, with or without intercept, any number of features (also the single feature whose coefficient is squeezed). *)
Theorem C54_predict :
  forall torch w i c0 c1 (X : list (list R)), widths (List.length w) X ->
    predict_binary (List.length w) (coef_of torch w) i [c0; c1] X
    = Ok ([List.length X], map (fun x => if Rle_dec 0 (dot w x + match i with Some b => b | None => 0 end) then c1 else c0) X).
Proof. exact predict_two. Qed.
Print Assumptions C54_predict.

(* Round trip: weights that separate the encoded targets give back the labels. *)
Theorem C54_round_trip :
  forall torch w i c0 c1 (X : list (list R)) y targets, (c0 < c1)%Z -> (forall v, In v y <-> v = c0 \/ v = c1) -> widths (List.length w) X ->
    lg_targets y = Ok targets ->
    Forall2 (fun x t => 0 < hd 0 t * (dot w x + match i with Some b => b | None => 0 end)) X targets ->
    predict_binary (List.length w) (coef_of torch w) i (unique_labels y) X = Ok ([List.length y], y).
Proof.
  intros torch w i c0 c1 X y targets L H W E F.
  rewrite (C54_two_classes y c0 c1 L H) in E. injection E as <-.
  assert (U : unique_labels y = [c0; c1]).
  { apply unique_of; [constructor; [repeat constructor|]; repeat constructor; exact L|]. intros v. rewrite H. simpl. intuition. }
  rewrite U, C54_predict by exact W. assert (G : forall v, In v y -> v = c0 \/ v = c1) by (intros v; apply H). clear H U W.
  revert y G F. induction X as [|x X IH]; intros [|v y] G F; simpl in *; try (inversion F; fail); [reflexivity|].
  assert (F1 := F). apply Forall2_hd in F1. apply Forall2_tl in F. assert (IHy := IH y (fun u Hu => G u (or_intror Hu)) F). injection IHy as E1 E2. rewrite E1, E2. do 3 f_equal.
  simpl in F1. destruct (G v (or_introl eq_refl)) as [-> | ->].
  - rewrite Z.eqb_refl in F1. destruct (Rle_dec 0 _) as [Hs|]; [lra|reflexivity].
  - assert (E0 : (c1 =? c0)%Z = false) by (apply Z.eqb_neq; lia). rewrite E0 in F1. destruct (Rle_dec 0 _) as [|N]; [reflexivity|lra].
Qed.
Print Assumptions C54_round_trip.

(* predict with more classes: for each row the first class whose score w_c'x + b_c is maximal. *)
Theorem C54_predict_multi :
  forall weights bias d classes (X : list (list R)), weights <> [] -> List.length weights = List.length bias -> List.length classes = List.length weights -> widths d X ->
    exists labels, predict_multi weights bias d d classes X = Ok ([List.length X; 1%nat], labels) /\
      Forall2 (fun x c => exists i, (i < List.length classes)%nat /\ c = nth i classes 0%Z /\
        (forall j, (j < List.length classes)%nat -> dot (nth j weights []) x + nth j bias 0 <= dot (nth i weights []) x + nth i bias 0) /\
        (forall j, (j < i)%nat -> dot (nth j weights []) x + nth j bias 0 < dot (nth i weights []) x + nth i bias 0)) X labels.
Proof.
  intros weights bias d classes X N L Lc W. destruct (predict_many weights bias d classes X N L W) as (picks & E & F).
  exists (map (fun i => nth i classes 0%Z) picks). split; [exact E|]. clear E W. induction F as [|x i X picks B F IH]; [constructor|]. simpl. constructor; [|exact IH].
  assert (M : forall j, (j < List.length weights)%nat -> nth j (mscores weights bias x) 0 = dot (nth j weights []) x + nth j bias 0).
  { clear -L. unfold mscores. revert bias L. induction weights as [|w weights IH]; intros [|b bias] L j Hj; simpl in *; try lia. destruct j; [reflexivity|]. apply IH; lia. }
  destruct B as (B1 & B2 & B3). rewrite (mscores_length weights bias x L) in *. exists i. rewrite Lc. split; [exact B1|]. split; [reflexivity|]. split.
  - intros j Hj. rewrite <- !M by assumption. apply B2. exact Hj.
  - intros j Hj. rewrite <- !M by lia. apply B3. exact Hj.
Qed.
Print Assumptions C54_predict_multi.

Example C54_case :
  lg_targets [7; 3; 7]%Z = Ok [[1]; [-1]; [1]] /\
  lg_targets [5; 2; 9; 2]%Z = Ok [[0; 1; 0]; [1; 0; 0]; [0; 0; 1]; [1; 0; 0]] /\
  predict_binary 1 (coef_of true [2]) None (unique_labels [7; 3; 7]%Z) [[1]; [-4]; [5]] = Ok ([3%nat], [7; 3; 7]%Z).
Proof.
  split; [|split].
  - rewrite (C54_two_classes [7; 3; 7]%Z 3 7) by (try lia; intros v; simpl; lia). reflexivity.
  - rewrite targets_many by (vm_compute; lia). reflexivity.
  - apply (C54_round_trip true [2] None 3 7 [[1]; [-4]; [5]] [7; 3; 7]%Z [[1]; [-1]; [1]]); try lia.
    + intros v; simpl; lia.
    + repeat constructor.
    + rewrite (C54_two_classes [7; 3; 7]%Z 3 7) by (try lia; intros v; simpl; lia). reflexivity.
    + repeat (apply Forall2_cons; [unfold dot; simpl; lra|]). apply Forall2_nil.
Qed.

(* ---------- C55 ---------- *)
(* Two classes, an intercept and at least two features (or the dedicated solver): rows (1-p, p) with p = 1/(1+exp(-score)). *)
Theorem C55_binary_with_intercept_partial :
  forall torch w b (X : list (list R)), widths (List.length w) X -> (torch = false \/ List.length w <> 1%nat) ->
    exists rows, predict_proba_binary (List.length w) (coef_of torch w) (Some b) X = Ok (batch [List.length X] 2 rows) /\
      Forall2 (fun x r => exists p, r = [1 - p; p] /\ p = 1 / (1 + exp (- (dot w x + b))) /\ 0 < p < 1 /\ rsum r = 1) X rows.
Proof.
  intros torch w b X W H. exists (map (fun x => [1 - expit (dot w x + b); expit (dot w x + b)]) X). split; [apply proba_binary_vec; assumption|].
  clear. induction X as [|x X IH]; constructor; [|exact IH]. exists (expit (dot w x + b)). split; [reflexivity|]. split; [reflexivity|]. split; [apply expit_range|]. simpl. ring.
Qed.
Print Assumptions C55_binary_with_intercept_partial.

(* the label predicted is the class of probability at least one half *)
Theorem C55_agrees_with_predict :
  forall s, 1 / 2 <= 1 / (1 + exp (- s)) <-> 0 <= s.
Proof. exact expit_half. Qed.
Print Assumptions C55_agrees_with_predict.

(* Without an intercept predict_proba always raises (although predict works, C54_predict) ... *)
Theorem C55_without_intercept :
  forall w bias (X : list (list R)), widths (List.length w) X ->
    predict_proba_binary (List.length w) (lg_coef_torch w) (lg_intercept_torch false bias) X = Raise TypeError.
Proof. intros w bias X W. apply (proba_binary_none w X true W). Qed.
Print Assumptions C55_without_intercept.

(* ... so that the property is false: *)
Theorem C55_no_intercept_refuted :
  exists w bias (X : list (list R)) labels, widths (List.length w) X /\
    predict_binary (List.length w) (lg_coef_torch w) (lg_intercept_torch false bias) [0; 1]%Z X = Ok labels /\
    predict_proba_binary (List.length w) (lg_coef_torch w) (lg_intercept_torch false bias) X = Raise TypeError.
Proof.
  exists [1; 2], 0, [[1; 1]]. eexists. split; [repeat constructor|]. split; [apply (C54_predict true [1; 2] None 0 1 [[1; 1]]); repeat constructor|].
  apply C55_without_intercept. repeat constructor.
Qed.
Print Assumptions C55_no_intercept_refuted.

(* With one feature the answer has shape (1, 2n) instead of (n, 2), *)
Theorem C55_one_feature_refuted :
  exists w b (X : list (list R)) p, widths (List.length w) X /\ predict_proba_binary (List.length w) (lg_coef_torch w) (Some b) X = Ok p /\ shp p <> [List.length X; 2%nat].
Proof.
  exists [1], 0, [[1]; [2]; [3]]. eexists. split; [repeat constructor|]. split; [apply (proba_binary_d1 [1] 0 [[1]; [2]; [3]]); [reflexivity|repeat constructor]|]. simpl. discriminate.
Qed.
Print Assumptions C55_one_feature_refuted.

(* and with more than two classes the raw scores are returned: *)
Theorem C55_multiclass_scores :
  forall weights bias d (X : list (list R)), List.length weights = List.length bias -> widths d X ->
    predict_proba_multi weights bias d d X = Ok (batch [List.length X] (List.length weights) (map (fun x => map2 (fun w b => dot w x + b) weights bias) X)).
Proof. intros. apply proba_multi; assumption. Qed.
Print Assumptions C55_multiclass_scores.

Theorem C55_multiclass_refuted :
  exists weights bias x p, List.length weights = 3%nat /\ predict_proba_multi weights bias 1 1 [x] = Ok p /\ shp p = [1%nat; 3%nat] /\
    rsum (dat p) <> 1 /\ exists a, In a (dat p) /\ a < 0.
Proof.
  exists [[1]; [2]; [-3]], [0; 0; 0], [1]. eexists. split; [reflexivity|]. split; [apply C55_multiclass_scores; [reflexivity|repeat constructor]|]. split; [reflexivity|].
  unfold batch, dot. simpl. split; [lra|]. exists (-3 * 1 + 0 + 0). split; [auto|lra].
Qed.
Print Assumptions C55_multiclass_refuted.

Example C55_case : exists rows, predict_proba_binary 2 (coef_of true [1; -1]) (Some 0) [[2; 2]] = Ok (batch [1%nat] 2 rows) /\ rows = [[1 / 2; 1 / 2]].
Proof.
  destruct (C55_binary_with_intercept_partial true [1; -1] 0 [[2; 2]]) as (rows & E & F); [repeat constructor|right; discriminate|]. exists rows. split; [exact E|].
  inversion F as [|x r X rows' (p & Hr & Hp & _) F']; subst. inversion F'; subst. unfold dot. simpl.
  replace (- (1 * 2 + (-1 * 2 + 0) + 0)) with 0 by ring. rewrite exp_0. replace (1 / (1 + 1)) with (1 / 2) by lra. replace (1 - 1 / 2) with (1 / 2) by lra. reflexivity.
Qed.

(* ---------- C56 ---------- *)
(* the estimators with labels, for every argument, dataset and parse of numbers *)
Theorem C56_labelled_estimators :
  forall pf X d t,
    (forall a y, wb_dispatch pf a X y = Ok (FTorch d t) ->
       (wb_solver_name a = "entropic_torch_post"%string -> a_post d = true) /\ (wb_solver_name a = "entropic_torch_pre"%string -> a_post d = false)) /\
    (forall a y, lr_dispatch pf a X y = Ok (FTorch d t) ->
       (lr_solver_name a = "entropic_torch_post"%string -> a_post d = true) /\ (lr_solver_name a = "entropic_torch_pre"%string -> a_post d = false)) /\
    (forall a y, lg_dispatch pf a X y = Ok (FTorch d t) ->
       (lg_solver_name a = "entropic_torch_post"%string -> a_post d = true) /\ (lg_solver_name a = "entropic_torch_pre"%string -> a_post d = false)).
Proof.
  intros pf X d t. repeat apply conj; intros a y H.
  - apply wb_scheme in H. rewrite H. split; intros ->; reflexivity.
  - apply lr_scheme in H as [H _]. rewrite H. split; intros ->; reflexivity.
  - apply lg_scheme in H as [H _]. rewrite H. split; intros ->; reflexivity.
Qed.
Print Assumptions C56_labelled_estimators.

Theorem C56_newsvendor :
  forall pf a X d t, nv_dispatch pf a X = Ok (FTorch d t) ->
    (nv_solver_name a = "entropic_torch_post"%string -> a_post d = true) /\ (nv_solver_name a = "entropic_torch_pre"%string -> a_post d = false).
Proof. intros pf a X d t H. apply nv_scheme in H. rewrite H. split; intros ->; reflexivity. Qed.
Print Assumptions C56_newsvendor.

(* In Portfolio the choice is inverted, for every argument and dataset. *)
Theorem C56_portfolio_inverted :
  forall pf a X d t, pf_dispatch pf a X = Ok (FTorch d t) ->
    (pf_solver_name a = "entropic_torch_post"%string -> a_post d = false) /\ (pf_solver_name a = "entropic_torch_pre"%string -> a_post d = true).
Proof. intros pf a X d t H. apply pf_scheme in H. rewrite H. split; intros ->; reflexivity. Qed.
Print Assumptions C56_portfolio_inverted.

Definition pf_with (name cost : string) : pf_args :=
  {| pf_rho := 1 / 100; pf_eta := 0; pf_alpha := 95 / 100; pf_C := None; pf_d := None; pf_fit_intercept := None;
     pf_cost := cost; pf_solver_name := name; pf_solver_reg := 1 / 1000; pf_reparam := "softmax"; pf_lr := None;
     pf_n_zeta := 10; pf_seed := 0; pf_n_iter := None |}.

Lemma sigma_none_pos rho : 0 < expert_sigma rho None SIGMA_FACTOR.
Proof. apply auto_sigma. Qed.

Theorem C56_portfolio_refuted :
  exists a X d, pf_solver_name a = "entropic_torch_post"%string /\ pf_dispatch read a X = Ok (FTorch d None) /\ a_post d = false.
Proof.
  exists (pf_with "entropic_torch_post" "t-NC-1-2"), [[1; 2]].
  assert (E : exists d, pf_dispatch read (pf_with "entropic_torch_post" "t-NC-1-2") [[1; 2]] = Ok (FTorch d None)).
  { unfold pf_dispatch. destruct (decode_12 read eq_refl eq_refl) as [c Hc]. cbn [pf_cost pf_with]. rewrite Hc. cbn [bind]. cbn [pf_columns pf_C pf_with pf_d width].
    rewrite Nat.eqb_refl. cbn [negb pf_solver_name pf_with]. change (String.eqb "entropic_torch_post" "entropic") with false. change (String.eqb "entropic_torch_post" "dedicated") with false.
    change (contains "torch" "entropic_torch_post") with true. cbv iota.
    match goal with |- context [dualize read ?u] => destruct (dualize_12 read u eq_refl eq_refl eq_refl eq_refl (sigma_none_pos _)) as [d Hd]; exists d; rewrite Hd; reflexivity end. }
  destruct E as [d E]. exists d. split; [reflexivity|]. split; [exact E|]. apply (C56_portfolio_inverted _ _ _ _ _ E). reflexivity.
Qed.
Print Assumptions C56_portfolio_refuted.

(* ---------- C57 ---------- *)
(* Whatever the data, the defaults of Weber, LinearRegression and LogisticRegression (with at least two classes) build a robust loss
   with post-sampling, and those of Portfolio call the dedicated solver. *)
Theorem C57_weber_linear_logistic_portfolio :
  forall pf X, pf "1"%string = Some (Fin 1) -> pf "2"%string = Some (Fin 2) ->
    (forall y, exists d, wb_dispatch pf wb_defaults X y = Ok (FTorch d None) /\ a_post d = true /\ a_n_iter d = SInt 300) /\
    (forall y, exists d, lr_dispatch pf lr_defaults X y = Ok (FTorch d (Some (width X, 1%nat, true))) /\ a_post d = true) /\
    (forall y, (exists v w, In v y /\ In w y /\ v <> w) ->
       exists d k, lg_dispatch pf lg_defaults X y = Ok (FTorch d (Some (width X, k, true))) /\ a_post d = true /\ (k = 1 \/ 3 <= k)%nat) /\
    pf_dispatch pf pf_defaults X = Ok FDedicated.
Proof.
  intros pf X E1 E2. destruct (decode_22 pf E2) as [c Hc]. repeat apply conj.
  - intros y. unfold wb_dispatch. cbn [wb_solver_name wb_defaults]. change (String.eqb "entropic_torch" "entropic") with false. change (contains "torch" "entropic_torch") with true. cbv iota.
    match goal with |- context [dualize pf ?u] => destruct (dualize_22 pf u (map (fun v => [v]) y) E2 eq_refl eq_refl) as [d Hd]; [simpl; lra|]; rewrite Hd; apply dualize_fields in Hd end.
    cbn [bind wb_n_iter wb_defaults]. eexists. split; [reflexivity|]. split; [|reflexivity]. cbn [set_n_iter a_post]. destruct Hd as (-> & _). reflexivity.
  - intros y. unfold lr_dispatch. cbn [lr_cost lr_defaults]. rewrite Hc. cbn [bind lr_solver_name lr_defaults]. change (String.eqb "entropic_torch" "entropic") with false. change (contains "torch" "entropic_torch") with true. cbv iota.
    match goal with |- context [dualize pf ?u] => destruct (dualize_22 pf u (map (fun v => [v]) y) E2 eq_refl eq_refl) as [d Hd]; [apply sigma_none_pos|]; rewrite Hd; apply dualize_fields in Hd end.
    cbn [bind]. eexists. split; [reflexivity|]. destruct Hd as (-> & _). reflexivity.
  - intros y (v & w & Hv & Hw & N). unfold lg_dispatch.
    assert (K : (2 <= List.length (unique_labels y))%nat).
    { apply unique_in in Hv. apply unique_in in Hw. destruct (unique_labels y) as [|a [|b l]]; simpl in *; lia. }
    assert (T : exists t, lg_targets y = Ok t) by (unfold lg_targets; destruct (List.length (unique_labels y)) as [|[|[|]]]; try lia; eauto). destruct T as [t ->].
    cbn [bind lg_cost lg_defaults]. rewrite Hc. cbn [bind lg_solver_name lg_defaults]. change (String.eqb "entropic_torch" "entropic") with false. change (String.eqb "entropic_torch" "dedicated") with false.
    change (contains "torch" "entropic_torch") with true. cbv iota.
    match goal with |- context [dualize pf ?u] => destruct (dualize_22 pf u t E2 eq_refl eq_refl) as [d Hd]; [apply sigma_none_pos|]; rewrite Hd; apply dualize_fields in Hd end.
    cbn [bind]. eexists _, _. split; [reflexivity|]. split; [destruct Hd as (-> & _); reflexivity|]. destruct (Nat.eqb _ 2) eqn:Q; [left; reflexivity|]. apply Nat.eqb_neq in Q. right. lia.
  - unfold pf_dispatch. destruct (decode_11 pf E1) as [c' Hc']. cbn [pf_cost pf_defaults]. rewrite Hc'. cbn [bind]. cbn [pf_columns pf_C pf_d pf_defaults]. rewrite Nat.eqb_refl. reflexivity.
Qed.
Print Assumptions C57_weber_linear_logistic_portfolio.

(* the defaults of NewsVendor fail on every dataset *)
Theorem C57_newsvendor_default :
  forall pf X, pf "1"%string = Some (Fin 1) -> pf "2"%string = Some (Fin 2) -> nv_dispatch pf nv_defaults X = Raise DeprecationWarning.
Proof. intros pf X E1 E2. unfold nv_dispatch. destruct (decode_12 pf E1 E2) as [c Hc]. cbn [nv_cost nv_defaults]. rewrite Hc. reflexivity. Qed.
Print Assumptions C57_newsvendor_default.

Theorem C57_newsvendor_refuted : exists X, X <> [] /\ nv_dispatch read nv_defaults X = Raise DeprecationWarning.
Proof. exists [[1]; [2]]. split; [discriminate|]. apply C57_newsvendor_default; reflexivity. Qed.
Print Assumptions C57_newsvendor_refuted.

(* fit_intercept decides on the bias of the linear map in LogisticRegression ... *)
Theorem C57_logistic_intercept :
  forall pf a X y d t, lg_dispatch pf a X y = Ok (FTorch d t) -> exists m k, t = Some (m, k, lg_fit_intercept a).
Proof. intros pf a X y d t H. apply lg_scheme in H as [_ ->]. eauto. Qed.
Print Assumptions C57_logistic_intercept.

(* ... and is ignored by the robust LinearRegression *)
Definition lr_no_intercept : lr_args :=
  {| lr_rho := 1 / 100; lr_l2_reg := 0; lr_fit_intercept := false; lr_cost := "t-NLC-2-2"; lr_solver_name := "entropic_torch";
     lr_solver_reg := None; lr_sampler_reg := None; lr_lr := None; lr_n_zeta := 10; lr_seed := 0; lr_n_iter := None |}.
Theorem C57_linear_intercept_refuted :
  exists a X y d m k, lr_fit_intercept a = false /\ lr_dispatch read a X y = Ok (FTorch d (Some (m, k, true))).
Proof.
  exists lr_no_intercept, [[1; 2]], [3].
  assert (E : lr_dispatch read lr_no_intercept [[1; 2]] [3] = lr_dispatch read lr_defaults [[1; 2]] [3]) by reflexivity.
  destruct (C57_weber_linear_logistic_portfolio read [[1; 2]] eq_refl eq_refl) as (_ & H & _). destruct (H [3]) as (d & Hd & _).
  exists d, 2%nat, 1%nat. split; [reflexivity|]. rewrite E. exact Hd.
Qed.
Print Assumptions C57_linear_intercept_refuted.

(* The default problems are sensible ones: ordering exactly the demand is the unique best order of the default NewsVendor, the
   default Portfolio passes its own checks, and the dedicated LinearRegression may use any intercept. *)
Theorem C57_default_problems :
  (forall theta x, theta <> x -> nv_k nv_defaults * x - nv_u nv_defaults * Rmin x x < nv_k nv_defaults * theta - nv_u nv_defaults * Rmin theta x) /\
  pf_init (pf_rho pf_defaults) (pf_eta pf_defaults) (pf_alpha pf_defaults) (pf_solver_reg pf_defaults) (IZR (pf_n_zeta pf_defaults)) = Ok tt /\
  (forall coeff b, lin_feasible (List.length coeff) (lr_fit_intercept lr_defaults) coeff b).
Proof.
  split; [|split].
  - intros theta x N. cbn [nv_k nv_u nv_defaults]. unfold Rmin. repeat destruct Rle_dec; lra.
  - cbn [pf_rho pf_eta pf_alpha pf_solver_reg pf_n_zeta pf_defaults]. unfold pf_init.
    replace (Rltb (1 / 100) 0) with false by (symmetry; apply Rltb_false; lra). replace (Rltb 0 0) with false by (symmetry; apply Rltb_false; lra).
    replace (Rleb (95 / 100) 0) with false by (symmetry; apply Rleb_false; lra). replace (Rltb 1 (95 / 100)) with false by (symmetry; apply Rltb_false; lra).
    replace (Rltb (1 / 1000) 0) with false by (symmetry; apply Rltb_false; lra). replace (Rltb 10 0) with false by (symmetry; apply Rltb_false; lra). reflexivity.
  - intros coeff b. split; [reflexivity|discriminate].
Qed.
Print Assumptions C57_default_problems.

Example C57_case : exists d k, lg_dispatch read lg_defaults [[1; 2]; [3; 4]] [5; 8]%Z = Ok (FTorch d (Some (2%nat, k, true))).
Proof.
  destruct (C57_weber_linear_logistic_portfolio read [[1; 2]; [3; 4]] eq_refl eq_refl) as (_ & _ & H & _).
  destruct (H [5; 8]%Z) as (d & k & E & _); [exists 5%Z, 8%Z; simpl; repeat split; auto; lia|]. exists d, k. exact E.
Qed.

(* ---------- C79: names of solvers ---------- *)
(* A name without "torch" is refused unless it is "dedicated" (or the deprecated "entropic"), by each estimator, whatever the data. *)
Theorem C79_names_without_torch_partial :
  forall pf name X, contains "torch" name = false -> name <> "dedicated"%string ->
    (forall a r, nv_solver_name a = name -> nv_dispatch pf a X = r -> is_err r) /\
    (forall a r, pf_solver_name a = name -> pf_dispatch pf a X = r -> is_err r) /\
    (forall a y r, wb_solver_name a = name -> wb_dispatch pf a X y = r -> is_err r) /\
    (forall a y r, lr_solver_name a = name -> lr_dispatch pf a X y = r -> is_err r) /\
    (forall a y r, lg_solver_name a = name -> lg_dispatch pf a X y = r -> is_err r).
Proof.
  intros pf name X T D. apply String.eqb_neq in D. repeat apply conj; [intros a r <- <-|intros a r <- <-|intros a y r <- <-|intros a y r <- <-|intros a y r <- <-].
  - unfold nv_dispatch. destruct (decode_cost _ _); [|eexists; reflexivity]. cbn [bind]. rewrite T, D. match goal with |- context [if ?c then _ else _] => destruct c end; eexists; reflexivity.
  - unfold pf_dispatch. destruct (decode_cost _ _); [|eexists; reflexivity]. cbn [bind]. destruct (negb _); [eexists; reflexivity|]. rewrite T, D. match goal with |- context [if ?c then _ else _] => destruct c end; eexists; reflexivity.
  - unfold wb_dispatch. rewrite T. match goal with |- context [if ?c then _ else _] => destruct c end; eexists; reflexivity.
  - unfold lr_dispatch. destruct (decode_cost _ _); [|eexists; reflexivity]. cbn [bind]. rewrite T, D. match goal with |- context [if ?c then _ else _] => destruct c end; eexists; reflexivity.
  - unfold lg_dispatch. destruct (lg_targets y); [|eexists; reflexivity]. cbn [bind]. destruct (decode_cost _ _); [|eexists; reflexivity]. cbn [bind]. rewrite T, D. match goal with |- context [if ?c then _ else _] => destruct c end; eexists; reflexivity.
Qed.
Print Assumptions C79_names_without_torch_partial.

(* The error is a DeprecationWarning for the old name and a NotImplementedError for the others. *)
Theorem C79_which_error :
  forall pf name X, contains "torch" name = false ->
    let e := if String.eqb name "entropic" then DeprecationWarning else NotImplementedError in
    (forall a y, wb_solver_name a = name -> wb_dispatch pf a X y = Raise e) /\
    (name <> "dedicated"%string ->
      (forall a c, nv_solver_name a = name -> decode_cost pf (nv_cost a) = Ok c -> nv_dispatch pf a X = Raise e) /\
      (forall a c, pf_solver_name a = name -> decode_cost pf (pf_cost a) = Ok c -> pf_columns a (width X) = width X -> pf_dispatch pf a X = Raise e) /\
      (forall a y c, lr_solver_name a = name -> decode_cost pf (lr_cost a) = Ok c -> lr_dispatch pf a X y = Raise e) /\
      (forall a y c t, lg_solver_name a = name -> lg_targets y = Ok t -> decode_cost pf (lg_cost a) = Ok c -> lg_dispatch pf a X y = Raise e)).
Proof.
  intros pf name X T e. subst e. split; [intros a y <-|intros D; apply String.eqb_neq in D; repeat apply conj; [intros a c <- C|intros a c <- C W|intros a y c <- C|intros a y c t <- L C]].
  - unfold wb_dispatch. rewrite T. destruct (String.eqb _ "entropic"); reflexivity.
  - unfold nv_dispatch. rewrite C. cbn [bind]. rewrite T, D. destruct (String.eqb _ "entropic"); reflexivity.
  - unfold pf_dispatch. rewrite C, W, Nat.eqb_refl. cbn [bind negb]. rewrite T, D. destruct (String.eqb _ "entropic"); reflexivity.
  - unfold lr_dispatch. rewrite C. cbn [bind]. rewrite T, D. destruct (String.eqb _ "entropic"); reflexivity.
  - unfold lg_dispatch. rewrite L, C. cbn [bind]. rewrite T, D. destruct (String.eqb _ "entropic"); reflexivity.
Qed.
Print Assumptions C79_which_error.

Lemma unique_nodup_length y : List.length (unique_labels y) = List.length (nodup Z.eq_dec y).
Proof.
  assert (N : NoDup (unique_labels y)).
  { generalize (unique_sorted y). generalize (unique_labels y). intros l S. induction S as [|a l S IH F]; constructor; [|exact IH].
    intros H. rewrite Forall_forall in F. specialize (F a H). lia. }
  apply Nat.le_antisymm; apply NoDup_incl_length; [exact N| |apply NoDup_nodup|]; intros x Hx.
  - apply nodup_In, unique_in, Hx.
  - apply unique_in. apply nodup_In in Hx. exact Hx.
Qed.
(* "dedicated" is accepted by NewsVendor, Portfolio and LinearRegression on all data, by LogisticRegression for exactly two classes. *)
Theorem C79_dedicated :
  forall pf X,
    (forall a c, nv_solver_name a = "dedicated"%string -> decode_cost pf (nv_cost a) = Ok c -> nv_dispatch pf a X = Ok FDedicated) /\
    (forall a c, pf_solver_name a = "dedicated"%string -> decode_cost pf (pf_cost a) = Ok c -> pf_columns a (width X) = width X -> pf_dispatch pf a X = Ok FDedicated) /\
    (forall a y c, lr_solver_name a = "dedicated"%string -> decode_cost pf (lr_cost a) = Ok c -> lr_dispatch pf a X y = Ok FDedicated) /\
    (forall a y c, lg_solver_name a = "dedicated"%string -> decode_cost pf (lg_cost a) = Ok c ->
       lg_dispatch pf a X y = match List.length (nodup Z.eq_dec y) with 2%nat => Ok FDedicated | 0%nat | 1%nat => Raise ValueError | _ => Raise NotImplementedError end).
Proof.
  intros pf X. repeat apply conj; [intros a c E C|intros a c E C W|intros a y c E C|intros a y c E C].
  - unfold nv_dispatch. rewrite C. cbn [bind]. rewrite E. reflexivity.
  - unfold pf_dispatch. rewrite C, W, Nat.eqb_refl. cbn [bind negb]. rewrite E. reflexivity.
  - unfold lr_dispatch. rewrite C. cbn [bind]. rewrite E. reflexivity.
  - unfold lg_dispatch, lg_targets. rewrite <- (unique_nodup_length y). destruct (List.length (unique_labels y)) as [|[|[|k]]]; cbn [bind]; try reflexivity; rewrite C; cbn [bind]; rewrite E; reflexivity.
Qed.
Print Assumptions C79_dedicated.
Example C79_dedicated_case : exists c, decode_cost read "t-NLC-2-2" = Ok c /\
  lg_dispatch read {| lg_rho := 1; lg_l2_reg := 0; lg_fit_intercept := true; lg_cost := "t-NLC-2-2"; lg_solver_name := "dedicated"; lg_solver_reg := None; lg_sampler_reg := None;
                      lg_lr := None; lg_n_zeta := 10; lg_seed := 0; lg_n_iter := None |} [[1]; [2]; [3]] [7; 4; 7]%Z = Ok FDedicated.
Proof.
  destruct (decode_22 read eq_refl) as [c Hc]. exists c. split; [exact Hc|]. destruct (C79_dedicated read [[1]; [2]; [3]]) as (_ & _ & _ & H). match goal with |- lg_dispatch _ ?a _ ?y = _ => rewrite (H a y c eq_refl Hc) end. reflexivity.
Qed.
(* Any other name containing "torch" is accepted and means pre-sampling (Weber, LinearRegression, LogisticRegression, NewsVendor). *)
Theorem C79_misspelt_means_pre :
  forall pf name X d t, post_name name = false ->
    (forall a, nv_solver_name a = name -> nv_dispatch pf a X = Ok (FTorch d t) -> a_post d = false) /\
    (forall a y, wb_solver_name a = name -> wb_dispatch pf a X y = Ok (FTorch d t) -> a_post d = false) /\
    (forall a y, lr_solver_name a = name -> lr_dispatch pf a X y = Ok (FTorch d t) -> a_post d = false) /\
    (forall a y, lg_solver_name a = name -> lg_dispatch pf a X y = Ok (FTorch d t) -> a_post d = false).
Proof.
  intros pf name X d t P. repeat apply conj; [intros a <- H|intros a y <- H|intros a y <- H|intros a y <- H].
  - apply nv_scheme in H. rewrite H. unfold post_name in P. apply orb_false_elim in P as [_ P]. exact P.
  - apply wb_scheme in H. rewrite H. exact P.
  - apply lr_scheme in H as [H _]. rewrite H. exact P.
  - apply lg_scheme in H as [H _]. rewrite H. exact P.
Qed.
Print Assumptions C79_misspelt_means_pre.

Definition wb_named (kappa : R) (name : string) : wb_args :=
  {| wb_rho := 1 / 10; wb_kappa := kappa; wb_solver_reg := 1 / 100; wb_sampler_reg := 1 / 100; wb_lr := None; wb_l2_reg := 0;
     wb_n_zeta := 10; wb_cost := "t-NLC-2-2"; wb_solver_name := name; wb_seed := 0; wb_n_iter := None |}.
Lemma wb_named_fits kappa name X y : contains "torch" name = true -> exists d, wb_dispatch read (wb_named kappa name) X y = Ok (FTorch d None).
Proof.
  intros T. unfold wb_dispatch. cbn [wb_solver_name wb_named].
  assert (E : String.eqb name "entropic" = false) by (apply String.eqb_neq; intros ->; discriminate). rewrite E, T.
  match goal with |- context [dualize read ?u] => destruct (dualize_22 read u (map (fun v => [v]) y) eq_refl eq_refl eq_refl) as [d Hd]; [simpl; lra|]; rewrite Hd end.
  cbn [bind wb_n_iter wb_named]. eauto.
Qed.

Theorem C79_misspelt_accepted_refuted :
  exists a X y d, wb_solver_name a = "entropic_torch_psot"%string /\ wb_dispatch read a X y = Ok (FTorch d None) /\ a_post d = false.
Proof.
  exists (wb_named 10 "entropic_torch_psot"), [[1; 2]], [1]. destruct (wb_named_fits 10 "entropic_torch_psot" [[1; 2]] [1] eq_refl) as [d Hd]. exists d.
  split; [reflexivity|]. split; [exact Hd|].
  destruct (C79_misspelt_means_pre read "entropic_torch_psot" [[1; 2]] d None eq_refl) as (_ & H & _). apply (H (wb_named 10 "entropic_torch_psot") [1] eq_refl Hd).
Qed.
Print Assumptions C79_misspelt_accepted_refuted.

Example C79_which_error_case : wb_dispatch read (wb_named 10 "dedicated") [[1; 2]] [1] = Raise NotImplementedError /\ wb_dispatch read (wb_named 10 "entropic") [[1; 2]] [1] = Raise DeprecationWarning.
Proof. split; [exact (proj1 (C79_which_error read "dedicated" [[1; 2]] eq_refl) (wb_named 10 "dedicated") _ eq_refl)|exact (proj1 (C79_which_error read "entropic" [[1; 2]] eq_refl) (wb_named 10 "entropic") _ eq_refl)]. Qed.
Example C79_case : is_err (wb_dispatch read (wb_named 10 "dual") [[1; 2]] [1]).
Proof. destruct (C79_names_without_torch_partial read "dual" [[1; 2]] eq_refl ltac:(discriminate)) as (_ & _ & H & _). apply (H (wb_named 10 "dual") [1] _ eq_refl eq_refl). Qed.

(* ---------- C80: hyperparameters without effect ---------- *)
Theorem C80_weber_kappa_refuted :
  exists k k', k <> k' /\ (forall name X y, wb_dispatch read (wb_named k name) X y = wb_dispatch read (wb_named k' name) X y) /\
    exists d, wb_dispatch read (wb_named k "entropic_torch") [[1; 2]] [1] = Ok (FTorch d None).
Proof. exists 10, 1. split; [lra|]. split; [reflexivity|]. apply wb_named_fits. reflexivity. Qed.
Print Assumptions C80_weber_kappa_refuted.

Definition nv_named (l2 : R) (name : string) : nv_args :=
  {| nv_rho := 1 / 100; nv_k := 5; nv_u := 7; nv_cost := "t-NC-1-2"; nv_l2_reg := l2; nv_solver_reg := 1 / 100; nv_lr := None;
     nv_n_zeta := 10; nv_solver_name := name; nv_seed := 0; nv_n_iter := None |}.
Lemma nv_named_fits l2 name X : contains "torch" name = true -> exists d, nv_dispatch read (nv_named l2 name) X = Ok (FTorch d None) /\ a_l2reg d = None.
Proof.
  intros T. unfold nv_dispatch. destruct (decode_12 read eq_refl eq_refl) as [c Hc]. cbn [nv_cost nv_named]. rewrite Hc. cbn [bind nv_solver_name nv_named].
  assert (E : String.eqb name "entropic" = false) by (apply String.eqb_neq; intros ->; discriminate). rewrite E, T.
  match goal with |- context [dualize read ?u] => destruct (dualize_12 read u eq_refl eq_refl eq_refl eq_refl (sigma_none_pos _)) as [d Hd]; rewrite Hd; apply dualize_fields in Hd end.
  cbn [bind]. exists d. split; [reflexivity|]. destruct Hd as (_ & _ & _ & Hd & _). exact Hd.
Qed.

Theorem C80_newsvendor_l2_refuted :
  exists l2, 0 < l2 /\ exists d, nv_dispatch read (nv_named l2 "entropic_torch_post") [[1]; [2]] = Ok (FTorch d None) /\ a_l2reg d = None.
Proof. exists 1. split; [lra|]. apply nv_named_fits. reflexivity. Qed.
Print Assumptions C80_newsvendor_l2_refuted.

(* reparam and fit_intercept of Portfolio are stored and never read, for every other argument and dataset *)
Definition pf_set (r : string) (f : option bool) (a : pf_args) : pf_args :=
  {| pf_rho := pf_rho a; pf_eta := pf_eta a; pf_alpha := pf_alpha a; pf_C := pf_C a; pf_d := pf_d a; pf_fit_intercept := f;
     pf_cost := pf_cost a; pf_solver_name := pf_solver_name a; pf_solver_reg := pf_solver_reg a; pf_reparam := r; pf_lr := pf_lr a;
     pf_n_zeta := pf_n_zeta a; pf_seed := pf_seed a; pf_n_iter := pf_n_iter a |}.
Theorem C80_portfolio_reparam_refuted :
  exists r r' f f', r <> r' /\ f <> f' /\ forall pf a X, pf_dispatch pf (pf_set r f a) X = pf_dispatch pf (pf_set r' f' a) X.
Proof. exists "softmax"%string, "none"%string, (Some true), (Some false). split; [discriminate|]. split; [discriminate|]. reflexivity. Qed.
Print Assumptions C80_portfolio_reparam_refuted.

(* the hyperparameters that do reach the robust loss *)
Theorem C80_passed_on_partial :
  forall pf X d t,
    (forall a, nv_dispatch pf a X = Ok (FTorch d t) -> a_rho d = nv_rho a /\ a_n_samples d = nv_n_zeta a /\ a_lr d = nv_lr a /\ a_adapt d = adapt_of (nv_lr a)) /\
    (forall a, pf_dispatch pf a X = Ok (FTorch d t) -> a_rho d = pf_rho a /\ a_n_samples d = pf_n_zeta a /\ a_lr d = pf_lr a /\ a_adapt d = adapt_of (pf_lr a)) /\
    (forall a y, wb_dispatch pf a X y = Ok (FTorch d t) -> a_rho d = wb_rho a /\ a_n_samples d = wb_n_zeta a /\ a_lr d = wb_lr a /\ a_adapt d = adapt_of (wb_lr a) /\ a_l2reg d = Some (wb_l2_reg a)) /\
    (forall a y, lr_dispatch pf a X y = Ok (FTorch d t) -> a_rho d = lr_rho a /\ a_n_samples d = lr_n_zeta a /\ a_lr d = lr_lr a /\ a_adapt d = adapt_of (lr_lr a) /\ a_l2reg d = Some (lr_l2_reg a)) /\
    (forall a y, lg_dispatch pf a X y = Ok (FTorch d t) -> a_rho d = lg_rho a /\ a_n_samples d = lg_n_zeta a /\ a_lr d = lg_lr a /\ a_adapt d = adapt_of (lg_lr a) /\ a_l2reg d = Some (lg_l2_reg a)).
Proof. exact passed_on. Qed.
Print Assumptions C80_passed_on_partial.

Example C80_case : exists d, wb_dispatch read (wb_named 10 "entropic_torch") [[1; 2]] [1] = Ok (FTorch d None) /\ a_rho d = 1 / 10.
Proof.
  destruct (wb_named_fits 10 "entropic_torch" [[1; 2]] [1] eq_refl) as [d Hd]. exists d. split; [exact Hd|].
  destruct (C80_passed_on_partial read [[1; 2]] d None) as (_ & _ & H & _). apply (H _ _ Hd).
Qed.

(* ---------- C81: eval ---------- *)
(* the loss fit minimises (at radius 0) on rows xs: demands are averaged over the features first, _newsvendor.py:141 *)
Definition nv_training (k u theta : R) (xs : list (list R)) : R := rmean (map (fun x => k * theta - u * Rmin theta (rmean x)) xs).

(* with one feature eval is the training loss, for both families of solvers; with more it is at least the training loss *)
Theorem C81_newsvendor :
  forall solver k u theta d (xs : list (list R)), (contains "entropic" solver = true \/ solver = "dedicated"%string) -> (0 < d)%nat -> 0 <= u -> xs <> [] -> widths d xs ->
    exists v, nv_eval solver k u theta (batch [List.length xs] d xs) = Ok v /\ nv_training k u theta xs <= v /\ (d = 1%nat -> v = nv_training k u theta xs).
Proof.
  intros solver k u theta d xs S D U N W. exists (rmean (map (fun x => rmean (map (fun a => k * theta - u * Rmin theta a) x)) xs)). split; [|split].
  - destruct S as [S| ->]; [apply nv_eval_torch; assumption|apply nv_eval_dedicated; assumption].
  - unfold nv_training. apply rmean_map_le. intros x Hx. assert (Nx : x <> []) by (unfold widths in W; rewrite Forall_forall in W; specialize (W x Hx); destruct x; simpl in *; [lia|discriminate]).
    rewrite (rmean_map_minus (fun _ => k * theta) (fun a => u * Rmin theta a)), (rmean_map_const (k * theta) x Nx), (rmean_map_scal u (Rmin theta)). pose proof (rmin_mean theta x Nx) as H. apply Rmult_le_compat_l with (r := u) in H; [|exact U]. lra.
  - intros ->. unfold nv_training. f_equal. apply map_ext_in. intros x Hx. unfold widths in W. rewrite Forall_forall in W. specialize (W x Hx). destruct x as [|a [|]]; try discriminate.
    unfold rmean. simpl. replace ((a + 0) / 1) with a by field. field.
Qed.
Print Assumptions C81_newsvendor.

Theorem C81_newsvendor_refuted :
  exists solver k u theta (xs : list (list R)) v, widths 2 xs /\ nv_eval solver k u theta (batch [List.length xs] 2 xs) = Ok v /\ nv_training k u theta xs < v.
Proof.
  exists "entropic_torch"%string, 5, 7, 1, [[0; 2]], (1 * ((5 * 1 - 7 * 0 + (5 * 1 - 7 * 1)) / 2)). split; [repeat constructor|]. split.
  - rewrite (nv_eval_torch "entropic_torch" 5 7 1 2 [[0; 2]]) by (try reflexivity; try lia; repeat constructor). f_equal. unfold rmean. simpl.
    rewrite (Rmin_right 1 0), (Rmin_left 1 2) by lra. lra.
  - unfold nv_training, rmean. simpl. replace ((0 + (2 + 0)) / (1 + 1)) with 1 by lra. rewrite Rmin_left by lra. lra.
Qed.
Print Assumptions C81_newsvendor_refuted.

(* Portfolio, robust solver, data of the dtype of the weights: the mean-risk loss of the softmax weights *)
Theorem C81_portfolio_torch :
  forall solver dt eta alpha raw tau coef (xs : list (list R)), contains "entropic" solver = true -> widths (List.length raw) xs ->
    pf_eval solver dt dt eta alpha raw tau coef (batch [List.length xs] (List.length raw) xs)
    = Ok (rmean (map (fun x => - dot (softmax raw) x + eta * (tau + Rmax (- dot (softmax raw) x - tau) 0 / alpha)) xs)).
Proof. intros. rewrite pf_eval_torch by assumption. reflexivity. Qed.
Print Assumptions C81_portfolio_torch.

(* Portfolio, dedicated solver: minus the mean return, whatever eta ... *)
Theorem C81_portfolio_dedicated :
  forall wd dd eta alpha raw tau coef d (xs : list (list R)), widths d xs -> List.length coef = d -> xs <> [] ->
    pf_eval "dedicated" wd dd eta alpha raw tau coef (batch [List.length xs] d xs) = Ok (rmean (map (fun x => - dot coef x) xs)).
Proof. exact pf_eval_dedicated. Qed.
Print Assumptions C81_portfolio_dedicated.

(* ... so that it is not the risk objective, even at the best threshold *)
Theorem C81_portfolio_dedicated_ignores_risk_refuted :
  exists eta alpha coef (xs : list (list R)) v, 0 < eta /\ 0 < alpha <= 1 /\ widths 1 xs /\
    pf_eval "dedicated" F64 F64 eta alpha [] 0 coef (batch [List.length xs] 1 xs) = Ok v /\
    forall tau, v < rmean (map (fun x => - dot coef x + eta * (tau + Rmax (- dot coef x - tau) 0 / alpha)) xs).
Proof.
  exists 1, 1, [1], [[-1]], 1. split; [lra|]. split; [lra|]. split; [repeat constructor|]. split.
  - rewrite (C81_portfolio_dedicated F64 F64 1 1 [] 0 [1] 1 [[-1]]) by (try discriminate; repeat constructor). unfold rmean, dot. simpl. f_equal. field.
  - intros tau. unfold rmean, dot. simpl. unfold Rmax. destruct (Rle_dec _ _); lra.
Qed.
Print Assumptions C81_portfolio_dedicated_ignores_risk_refuted.

(* data of another dtype than the weights (numpy's float64 against torch's default float32): eval raises *)
Theorem C81_portfolio_dtype_refuted :
  exists solver eta alpha raw tau coef (xs : list (list R)), widths (List.length raw) xs /\
    pf_eval solver F32 F64 eta alpha raw tau coef (batch [List.length xs] (List.length raw) xs) = Raise RuntimeError.
Proof. exists "entropic_torch"%string, 0, 1, [0; 0], 0, [], [[1; 2]]. split; [repeat constructor|]. apply pf_eval_dtype; [reflexivity|discriminate]. Qed.
Print Assumptions C81_portfolio_dtype_refuted.

(* Weber: eval never succeeds after a fit: every solver name accepted by fit contains "torch"; with "entropic" in it too the labels
   are missing, otherwise the name is not recognised *)
Theorem C81_weber_eval :
  forall pf a X y d t l2 pos T, wb_dispatch pf a X y = Ok (FTorch d t) ->
    wb_eval (wb_solver_name a) l2 pos T = Raise (if contains "entropic" (wb_solver_name a) then AssertionError else ValueError).
Proof.
  intros pf a X y d t l2 pos T H. unfold wb_dispatch in H. destruct (String.eqb (wb_solver_name a) "entropic"); [discriminate|].
  destruct (contains "torch" (wb_solver_name a)) eqn:E; [|discriminate]. clear H.
  destruct (contains "entropic" (wb_solver_name a)) eqn:E2; [apply wb_eval_fails; exact E2|].
  unfold wb_eval. rewrite E2. destruct (String.eqb (wb_solver_name a) "dedicated") eqn:E3; [apply String.eqb_eq in E3; rewrite E3 in E; discriminate|]. reflexivity.
Qed.
Print Assumptions C81_weber_eval.

Theorem C81_weber_refuted :
  exists a X y d l2 pos T, wb_dispatch read a X y = Ok (FTorch d None) /\ wb_eval (wb_solver_name a) l2 pos T = Raise AssertionError.
Proof.
  destruct (wb_named_fits 10 "entropic_torch" [[1; 2]] [1] eq_refl) as [d Hd].
  exists (wb_named 10 "entropic_torch"), [[1; 2]], [1], d, 0, [0; 0], (mkT [1%nat; 2%nat] [1; 2]). split; [exact Hd|]. reflexivity.
Qed.
Print Assumptions C81_weber_refuted.

(* eval knows the names containing 'entropic' and 'dedicated', and refuses all others *)
Theorem C81_other_names :
  forall name, contains "entropic" name = false -> name <> "dedicated"%string -> forall k u theta wd dd eta alpha raw tau coef l2 pos T,
    nv_eval name k u theta T = Raise ValueError /\ pf_eval name wd dd eta alpha raw tau coef T = Raise ValueError /\ wb_eval name l2 pos T = Raise ValueError.
Proof. intros name E D k u theta wd dd eta alpha raw tau coef l2 pos T. apply String.eqb_neq in D. unfold nv_eval, pf_eval, wb_eval. rewrite E, D. auto. Qed.
Print Assumptions C81_other_names.
Example C81_other_names_case : pf_eval "torch_post" F64 F64 0 1 [0] 0 [] (batch [1%nat] 1 [[2]]) = Raise ValueError.
Proof. apply (C81_other_names "torch_post" eq_refl ltac:(discriminate) 0 0 0). exact 0. exact []. Qed.

(* a name fit accepts can be refused by eval *)
Theorem C81_name_accepted_by_fit_only_refuted :
  exists name d, nv_dispatch read (nv_named 0 name) [[1]; [2]] = Ok (FTorch d None) /\ forall k u theta T, nv_eval name k u theta T = Raise ValueError.
Proof. destruct (nv_named_fits 0 "torch" [[1]; [2]] eq_refl) as (d & Hd & _). exists "torch"%string, d. split; [exact Hd|]. reflexivity. Qed.
Print Assumptions C81_name_accepted_by_fit_only_refuted.

Example C81_case : exists v, nv_eval "dedicated" 5 7 1 (batch [2%nat] 1 [[3]; [4]]) = Ok v /\ v = -2.
Proof.
  destruct (C81_newsvendor "dedicated" 5 7 1 1 [[3]; [4]]) as (v & E & _ & H); [auto|lia|lra|discriminate|repeat constructor|]. exists v. split; [exact E|].
  rewrite (H eq_refl). unfold nv_training, rmean. simpl. replace ((3 + 0) / 1) with 3 by lra. replace ((4 + 0) / 1) with 4 by lra. rewrite !Rmin_left by lra. lra.
Qed.

(* ---------- C82: shape of predict ---------- *)
(* always (n,) with two classes (C54_predict); with more classes (n,1) for every model and dataset *)
Theorem C82_multiclass_shape :
  forall weights bias d classes (X : list (list R)), weights <> [] -> List.length weights = List.length bias -> widths d X ->
    exists labels, predict_multi weights bias d d classes X = Ok ([List.length X; 1%nat], labels) /\ List.length labels = List.length X.
Proof.
  intros weights bias d classes X N L W. destruct (predict_many weights bias d classes X N L W) as (picks & E & F). eexists. split; [exact E|]. rewrite map_length.
  clear E W. induction F; simpl; congruence.
Qed.
Print Assumptions C82_multiclass_shape.

Theorem C82_binary_shape_partial :
  forall torch w i c0 c1 (X : list (list R)), widths (List.length w) X ->
    exists labels, predict_binary (List.length w) (coef_of torch w) i [c0; c1] X = Ok ([List.length X], labels) /\ List.length labels = List.length X.
Proof. intros. eexists. split; [apply C54_predict; assumption|apply map_length]. Qed.
Print Assumptions C82_binary_shape_partial.

Theorem C82_multiclass_refuted :
  exists weights bias d classes (X : list (list R)) s labels, predict_multi weights bias d d classes X = Ok (s, labels) /\ s <> [List.length X].
Proof.
  destruct (C82_multiclass_shape [[1]; [2]; [3]] [0; 0; 0] 1 [0; 1; 2]%Z [[1]]) as (labels & E & _); [discriminate|reflexivity|repeat constructor|].
  exists [[1]; [2]; [3]], [0; 0; 0], 1%nat, [0; 1; 2]%Z, [[1]], [1%nat; 1%nat], labels. split; [exact E|discriminate].
Qed.
Print Assumptions C82_multiclass_refuted.

(* ---------- C83: radius 0 ---------- *)
(* rho = 0 passes the constructors, and the dedicated linear regression then fails whatever the numerical solver would answer; every rho > 0 is served *)
Theorem C83_linear_radius_zero_refuted :
  exists rho, check_rho rho = Ok tt /\ forall answer, lin_solver answer rho = Raise AssertionError.
Proof. exists 0. split; [unfold check_rho; destruct (Rltb 0 0) eqn:E; [rewrite Rltb_true in E; lra|reflexivity]|]. intros answer. unfold lin_solver. destruct (Rltb 0 0) eqn:E; [rewrite Rltb_true in E; lra|reflexivity]. Qed.
Print Assumptions C83_linear_radius_zero_refuted.

Theorem C83_linear_radius_positive_partial :
  forall rho answer, 0 < rho -> check_rho rho = Ok tt /\ lin_solver answer rho = Ok answer.
Proof.
  intros rho answer H. unfold check_rho, lin_solver. assert (E1 : Rltb rho 0 = false) by (rewrite Rltb_false; lra). assert (E2 : Rltb 0 rho = true) by (rewrite Rltb_true; lra).
  rewrite E1, E2. split; reflexivity.
Qed.
Print Assumptions C83_linear_radius_positive_partial.

Theorem C83_negative_radius : forall rho, rho < 0 -> check_rho rho = Raise ValueError.
Proof. intros rho H. unfold check_rho. assert (E1 : Rltb rho 0 = true) by (rewrite Rltb_true; lra). rewrite E1. reflexivity. Qed.
Print Assumptions C83_negative_radius.

Example C83_case : lin_solver ([1; 2], 3) (1 / 2) = Ok ([1; 2], 3).
Proof. apply C83_linear_radius_positive_partial. lra. Qed.

(* ---------- concrete cases of the theorems above, one each ---------- *)
Example C54_two_classes_case : lg_targets [7; 3; 7]%Z = Ok [[1]; [-1]; [1]].
Proof. rewrite (C54_two_classes [7; 3; 7]%Z 3 7); [reflexivity|lia|]. intros v. simpl. intuition. Qed.
Example C54_one_class_case : lg_targets [4; 4; 4]%Z = Raise ValueError.
Proof. apply (C54_one_class _ 4%Z). simpl. intuition. Qed.
Example C54_more_classes_case : exists rows, lg_targets [5; 2; 9; 2]%Z = Ok rows /\ Forall2 (fun v r => List.length r = 3%nat /\ rsum r = 1) [5; 2; 9; 2]%Z rows.
Proof.
  destruct (C54_more_classes [5; 2; 9; 2]%Z [2; 5; 9]%Z) as (rows & E & F).
  - repeat constructor; lia.
  - intros v. simpl. intuition.
  - simpl; lia.
  - exists rows. split; [exact E|]. revert F. generalize [5; 2; 9; 2]%Z. clear E. induction rows; intros l F; inversion F; subst; constructor; [tauto|auto].
Qed.
Example C54_predict_case : predict_binary 2 (coef_of false [1; -1]) (Some 1) [3; 8]%Z [[0; 0]; [0; 5]] = Ok ([2%nat], [8; 3]%Z).
Proof.
  refine (eq_trans (C54_predict false [1; -1] (Some 1) 3 8 [[0; 0]; [0; 5]] _) _); [repeat constructor|]. cbn [map List.length dot].
  destruct (Rle_dec 0 _) as [A|A]; [|exfalso; apply A; unfold dot; simpl; lra]. destruct (Rle_dec 0 _) as [B|B]; [exfalso; unfold dot in B; simpl in B; lra|]. reflexivity.
Qed.
Example C54_round_trip_case : predict_binary 1 (coef_of true [2]) (Some 1) (unique_labels [7; 3; 7]%Z) [[1]; [-4]; [5]] = Ok ([3%nat], [7; 3; 7]%Z).
Proof.
  apply (C54_round_trip true [2] (Some 1) 3 7 [[1]; [-4]; [5]] [7; 3; 7]%Z [[1]; [-1]; [1]]); [lia|intros v; simpl; intuition|repeat constructor|exact C54_two_classes_case|].
  repeat constructor; unfold dot; simpl; lra.
Qed.
(* three classes scored x, 0 and -x: the largest score wins *)
Example C54_predict_multi_case : exists labels, predict_multi [[1]; [0]; [-1]] [0; 0; 0] 1 1 [4; 6; 8]%Z [[3]; [-2]] = Ok ([2%nat; 1%nat], labels) /\ List.length labels = 2%nat /\ hd 0%Z labels = 4%Z.
Proof.
  destruct (C54_predict_multi [[1]; [0]; [-1]] [0; 0; 0] 1 [4; 6; 8]%Z [[3]; [-2]]) as (labels & E & F); [discriminate|reflexivity|reflexivity|repeat constructor|].
  exists labels. split; [exact E|]. inversion F as [|x c ? l1 (i & I & C & M & _) F1]; subst. inversion F1 as [|? ? ? l2 _ F2]; subst. inversion F2; subst. split; [reflexivity|].
  cbn [hd]. specialize (M 0%nat ltac:(simpl; lia)). destruct i as [|[|[|i]]]; [reflexivity| | |simpl in I; lia]; unfold dot in M; simpl in M; lra.
Qed.
Example C55_binary_with_intercept_partial_case : exists rows, predict_proba_binary 2 (coef_of true [1; -1]) (Some 3) [[2; 5]; [0; 0]] = Ok (batch [2%nat] 2 rows) /\ Forall (fun r => rsum r = 1) rows.
Proof.
  destruct (C55_binary_with_intercept_partial true [1; -1] 3 [[2; 5]; [0; 0]]) as (rows & E & F); [repeat constructor|right; discriminate|].
  exists rows. split; [exact E|]. revert F. generalize [[2; 5]; [0; 0]]. clear E. induction rows; intros l F; inversion F; subst; constructor; [|eauto].
  match goal with H : exists p, _ |- _ => destruct H as (p & _ & _ & _ & H); exact H end.
Qed.
Example C55_agrees_with_predict_case : 1 / 2 <= 1 / (1 + exp (- (3))) /\ ~ 1 / 2 <= 1 / (1 + exp (- (-3))).
Proof. split; [apply C55_agrees_with_predict; lra|]. intros H. apply C55_agrees_with_predict in H. lra. Qed.
Example C55_without_intercept_case : predict_proba_binary 2 (lg_coef_torch [1; 2]) (lg_intercept_torch false 5) [[1; 1]; [3; 4]] = Raise TypeError.
Proof. apply (C55_without_intercept [1; 2]). repeat constructor. Qed.
Example C55_multiclass_scores_case : predict_proba_multi [[1]; [0]; [-1]] [0; 5; 0] 1 1 [[3]] = Ok (batch [1%nat] 3 [[dot [1] [3] + 0; dot [0] [3] + 5; dot [-1] [3] + 0]]).
Proof. apply (C55_multiclass_scores [[1]; [0]; [-1]] [0; 5; 0] 1 [[3]]); [reflexivity|repeat constructor]. Qed.
Definition nv_named_post := nv_named 0 "entropic_torch_post".
Example C56_newsvendor_case : exists d, nv_dispatch read nv_named_post [[1]; [2]] = Ok (FTorch d None) /\ a_post d = true.
Proof. destruct (nv_named_fits 0 "entropic_torch_post" [[1]; [2]] eq_refl) as (d & E & _). exists d. split; [exact E|]. apply (C56_newsvendor _ _ _ _ _ E). reflexivity. Qed.
Example C56_labelled_estimators_case : exists d, wb_dispatch read (wb_named 10 "entropic_torch_pre") [[1; 2]] [1] = Ok (FTorch d None) /\ a_post d = false.
Proof.
  destruct (wb_named_fits 10 "entropic_torch_pre" [[1; 2]] [1] eq_refl) as (d & E). exists d. split; [exact E|].
  apply (proj1 (C56_labelled_estimators read [[1; 2]] d None) _ _ E). reflexivity.
Qed.
Lemma pf_pre_fits : exists d, pf_dispatch read (pf_with "entropic_torch_pre" "t-NC-1-2") [[1; 2]] = Ok (FTorch d None).
Proof.
  unfold pf_dispatch. destruct (decode_12 read eq_refl eq_refl) as [c Hc]. cbn [pf_cost pf_with]. rewrite Hc. cbn [bind]. cbn [pf_columns pf_C pf_with pf_d width].
  rewrite Nat.eqb_refl. cbn [negb pf_solver_name pf_with]. change (String.eqb "entropic_torch_pre" "entropic") with false. change (String.eqb "entropic_torch_pre" "dedicated") with false.
  change (contains "torch" "entropic_torch_pre") with true. cbv iota.
  match goal with |- context [dualize read ?u] => destruct (dualize_12 read u eq_refl eq_refl eq_refl eq_refl (sigma_none_pos _)) as [d Hd]; exists d; rewrite Hd; reflexivity end.
Qed.
Example C56_portfolio_inverted_case : exists d, pf_dispatch read (pf_with "entropic_torch_pre" "t-NC-1-2") [[1; 2]] = Ok (FTorch d None) /\ a_post d = true.
Proof. destruct pf_pre_fits as [d E]. exists d. split; [exact E|]. apply (C56_portfolio_inverted _ _ _ _ _ E). reflexivity. Qed.
Example C57_weber_linear_logistic_portfolio_case : exists d, wb_dispatch read wb_defaults [[1; 2]] [1] = Ok (FTorch d None) /\ a_post d = true /\ a_n_iter d = SInt 300.
Proof. exact (proj1 (C57_weber_linear_logistic_portfolio read [[1; 2]] eq_refl eq_refl) [1]). Qed.
Example C57_newsvendor_default_case : nv_dispatch read nv_defaults [[1]; [2]] = Raise DeprecationWarning.
Proof. apply C57_newsvendor_default; reflexivity. Qed.
Example C57_logistic_intercept_case : exists d t, lg_dispatch read lg_defaults [[1; 2]; [3; 4]] [5; 8]%Z = Ok (FTorch d t) /\ exists m k, t = Some (m, k, true).
Proof. destruct C57_case as (d & k & E). exists d, (Some (2%nat, k, true)). split; [exact E|]. exact (C57_logistic_intercept _ _ _ _ _ _ E). Qed.
Example C57_default_problems_case : nv_k nv_defaults * 4 - nv_u nv_defaults * Rmin 4 4 < nv_k nv_defaults * 9 - nv_u nv_defaults * Rmin 9 4.
Proof. apply C57_default_problems. lra. Qed.
Example C79_names_without_torch_partial_case : is_err (wb_dispatch read (wb_named 10 "entropic_smooth") [[1; 2]] [1]) /\ is_err (nv_dispatch read (nv_named 0 "entropic_smooth") [[1]; [2]]).
Proof.
  destruct (C79_names_without_torch_partial read "entropic_smooth" [[1; 2]] eq_refl ltac:(discriminate)) as (_ & _ & A & _).
  destruct (C79_names_without_torch_partial read "entropic_smooth" [[1]; [2]] eq_refl ltac:(discriminate)) as (B & _).
  split; [exact (A (wb_named 10 "entropic_smooth") [1] _ eq_refl eq_refl)|exact (B (nv_named 0 "entropic_smooth") _ eq_refl eq_refl)].
Qed.
Example C79_misspelt_means_pre_case : exists d, wb_dispatch read (wb_named 10 "entropic_torch_Post") [[1; 2]] [1] = Ok (FTorch d None) /\ a_post d = false.
Proof.
  destruct (wb_named_fits 10 "entropic_torch_Post" [[1; 2]] [1] eq_refl) as (d & E). exists d. split; [exact E|].
  exact (proj1 (proj2 (C79_misspelt_means_pre read "entropic_torch_Post" [[1; 2]] d None eq_refl)) (wb_named 10 "entropic_torch_Post") [1] eq_refl E).
Qed.
Example C80_passed_on_partial_case : exists d, nv_dispatch read nv_named_post [[1]; [2]] = Ok (FTorch d None) /\ a_rho d = 1 / 100 /\ a_n_samples d = 10%Z.
Proof.
  destruct (nv_named_fits 0 "entropic_torch_post" [[1]; [2]] eq_refl) as (d & E & _). exists d. split; [exact E|].
  destruct (proj1 (C80_passed_on_partial read [[1]; [2]] d None) _ E) as (A & B & _). split; [exact A|exact B].
Qed.
Example C81_newsvendor_case : exists v, nv_eval "entropic_torch" 5 7 1 (batch [2%nat] 1 [[3]; [4]]) = Ok v /\ v = nv_training 5 7 1 [[3]; [4]].
Proof.
  destruct (C81_newsvendor "entropic_torch" 5 7 1 1 [[3]; [4]]) as (v & E & _ & F); [left; reflexivity|lia|lra|discriminate|repeat constructor|].
  exists v. split; [exact E|]. apply F. reflexivity.
Qed.
Example C81_portfolio_torch_case : pf_eval "entropic_torch" F64 F64 (1 / 2) (1 / 4) [0; 1] 2 [] (batch [1%nat] 2 [[3; 4]])
  = Ok (rmean [- dot (softmax [0; 1]) [3; 4] + 1 / 2 * (2 + Rmax (- dot (softmax [0; 1]) [3; 4] - 2) 0 / (1 / 4))]).
Proof. apply (C81_portfolio_torch "entropic_torch" F64 (1 / 2) (1 / 4) [0; 1] 2 [] [[3; 4]]); [reflexivity|repeat constructor]. Qed.
Example C81_portfolio_dedicated_case : pf_eval "dedicated" F64 F64 (1 / 2) (1 / 4) [] 2 [1 / 3; 2 / 3] (batch [1%nat] 2 [[3; 6]]) = Ok (-5).
Proof.
  refine (eq_trans (C81_portfolio_dedicated F64 F64 (1 / 2) (1 / 4) [] 2 [1 / 3; 2 / 3] 2 [[3; 6]] _ _ _) _); [repeat constructor|reflexivity|discriminate|].
  f_equal. unfold rmean, dot. simpl. field.
Qed.
Example C81_weber_eval_case : wb_eval "entropic_torch" 0 [1; 2] (batch [1%nat] 2 [[3; 4]]) = Raise AssertionError.
Proof. destruct (wb_named_fits 10 "entropic_torch" [[1; 2]] [1] eq_refl) as (d & E). exact (C81_weber_eval read (wb_named 10 "entropic_torch") [[1; 2]] [1] d None 0 [1; 2] (batch [1%nat] 2 [[3; 4]]) E). Qed.
Example C82_multiclass_shape_case : exists labels, predict_multi [[1]; [0]; [-1]] [0; 0; 0] 1 1 [4; 6; 8]%Z [[3]; [-2]; [0]; [1]] = Ok ([4%nat; 1%nat], labels) /\ List.length labels = 4%nat.
Proof. apply (C82_multiclass_shape [[1]; [0]; [-1]] [0; 0; 0] 1 [4; 6; 8]%Z [[3]; [-2]; [0]; [1]]); [discriminate|reflexivity|repeat constructor]. Qed.
Example C82_binary_shape_partial_case : exists labels, predict_binary 2 (coef_of true [1; -1]) (Some 1) [3; 8]%Z [[0; 0]; [0; 5]; [1; 1]] = Ok ([3%nat], labels) /\ List.length labels = 3%nat.
Proof. apply (C82_binary_shape_partial true [1; -1] (Some 1) 3 8 [[0; 0]; [0; 5]; [1; 1]]). repeat constructor. Qed.
Example C83_linear_radius_positive_partial_case : check_rho (1 / 7) = Ok tt /\ lin_solver ([1; 2], 3) (1 / 7) = Ok ([1; 2], 3).
Proof. apply C83_linear_radius_positive_partial. lra. Qed.
Example C83_negative_radius_case : check_rho (-1) = Raise ValueError.
Proof. apply C83_negative_radius. lra. Qed.
