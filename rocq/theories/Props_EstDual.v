(* C113: the function of the parameters that each estimator minimises: the robust loss built by fit, evaluated on tensors, is the soft
   robust objective of the estimator's own loss plus its penalty, on the estimator's data and with its radius. *)
From Coq Require Import Reals List Bool ZArith String Arith Lra Lia Sorted.
From Verif Require Import PyBase RList XReal Tensor Loss_Model Loss_Spec Loss_Proofs Costs_Model Costs_Proofs CostDecoder_Model OptCond_Model Samplers_Model Wrap_Model
  Estim_Model Estim_Proofs Handover_Proofs Dual_Model Dual_Spec Dual_Proofs TDual_Model TDual_Spec TDual_Proofs Props_Loss Props_TDual Props_Estim EstDual_Model EstDual_Spec EstDual_Proofs.
Import ListNotations.
Local Open Scope R_scope.
Local Notation length := List.length.

(* LinearRegression: squared residual, penalty on weights and bias *)
Theorem C113_linear pf a X y d t wt b : lr_dispatch pf a X y = Ok (FTorch d t) -> X <> [] -> widths (length wt) X -> length y = length X -> 0 < lr_rho a ->
  t = Some (length wt, 1%nat, true) /\
  trains_labelled d (lr_call wt b) (wrapped_of d [] [wt; [b]]) (length wt) 1
    (fun x l => (dot wt x + b - hd 0 l) ^ 2 + penalty (lr_l2_reg a) (wt ++ [b])) X (map (fun v => [v]) y) (lr_rho a).
Proof.
  intros H Nx W E Hr. split; [destruct (lr_scheme _ _ _ _ _ _ H) as [_ ->]; rewrite (width_of _ _ W Nx); reflexivity|].
  destruct (lr_received _ _ _ _ _ _ H) as (Rs & Q). destruct (lr_dualized _ _ _ _ _ _ H) as (u & Hu & Ux & Uy).
  apply (labelled_trains pf u d d); auto; try apply (r_rho _ _ _ _ _ _ _ _ _ _ _ Q); try apply (r_reduction _ _ _ _ _ _ _ _ _ _ _ Q); try apply widths_column; [|rewrite map_length; exact E].
  apply (samplewise_labelled_ext _ _ _ (fun x l => rmean [(dot wt x + b - hd 0 l) * (dot wt x + b - hd 0 l)] + penalty (lr_l2_reg a) (wt ++ [b]))).
  - intros x l _ _. rewrite rmean1. f_equal. simpl. ring.
  - assert (P : wt ++ [b] = List.concat ([] ++ [wt; [b]])) by reflexivity. rewrite P.
    apply (C112_losses_labelled _ _ _ _ _ 1 (fun x l => [(dot wt x + b - hd 0 l) * (dot wt x + b - hd 0 l)])); auto.
    + apply penalised_by; [apply (r_l2 _ _ _ _ _ _ _ _ _ _ _ Q)|discriminate].
    + cbn. apply (r_labels _ _ _ _ _ _ _ _ _ _ _ Q). discriminate.
    + apply lr_rowwise.
Qed.
Print Assumptions C113_linear.

(* LogisticRegression with two classes: the smaller label is -1, the other 1; without an intercept there is no bias to train *)
Theorem C113_logistic_binary pf a X y d t wt b c0 c1 : lg_dispatch pf a X y = Ok (FTorch d t) -> (c0 < c1)%Z -> (forall v, In v y <-> v = c0 \/ v = c1) ->
  X <> [] -> widths (length wt) X -> length y = length X -> 0 < lg_rho a ->
  let bias := if lg_fit_intercept a then b else 0 in
  let trained := if lg_fit_intercept a then [wt; [b]] else [wt] in
  t = Some (length wt, 1%nat, lg_fit_intercept a) /\
  trains_labelled d (lg_call wt bias) (wrapped_of d [] trained) (length wt) 1
    (fun x l => ln (1 + exp (- (hd 0 l * (dot wt x + bias)))) + penalty (lg_l2_reg a) (List.concat trained)) X (map (fun v => [if Z.eq_dec v c0 then -1 else 1]) y) (lg_rho a).
Proof.
  intros H Hc Hy Nx W E Hr bias trained.
  assert (U : unique_labels y = [c0; c1]).
  { apply sorted_unique; [apply unique_sorted|repeat constructor; exact Hc|]. intros v. rewrite unique_in, Hy. simpl. intuition. }
  assert (T : lg_targets y = Ok (map (fun v => [if Z.eq_dec v c0 then -1 else 1]) y)).
  { rewrite (targets_two y c0 c1 U). f_equal. apply map_ext. intros v. destruct (Z.eqb_spec v c0), (Z.eq_dec v c0); congruence. }
  split; [destruct (lg_scheme _ _ _ _ _ _ H) as [_ ->]; rewrite (width_of _ _ W Nx), U; reflexivity|].
  destruct (lg_received _ _ _ _ _ _ H) as (ts & T' & Rs & Q). rewrite T in T'. injection T' as <-. destruct (lg_dualized _ _ _ _ _ _ _ H T) as (u & Hu & Ux & Uy).
  assert (Wt : forall v, length (if Z.eq_dec v c0 then [-1] else [1]) = 1%nat) by (intros v; destruct (Z.eq_dec v c0); reflexivity).
  apply (labelled_trains pf u d d); auto; try apply (r_rho _ _ _ _ _ _ _ _ _ _ _ Q); try apply (r_reduction _ _ _ _ _ _ _ _ _ _ _ Q).
  - apply (samplewise_labelled_ext _ _ _ (fun x l => rmean [ln (1 + exp (- (hd 0 l * (dot wt x + bias))))] + penalty (lg_l2_reg a) (List.concat trained))).
    + intros x l _ _. rewrite rmean1. reflexivity.
    + apply (C112_losses_labelled _ _ _ _ _ 1 (fun x l => [ln (1 + exp (- (hd 0 l * (dot wt x + bias))))])); auto.
      * apply (penalised_by d [] trained); [apply (r_l2 _ _ _ _ _ _ _ _ _ _ _ Q)|]. unfold trained. destruct (lg_fit_intercept a); discriminate.
      * cbn. apply (r_labels _ _ _ _ _ _ _ _ _ _ _ Q). discriminate.
      * cbn. apply Rs. rewrite U. reflexivity.
      * apply bin_rowwise.
  - clear. unfold widths. induction y; constructor; [reflexivity|assumption].
  - rewrite map_length. exact E.
Qed.
Print Assumptions C113_logistic_binary.

(* LogisticRegression with more classes: cross-entropy of softmax regression against indicator rows *)
Theorem C113_logistic_multi pf a X y d t wts bs k classes : lg_dispatch pf a X y = Ok (FTorch d t) ->
  StronglySorted Z.lt classes -> (forall v, In v y <-> In v classes) -> (2 < length classes)%nat -> length wts = length classes -> length bs = length classes ->
  X <> [] -> widths k X -> length y = length X -> 0 < lg_rho a ->
  let biases := if lg_fit_intercept a then bs else map (fun _ => 0) bs in
  let trained := if lg_fit_intercept a then [List.concat wts; bs] else [List.concat wts] in
  t = Some (k, length classes, lg_fit_intercept a) /\
  trains_labelled d (mc_call wts biases k) (wrapped_of d [] trained) k (length classes)
    (fun x l => - rsum (map2 (fun s q => q * (s - ln (rsum (map exp (scores wts biases x))))) (scores wts biases x) l) + penalty (lg_l2_reg a) (List.concat trained))
    X (map (fun v => map (fun c => if Z.eq_dec v c then 1 else 0) classes) y) (lg_rho a).
Proof.
  intros H Hs Hy N2 Lw Lb Nx W E Hr biases trained.
  assert (U : unique_labels y = classes).
  { apply sorted_unique; [apply unique_sorted|exact Hs|]. intros v. rewrite unique_in, Hy. reflexivity. }
  assert (T : lg_targets y = Ok (map (fun v => map (fun c => if Z.eq_dec v c then 1 else 0) classes) y)).
  { rewrite targets_many by (rewrite U; exact N2). rewrite U. f_equal. apply map_ext. intros v. apply map_ext. intros c. destruct (Z.eqb_spec v c), (Z.eq_dec v c); congruence. }
  assert (N2b : (length (unique_labels y) =? 2)%nat = false) by (apply Nat.eqb_neq; rewrite U; lia).
  split; [destruct (lg_scheme _ _ _ _ _ _ H) as [_ ->]; rewrite (width_of _ _ W Nx), N2b, U; reflexivity|].
  destruct (lg_received _ _ _ _ _ _ H) as (ts & T' & Rs & Q). rewrite T in T'. injection T' as <-. destruct (lg_dualized _ _ _ _ _ _ _ H T) as (u & Hu & Ux & Uy).
  apply (labelled_trains pf u d d); auto; try apply (r_rho _ _ _ _ _ _ _ _ _ _ _ Q); try apply (r_reduction _ _ _ _ _ _ _ _ _ _ _ Q).
  - apply (samplewise_labelled_ext _ _ _ (fun x l => - rsum (map2 (fun s q => (s - ln (rsum (map exp (scores wts biases x)))) * q) (scores wts biases x) l) + penalty (lg_l2_reg a) (List.concat trained))).
    + intros x l _ _. do 3 f_equal. apply map2_in_ext. intros. ring.
    + apply (C112_losses_flat _ _ _ _ _ (fun x l => - rsum (map2 (fun s q => (s - ln (rsum (map exp (scores wts biases x)))) * q) (scores wts biases x) l))).
      * apply (penalised_by d [] trained); [apply (r_l2 _ _ _ _ _ _ _ _ _ _ _ Q)|]. unfold trained. destruct (lg_fit_intercept a); discriminate.
      * cbn. apply (r_labels _ _ _ _ _ _ _ _ _ _ _ Q). discriminate.
      * cbn. destruct (a_reduce_spatial d); [|reflexivity]. destruct Rs as [Rs _]. specialize (Rs eq_refl). apply Nat.eqb_neq in N2b. contradiction.
      * rewrite <- Lw. apply mc_rowwise. unfold biases. destruct (lg_fit_intercept a); rewrite ?map_length; unfold vec in *; congruence.
  - clear. unfold widths. induction y; constructor; [apply map_length|assumption].
  - rewrite map_length. exact E.
Qed.
Print Assumptions C113_logistic_multi.

(* Weber: weighted distance to the position, penalty on the position *)
Theorem C113_weber pf a X y d t pos : wb_dispatch pf a X y = Ok (FTorch d t) -> X <> [] -> widths (length pos) X -> length y = length X -> 0 < wb_rho a ->
  t = None /\
  trains_labelled d (wb_call pos) (wrapped_of d [pos] []) (length pos) 1
    (fun x l => hd 0 l * sqrt (sqnorm (vsub x pos)) + penalty (wb_l2_reg a) pos) X (map (fun v => [v]) y) (wb_rho a).
Proof.
  intros H Nx W E Hr. destruct (wb_received _ _ _ _ _ _ H) as (T & Rs & Q & _). split; [exact T|]. destruct (wb_dualized _ _ _ _ _ _ H) as (u & d0 & Hu & Ux & Uy & Ec & Ei & Es).
  apply (labelled_trains pf u d0 d); auto; try apply (r_rho _ _ _ _ _ _ _ _ _ _ _ Q); try apply (r_reduction _ _ _ _ _ _ _ _ _ _ _ Q); try apply widths_column; [|rewrite map_length; exact E].
  apply (samplewise_labelled_ext _ _ _ (fun x l => rmean [hd 0 l * norm2 (vsub x pos)] + penalty (wb_l2_reg a) (List.concat ([pos] ++ [])))).
  - intros x l _ _. rewrite rmean1. simpl. rewrite app_nil_r. reflexivity.
  - apply (C112_losses_labelled _ _ _ _ _ 1 (fun x l => [hd 0 l * norm2 (vsub x pos)])); auto.
    + apply penalised_by; [apply (r_l2 _ _ _ _ _ _ _ _ _ _ _ Q)|discriminate].
    + cbn. apply (r_labels _ _ _ _ _ _ _ _ _ _ _ Q). discriminate.
    + apply wb_rowwise.
Qed.
Print Assumptions C113_weber.

(* NewsVendor: no penalty, on the averaged features *)
Theorem C113_newsvendor pf a X d t theta : nv_dispatch pf a X = Ok (FTorch d t) -> X <> [] -> 0 < nv_rho a ->
  t = None /\
  trains d (nvd_call (nv_k a) (nv_u a) theta) (wrapped_of d [[theta]] []) 1
    (fun x => nv_k a * theta - nv_u a * Rmin theta (hd 0 x)) (map (fun r => [rmean r]) X) (nv_rho a).
Proof.
  intros H Nx Hr. destruct (nv_received _ _ _ _ _ H) as (T & Rs & Q). split; [exact T|]. destruct (nv_dualized _ _ _ _ _ H) as (u & Hu & Ux & Uy).
  apply (unlabelled_trains pf u d d); auto; try apply (r_rho _ _ _ _ _ _ _ _ _ _ _ Q); try apply (r_reduction _ _ _ _ _ _ _ _ _ _ _ Q).
  - apply (samplewise_ext _ _ (fun x => rmean [rmean (map (fun v => nv_k a * theta - nv_u a * Rmin theta v) x)] + 0)).
    + intros x Lx. destruct x as [|v [|]]; try discriminate. simpl map. rewrite !rmean1. simpl. ring.
    + apply (C112_losses_unlabelled _ _ _ _ 1 (fun x => [rmean (map (fun v => nv_k a * theta - nv_u a * Rmin theta v) x)])); auto.
      * apply unpenalised. left. apply (r_l2 _ _ _ _ _ _ _ _ _ _ _ Q).
      * cbn. destruct (a_has_labels d) eqn:Hl; [|reflexivity]. apply (r_labels _ _ _ _ _ _ _ _ _ _ _ Q) in Hl. congruence.
      * apply (nv_rowwise (nv_k a) (nv_u a) theta 1). lia.
  - clear. unfold widths. induction X; constructor; [reflexivity|assumption].
  - destruct X; [congruence|discriminate].
Qed.
Print Assumptions C113_newsvendor.

(* Portfolio: mean-risk loss of the softmax weights, no penalty *)
Theorem C113_portfolio pf a X d t raw tau : pf_dispatch pf a X = Ok (FTorch d t) -> X <> [] -> widths (length raw) X -> 0 < pf_rho a ->
  t = None /\
  trains d (pfd_call (pf_eta a) (pf_alpha a) raw tau) (wrapped_of d [[tau]; raw] []) (length raw)
    (risk_loss (pf_eta a) (pf_alpha a) (softmax raw) tau) X (pf_rho a).
Proof.
  intros H Nx W Hr. destruct (pf_received _ _ _ _ _ H) as (T & Rs & Q). split; [exact T|]. destruct (pf_dualized _ _ _ _ _ H) as (u & Hu & Ux & Uy).
  apply (unlabelled_trains pf u d d); auto; try apply (r_rho _ _ _ _ _ _ _ _ _ _ _ Q); try apply (r_reduction _ _ _ _ _ _ _ _ _ _ _ Q).
  apply (samplewise_ext _ _ (fun x => rmean [risk_loss (pf_eta a) (pf_alpha a) (softmax raw) tau x] + 0)).
  - intros x _. rewrite rmean1. ring.
  - apply (C112_losses_unlabelled _ _ _ _ 1 (fun x => [risk_loss (pf_eta a) (pf_alpha a) (softmax raw) tau x])); auto.
    + apply unpenalised. right. apply (r_l2 _ _ _ _ _ _ _ _ _ _ _ Q).
    + cbn. destruct (a_has_labels d) eqn:Hl; [|reflexivity]. apply (r_labels _ _ _ _ _ _ _ _ _ _ _ Q) in Hl. congruence.
    + apply pf_rowwise.
Qed.
Print Assumptions C113_portfolio.

(* The costs of the default settings, for the labelled estimators: the distances of features and labels, the latter counted 10^8 times,
   averaged and squared; and importance sampling is on. *)
Lemma default_dualized pf u d : pf "2"%string = Some (Fin 2) -> u_cost u = Some "t-NLC-2-2"%string -> u_imp_samp u = true -> dualize pf u = Ok d ->
  a_imp_samp d = true /\ tcost_of (a_cost d) = Some (TNLC (PFin 2) 2 (KFin 100000000)).
Proof.
  intros P C I. unfold dualize. rewrite C. unfold parse_code_torch. cbn [split_dash Ascii.eqb Bool.eqb]. unfold to_float. rewrite P. cbn [assert_ String.eqb Ascii.eqb Bool.eqb bind].
  unfold cost_from_parse_torch. cbn [p_id p_type p_power p_kappa String.eqb Ascii.eqb Bool.eqb]. unfold NormLabelCost, assert_, x_ge0, dk. unfold xle. 
  assert (xlt (Fin 0) (Fin 100000000) = true) as -> by (cbn; unfold Rltb; destruct (Rlt_dec 0 100000000); [reflexivity|lra]). cbn [orb bind].
  destruct (expert_hyperparams _ _ _ _ _ _) as [sg ep]. match goal with |- (do s <- ?x; _) = _ -> _ => destruct x as [cs|] end; cbn [bind]; [|discriminate]. intros H. injection H as <-. cbn [a_imp_samp a_cost].
  unfold decide_on_impsamp, can_imp_samp. rewrite I. cbn [p_power p_type]. unfold x_is_two, xeq, Reqb. destruct (Req_EM_T 2 2); [|lra]. split; reflexivity.
Qed.
Theorem C113_default_cost pf X y d t : pf "2"%string = Some (Fin 2) ->
  lr_dispatch pf lr_defaults X y = Ok (FTorch d t) \/ (exists y', lg_dispatch pf lg_defaults X y' = Ok (FTorch d t)) \/ wb_dispatch pf wb_defaults X y = Ok (FTorch d t) ->
  a_imp_samp d = true /\ tcost_of (a_cost d) = Some (TNLC (PFin 2) 2 (KFin 100000000)) /\
  forall x l x' l', pt_cost (TNLC (PFin 2) 2 (KFin 100000000)) (x, l) (x', l') = ((sqrt (sqnorm (vsub x x')) + 100000000 * sqrt (sqnorm (vsub l l'))) / 100000001) ^ 2.
Proof.
  intros P H.
  assert (G : a_imp_samp d = true /\ tcost_of (a_cost d) = Some (TNLC (PFin 2) 2 (KFin 100000000))).
  { destruct H as [H|[[y' H]|H]].
    - unfold lr_dispatch, lr_defaults in H. cbn [lr_cost lr_solver_name] in H. destruct (decode_cost pf _); [|discriminate]. cbn [bind] in H.
      change (String.eqb "entropic_torch" "entropic") with false in H. change (contains "torch" "entropic_torch") with true in H. cbv iota in H.
      match type of H with (do d <- ?e; _) = _ => destruct e as [d'|] eqn:E end; [|discriminate]. cbn [bind] in H. injection H as -> _. refine (default_dualized pf _ d P _ _ E); reflexivity.
    - unfold lg_dispatch, lg_defaults in H. cbn [lg_cost lg_solver_name] in H. destruct (lg_targets y'); [|discriminate]. cbn [bind] in H. destruct (decode_cost pf _); [|discriminate]. cbn [bind] in H.
      change (String.eqb "entropic_torch" "entropic") with false in H. change (String.eqb "entropic_torch" "dedicated") with false in H. change (contains "torch" "entropic_torch") with true in H. cbv iota in H.
      match type of H with (do d <- ?e; _) = _ => destruct e as [d'|] eqn:E end; [|discriminate]. cbn [bind] in H. injection H as -> _. refine (default_dualized pf _ d P _ _ E); reflexivity.
    - unfold wb_dispatch, wb_defaults in H. cbn [wb_cost wb_solver_name wb_n_iter] in H.
      change (String.eqb "entropic_torch" "entropic") with false in H. change (contains "torch" "entropic_torch") with true in H. cbv iota in H.
      match type of H with (do d <- ?e; _) = _ => destruct e as [d'|] eqn:E end; [|discriminate]. cbn [bind] in H. injection H as <- _. refine (default_dualized pf _ d' P _ _ E); reflexivity. }
  destruct G as [G1 G2]. split; [exact G1|]. split; [exact G2|]. intros x l x' l'. unfold pt_cost, nlc_point. cbn [fst snd].
  unfold Reqb. destruct (Req_EM_T 100000000 0); [lra|]. rewrite !pnorm_2, tpow_pos by lra.
  replace (1 + 100000000) with 100000001 by lra. rewrite ppow_2; [unfold norm2; simpl; ring|]. apply Rmult_le_pos; [|left; apply Rinv_0_lt_compat; lra].
  pose proof (norm2_nonneg (vsub x x')). pose proof (norm2_nonneg (vsub l l')). lra.
Qed.
Print Assumptions C113_default_cost.

(* With the squared Euclidean cost and a finite weight of the labels the sampler is Gaussian, so that the log-densities asked for by
   importance sampling exist; C113_linear etc. are about it. *)
Theorem C113_gaussian_sampler pf a X y d t k kp : lr_dispatch pf a X y = Ok (FTorch d t) -> tcost_of (a_cost d) = Some (TNLC (PFin 2) 2 (KFin kp)) ->
  exists s, tsampler_of d k 1 = Some s.
Proof.
  intros H C. destruct (lr_dualized _ _ _ _ _ _ H) as (u & Hu & Ux & Uy).
  exact (gaussian_sampler pf u d d k 1 X (map (fun v => [v]) y) Hu eq_refl eq_refl Ux Uy kp C).
Qed.

Print Assumptions C113_gaussian_sampler.

(* Labels are required exactly by the labelled estimators: the losses with labels cannot be called without, and the others not with;
   the wrapper asserts it before calling them. *)
Theorem C113_labels_required :
  (forall wt b xi, lr_call wt b xi None = Raise TypeError) /\ (forall wt b xi, lg_call wt b xi None = Raise TypeError) /\
  (forall wts bs k xi, mc_call wts bs k xi None = Raise TypeError) /\ (forall pos xi, wb_call pos xi None = Raise TypeError) /\
  (forall k u theta xi l, nvd_call k u theta xi (Some l) = Raise TypeError) /\ (forall eta alpha raw tau xi l, pfd_call eta alpha raw tau xi (Some l) = Raise TypeError) /\
  (forall pf a X y d t call ps qs xi, lr_dispatch pf a X y = Ok (FTorch d t) -> w_value call (wrapped_of d ps qs) xi None = Raise AssertionError) /\
  (forall pf a X y d t call ps qs xi, lg_dispatch pf a X y = Ok (FTorch d t) -> w_value call (wrapped_of d ps qs) xi None = Raise AssertionError) /\
  (forall pf a X y d t call ps qs xi, wb_dispatch pf a X y = Ok (FTorch d t) -> w_value call (wrapped_of d ps qs) xi None = Raise AssertionError) /\
  (forall pf a X d t call ps qs xi l, nv_dispatch pf a X = Ok (FTorch d t) -> w_value call (wrapped_of d ps qs) xi (Some l) = Raise AssertionError) /\
  (forall pf a X d t call ps qs xi l, pf_dispatch pf a X = Ok (FTorch d t) -> w_value call (wrapped_of d ps qs) xi (Some l) = Raise AssertionError).
Proof.
  repeat (match goal with |- _ /\ _ => split end); try (intros; reflexivity).
  - intros pf a X y d t call ps qs xi H. destruct (lr_received _ _ _ _ _ _ H) as (_ & Q). unfold w_value, wrapped_of. cbn. rewrite (proj2 (r_labels _ _ _ _ _ _ _ _ _ _ _ Q)) by discriminate. reflexivity.
  - intros pf a X y d t call ps qs xi H. destruct (lg_received _ _ _ _ _ _ H) as (ts & _ & _ & Q). unfold w_value, wrapped_of. cbn. rewrite (proj2 (r_labels _ _ _ _ _ _ _ _ _ _ _ Q)) by discriminate. reflexivity.
  - intros pf a X y d t call ps qs xi H. destruct (wb_received _ _ _ _ _ _ H) as (_ & _ & Q & _). unfold w_value, wrapped_of. cbn. rewrite (proj2 (r_labels _ _ _ _ _ _ _ _ _ _ _ Q)) by discriminate. reflexivity.
  - intros pf a X d t call ps qs xi l H. destruct (nv_received _ _ _ _ _ H) as (_ & _ & Q). unfold w_value, wrapped_of. cbn. destruct (a_has_labels d) eqn:E; [apply (r_labels _ _ _ _ _ _ _ _ _ _ _ Q) in E; congruence|reflexivity].
  - intros pf a X d t call ps qs xi l H. destruct (pf_received _ _ _ _ _ H) as (_ & _ & Q). unfold w_value, wrapped_of. cbn. destruct (a_has_labels d) eqn:E; [apply (r_labels _ _ _ _ _ _ _ _ _ _ _ Q) in E; congruence|reflexivity].
Qed.
Print Assumptions C113_labels_required.

(* Class labels that are not one row of the number of classes per sample are refused by the cross entropy. *)
Theorem C113_class_targets : forall wts bs d (X : list (list R)) t, widths d X -> Tensor.shp t <> [length X; length wts] ->
  mc_call wts bs d (Tensor.batch [length X] d X) (Some t) = Raise RuntimeError.
Proof.
  intros wts bs d X t W N. unfold mc_call, linear, Tensor.batch. cbn [shp]. rewrite last_snoc, Nat.eqb_refl, removelast_snoc. cbn [bind]. unfold cross_entropy. cbn [shp app].
  destruct (list_eq_dec Nat.eq_dec [length X; length wts] (Tensor.shp t)) as [E|_]; [symmetry in E; contradiction|reflexivity].
Qed.
Print Assumptions C113_class_targets.
Example C113_class_targets_case : mc_call [[1]; [0]; [-1]] [0; 0; 0] 1 (Tensor.batch [2%nat] 1 [[1]; [2]]) (Some (Tensor.batch [2%nat] 1 [[1]; [2]])) = Raise RuntimeError.
Proof. apply (C113_class_targets [[1]; [0]; [-1]] [0; 0; 0] 1 [[1]; [2]]); [repeat constructor|discriminate]. Qed.

(* the default Weber problem on two points, with position (2): all hypotheses of C113_weber and of the importance-sampled clause of its
   conclusion *)
Example C113_case : exists d t s,
  wb_dispatch read wb_defaults [[1]; [3]] [2; 5] = Ok (FTorch d t) /\ widths (length [2]) [[1]; [3]] /\ 0 < wb_rho wb_defaults /\
  is_grid 2 2 1 [[[1]; [2]]; [[0]; [4]]] /\ is_grid 2 2 1 [[[2]; [5]]; [[2]; [6]]] /\ (exists e, a_epsilon d = Fin e /\ e <> 0) /\
  a_imp_samp d = true /\ tsampler_of d 1 1 = Some s /\ c_kappa (a_cost d) = Some (Fin 100000000) /\ Forall (Exists (fun a => a <> 0)) [[1]; [-2]].
Proof.
  destruct (C57_weber_linear_logistic_portfolio read [[1]; [3]] eq_refl eq_refl) as (E & _). destruct (E [2; 5]) as (d & Ed & _). clear E.
  destruct (C113_default_cost read [[1]; [3]] [2; 5] d None eq_refl (or_intror (or_intror Ed))) as (I & C & _).
  destruct (wb_dualized _ _ _ _ _ _ Ed) as (u & d0 & Hu & Ux & Uy & Ec & Ei & Es).
  destruct (gaussian_sampler read u d0 d 1 1 [[1]; [3]] (map (fun v => [v]) [2; 5]) Hu Ec Es Ux Uy 100000000 C) as [s S].
  destruct (wb_received _ _ _ _ _ _ Ed) as (_ & _ & Q & _).
  exists d, None, s. split; [exact Ed|]. split; [repeat constructor|]. split; [simpl; lra|].
  split; [split; [reflexivity|]; repeat (apply Forall_cons; [split; [reflexivity|repeat constructor]|]); constructor|].
  split; [split; [reflexivity|]; repeat (apply Forall_cons; [split; [reflexivity|repeat constructor]|]); constructor|].
  split; [exists (1 / 100); split; [apply (r_eps _ _ _ _ _ _ _ _ _ _ _ Q); reflexivity|lra]|]. split; [exact I|]. split; [exact S|]. split.
  - unfold tcost_of in C. destruct (nexp_of _); [|discriminate]. destruct (c_power _); try discriminate. destruct (c_kind _); [discriminate|]. destruct (c_kappa (a_cost d)) as [kk|]; [|discriminate].
    destruct kk; cbn [kap_of] in C; try discriminate. congruence.
  - repeat (apply Forall_cons; [constructor; lra|]). constructor.
Qed.
(* three classes and two, and a portfolio that is not the dedicated one *)
Example C113_classes_case : StronglySorted Z.lt [2; 5; 9]%Z /\ (forall v, In v [5; 2; 9; 5]%Z <-> In v [2; 5; 9]%Z) /\ (forall v, In v [7; 3; 7]%Z <-> v = 3%Z \/ v = 7%Z).
Proof. split; [repeat constructor; lia|]. split; intros v; simpl; intuition. Qed.
