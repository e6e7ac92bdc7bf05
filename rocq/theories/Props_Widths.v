(* C126: what the fitted estimators answer on data with another number of features than they were fitted on. *)
From Coq Require Import Reals List Bool ZArith Arith Lia Lra String.
From Verif Require Import PyBase RList XReal Tensor Loss_Model Loss_Spec Loss_Proofs Estim_Model Estim_Proofs Predict_Model Predict_Proofs.
Import ListNotations.
Local Open Scope R_scope.

(* Logistic regression with two classes, fitted on k features: predict, predict_proba and predict_proba_2Class refuse every matrix
   of another width when k is not 1, or when the dedicated solver was used. *)
Theorem C126_logistic_refuses :
  forall torch w i classes d (X : list (list R)), List.length w <> d -> (torch = false \/ List.length w <> 1%nat) ->
    predict_binary d (coef_of torch w) i classes X = Raise ValueError /\
    predict_proba_binary d (coef_of torch w) i X = Raise ValueError /\
    predict_proba_2class d (coef_of torch w) i X = Raise ValueError.
Proof.
  intros torch w i classes d X N H. unfold predict_binary, predict_proba_binary, predict_proba_2class. unfold vec in *. rewrite (np_dot_width torch w d X N H). auto.
Qed.
Print Assumptions C126_logistic_refuses.

(* More classes: the linear layer refuses. *)
Theorem C126_multiclass_refuses :
  forall weights bias k classes d (X : list (list R)), k <> d ->
    predict_proba_multi weights bias k d X = Raise RuntimeError /\ predict_multi weights bias k d classes X = Raise RuntimeError.
Proof.
  intros weights bias k classes d X N. assert (E : predict_proba_multi weights bias k d X = Raise RuntimeError).
  { unfold predict_proba_multi, linear, batch. cbn [shp]. rewrite last_snoc. apply not_eq_sym, Nat.eqb_neq in N. rewrite N. reflexivity. }
  split; [exact E|]. unfold predict_multi. unfold vec in *. rewrite E. reflexivity.
Qed.
Print Assumptions C126_multiclass_refuses.

(* LinearRegression.predict, and Portfolio.eval with either family of solvers, refuse as well. *)
Theorem C126_linear_refuses : forall d coef b (X : list (list R)), List.length coef <> d -> lr_predict d coef b X = Raise ValueError.
Proof. intros d coef b X N. unfold lr_predict. apply Nat.eqb_neq in N. rewrite N. reflexivity. Qed.
Print Assumptions C126_linear_refuses.

Theorem C126_portfolio_refuses :
  forall solver wd dd eta alpha raw tau coef d (X : list (list R)), X <> [] -> widths d X ->
    (contains "entropic" solver = true /\ List.length raw <> d -> pf_eval solver wd dd eta alpha raw tau coef (batch [List.length X] d X) = Raise RuntimeError) /\
    (List.length coef <> d -> pf_eval "dedicated" wd dd eta alpha raw tau coef (batch [List.length X] d X) = Raise ValueError).
Proof.
  intros solver wd dd eta alpha raw tau coef d X N W. split.
  - intros [H L]. refine (eq_trans (pf_eval_width solver wd dd eta alpha raw tau coef d X N W (or_introl (conj H L))) _).
    destruct (String.eqb solver "dedicated") eqn:E; [apply String.eqb_eq in E; subst; discriminate|reflexivity].
  - intros L. apply (pf_eval_width "dedicated" wd dd eta alpha raw tau coef d X N W). right. auto.
Qed.
Print Assumptions C126_portfolio_refuses.

(* A logistic regression fitted on a single feature by a torch solver keeps a 0-dimensional coefficient a, and X.dot(a) multiplies every
   entry: predict_proba answers on data of every width d, with an array of shape (d, 2n) whose row j holds 1 - p and p for the n
   entries of column j, p = 1/(1+exp(-(a x + b))). predict refuses it as soon as d >= 2, since the labels form no column. *)
Theorem C126_one_feature :
  forall a b c0 c1 d (X : list (list R)), widths d X -> d <> 1%nat ->
    predict_binary d (lg_coef_torch [a]) (Some b) [c0; c1] X = Raise ValueError /\
    exists p, predict_proba_binary d (lg_coef_torch [a]) (Some b) X = Ok p /\ shp p = [d; (2 * List.length X)%nat] /\
      trows p = map (fun j => map (fun x => 1 - 1 / (1 + exp (- (nth j x 0 * a + b)))) X ++ map (fun x => 1 / (1 + exp (- (nth j x 0 * a + b)))) X) (seq 0 d).
Proof.
  intros a b c0 c1 d X W N. split.
  - unfold predict_binary, predict_proba_2class. rewrite np_dot_scalar. cbn [bind]. unfold tmap, addc. cbn [shp].
    destruct d as [|[|d]]; [|contradiction|]; reflexivity.
  - unfold predict_proba_binary. rewrite np_dot_scalar. cbn [bind np_plus]. unfold vstack2_T. unfold tmap at 1, addc at 1. cbn [shp tmap].
    eexists. split; [reflexivity|]. split; [reflexivity|]. 
    set (f := fun x : R => expit (x * a + b)).
    assert (D : dat (tmap expit (addc b (mkT [List.length X; d] (map (fun c => c * a) (List.concat X))))) = map f (List.concat X)).
    { simpl. rewrite !map_map. apply map_ext. intros x. reflexivity. }
    assert (C : forall j, (j < d)%nat -> map (fun i => nth (i * d + j) (dat (tmap expit (addc b (mkT [List.length X; d] (map (fun c => c * a) (List.concat X)))))) 0) (seq 0 (List.length X)) = map (fun x => f (nth j x 0)) X).
    { intros j Hj. rewrite D. assert (G : forall m (Y : list vec), (forall i, (i < List.length Y)%nat -> nth i Y [] = nth (m + i) X []) -> (m + List.length Y <= List.length X)%nat ->
        map (fun i => nth (i * d + j) (map f (List.concat X)) 0) (seq m (List.length Y)) = map (fun x => f (nth j x 0)) Y).
      { intros m Y. revert m. induction Y as [|y Y IH]; intros m HY LY; [reflexivity|]. simpl in LY. cbn [List.length seq map]. f_equal.
        - assert (Hm : (m * d + j < List.length (List.concat X))%nat).
          { rewrite (Tensor.concat_length d X W). assert (M : ((S m) * d <= List.length X * d)%nat) by (apply Nat.mul_le_mono_r; refine (Nat.le_trans _ _ _ _ LY); lia). rewrite Nat.mul_succ_l in M. unfold vec in *. lia. }
          rewrite (nth_indep _ 0 (f 0)) by (rewrite map_length; exact Hm). rewrite map_nth. rewrite (nth_concat_width X d m j W) by (try exact Hj; refine (Nat.le_trans _ _ _ _ LY); lia).
          specialize (HY 0%nat). cbn [nth] in HY. rewrite Nat.add_0_r in HY. rewrite HY by (simpl; lia). reflexivity.
        - apply IH; [|refine (Nat.le_trans _ _ _ _ LY); simpl; lia]. intros i Hi. specialize (HY (S i)). cbn [nth] in HY. rewrite HY by (simpl; lia). f_equal. lia. }
      apply (G 0%nat X); [reflexivity|apply Nat.le_refl]. }
    match goal with |- trows (mkT _ ?l) = ?r => assert (E : l = List.concat r) end.
    { rewrite flat_map_concat_map. f_equal. apply map_ext_in. intros j Hj. apply in_seq in Hj. unfold batch. simpl shp. cbn [shp] in C. rewrite C by lia. rewrite map_map. reflexivity. }
    rewrite E. clear E C D. refine (eq_trans _ (trows_batch [d] (2 * List.length X) _ _ _)).
    + reflexivity.
    + unfold widths. rewrite Forall_map, Forall_forall. intros j _. rewrite app_length, !map_length. lia.
    + simpl. rewrite map_length, seq_length. lia.
Qed.
Print Assumptions C126_one_feature.

Theorem C126_one_feature_refuted :
  exists w b d (X : list (list R)) p, widths d X /\ List.length w <> d /\ predict_proba_binary d (lg_coef_torch w) (Some b) X = Ok p.
Proof.
  destruct (C126_one_feature 1 0 0 1 2 [[1; 2]] ltac:(repeat constructor) ltac:(discriminate)) as (_ & p & E & _).
  exists [1], 0, 2%nat, [[1; 2]], p. split; [repeat constructor|]. split; [discriminate|exact E].
Qed.
Print Assumptions C126_one_feature_refuted.

(* NewsVendor.eval has one parameter and no notion of width: whatever the training data, a matrix of d columns is answered with the mean of
   k theta - u min(theta, x) over all its entries *)
Theorem C126_newsvendor_answers :
  forall solver k u theta d (X : list (list R)), contains "entropic" solver = true \/ solver = "dedicated"%string -> (0 < d)%nat -> X <> [] -> widths d X ->
    nv_eval solver k u theta (batch [List.length X] d X) = Ok (rmean (map (fun x => k * theta - u * Rmin theta x) (List.concat X))).
Proof.
  intros solver k u theta d X S D N W. rewrite concat_map.
  assert (W' : widths d (map (map (fun x => k * theta - u * Rmin theta x)) X)).
  { unfold widths in *. rewrite Forall_map. refine (Forall_impl _ _ W). intros x. rewrite map_length. auto. }
  assert (N' : map (map (fun x => k * theta - u * Rmin theta x)) X <> []) by (destruct X; [contradiction|discriminate]).
  rewrite (rmean_concat d), map_map by assumption.
  destruct S as [S| ->]; [apply nv_eval_torch; assumption|apply nv_eval_dedicated; assumption].
Qed.
Print Assumptions C126_newsvendor_answers.

Example C126_logistic_refuses_case : predict_binary 3 (coef_of true [1; 2]) (Some 0) [0; 1]%Z [[1; 2; 3]] = Raise ValueError.
Proof. apply (C126_logistic_refuses true [1; 2] (Some 0) [0; 1]%Z 3 [[1; 2; 3]]); [discriminate|right; discriminate]. Qed.
Example C126_one_feature_dedicated_case : predict_proba_binary 2 (coef_of false [5]) (Some 0) [[1; 2]] = Raise ValueError.
Proof. apply (C126_logistic_refuses false [5] (Some 0) [0; 1]%Z 2 [[1; 2]]); [discriminate|left; reflexivity]. Qed.
Example C126_multiclass_refuses_case : predict_multi [[1]; [0]; [-1]] [0; 0; 0] 1 2 [4; 6; 8]%Z [[3; 1]] = Raise RuntimeError.
Proof. apply (C126_multiclass_refuses [[1]; [0]; [-1]] [0; 0; 0] 1 [4; 6; 8]%Z 2 [[3; 1]]). discriminate. Qed.
Example C126_linear_refuses_case : lr_predict 3 [1; 2] 0 [[1; 2; 3]] = Raise ValueError.
Proof. apply (C126_linear_refuses 3 [1; 2] 0 [[1; 2; 3]]). discriminate. Qed.
Example C126_portfolio_refuses_case :
  pf_eval "entropic_torch" F64 F64 0 1 [0; 0] 0 [] (batch [1%nat] 3 [[1; 2; 3]]) = Raise RuntimeError /\
  pf_eval "dedicated" F64 F64 0 1 [] 0 [1; 0] (batch [1%nat] 3 [[1; 2; 3]]) = Raise ValueError.
Proof.
  split.
  - apply (C126_portfolio_refuses "entropic_torch" F64 F64 0 1 [0; 0] 0 [] 3 [[1; 2; 3]]); [discriminate|repeat constructor|split; [reflexivity|discriminate]].
  - apply (C126_portfolio_refuses "entropic_torch" F64 F64 0 1 [] 0 [1; 0] 3 [[1; 2; 3]]); [discriminate|repeat constructor|discriminate].
Qed.
(* two samples of three features against a model of one: probabilities come back in shape (3, 4) *)
Example C126_one_feature_case : exists p, predict_proba_binary 3 (lg_coef_torch [2]) (Some 1) [[0; 1; 2]; [3; 4; 5]] = Ok p /\ shp p = [3%nat; 4%nat].
Proof.
  destruct (C126_one_feature 2 1 0 1 3 [[0; 1; 2]; [3; 4; 5]] ltac:(repeat constructor) ltac:(discriminate)) as (_ & p & E & S & _). exists p. split; [exact E|exact S].
Qed.
Example C126_newsvendor_answers_case : nv_eval "dedicated" 5 7 1 (batch [1%nat] 2 [[0; 2]]) = Ok (3 / 2).
Proof.
  refine (eq_trans (C126_newsvendor_answers "dedicated" 5 7 1 2 [[0; 2]] (or_intror eq_refl) _ _ _) _); [lia|discriminate|repeat constructor|].
  f_equal. unfold rmean. simpl. rewrite (Rmin_right 1 0), (Rmin_left 1 2) by lra. lra.
Qed.
