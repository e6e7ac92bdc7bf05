(* C129: does score rank fitted models by the objective they were trained for? *)
From Coq Require Import Reals List Bool ZArith Arith Lia Lra String.
From Verif Require Import PyBase RList XReal Tensor Loss_Model Loss_Spec Loss_Proofs Estim_Model Estim_Proofs Predict_Model Predict_Proofs Score_Model Props_Estim Props_Widths.
Import ListNotations.
Local Open Scope R_scope.

(* NewsVendor, any two fitted models and any of the solvers: the one with the smaller mean loss has the larger score. *)
Theorem C129_newsvendor :
  forall solver solver' k u t t' d (X : list (list R)), (contains "entropic" solver = true \/ solver = "dedicated"%string) -> (contains "entropic" solver' = true \/ solver' = "dedicated"%string) ->
    (0 < d)%nat -> X <> [] -> widths d X ->
    let loss t := rmean (map (fun x => k * t - u * Rmin t x) (List.concat X)) in
    exists s s', nv_score solver k u t (batch [List.length X] d X) = Ok s /\ nv_score solver' k u t' (batch [List.length X] d X) = Ok s' /\ (s <= s' <-> loss t' <= loss t).
Proof.
  intros solver solver' k u t t' d X S S' D N W loss. exists (- loss t), (- loss t'). unfold nv_score. rewrite !C126_newsvendor_answers by assumption. split; [reflexivity|]. split; [reflexivity|]. lra.
Qed.
Print Assumptions C129_newsvendor.

(* Portfolio trained by a torch solver: minus the mean-risk objective at the weights and threshold found. *)
Theorem C129_portfolio_torch :
  forall solver dt eta alpha raw raw' tau tau' coef coef' (X : list (list R)), contains "entropic" solver = true -> List.length raw' = List.length raw -> widths (List.length raw) X ->
    let objective raw tau := rmean (map (fun x => - dot (softmax raw) x + eta * (tau + Rmax (- dot (softmax raw) x - tau) 0 / alpha)) X) in
    exists s s', pf_score solver dt dt eta alpha raw tau coef (batch [List.length X] (List.length raw) X) = Ok s /\
                 pf_score solver dt dt eta alpha raw' tau' coef' (batch [List.length X] (List.length raw) X) = Ok s' /\ (s <= s' <-> objective raw' tau' <= objective raw tau).
Proof.
  intros solver dt eta alpha raw raw' tau tau' coef coef' X H L W objective. exists (- objective raw tau), (- objective raw' tau'). unfold pf_score.
  rewrite C81_portfolio_torch by assumption. split; [reflexivity|]. split; [|lra]. rewrite <- L in W |- *. rewrite C81_portfolio_torch by assumption. reflexivity.
Qed.
Print Assumptions C129_portfolio_torch.

(* Portfolio, dedicated solver: the score is the mean return, so of two portfolios the one with the worse mean-risk objective can have the
   better score. *)
Theorem C129_portfolio_dedicated :
  forall wd dd eta alpha raw tau coef d (X : list (list R)), widths d X -> List.length coef = d -> X <> [] ->
    pf_score "dedicated" wd dd eta alpha raw tau coef (batch [List.length X] d X) = Ok (rmean (map (fun x => dot coef x) X)).
Proof.
  intros wd dd eta alpha raw tau coef d X W L N. unfold pf_score. rewrite C81_portfolio_dedicated by assumption. cbn [bind]. f_equal.
  rewrite <- (map_map (fun x => dot coef x) (fun a => - a)). unfold rmean. rewrite map_length. replace (fun a => - a) with (fun a => -1 * a) by (apply FunctionalExtensionality.functional_extensionality; intros; ring).
  rewrite rsum_scal. unfold Rdiv. ring.
Qed.
Print Assumptions C129_portfolio_dedicated.
Theorem C129_portfolio_dedicated_refuted :
  exists eta alpha c c' (X : list (list R)) s s', 0 < eta /\ 0 < alpha <= 1 /\ widths 2 X /\ (forall a, In a c \/ In a c' -> 0 <= a) /\ rsum c = 1 /\ rsum c' = 1 /\
    pf_score "dedicated" F64 F64 eta alpha [] 0 c (batch [List.length X] 2 X) = Ok s /\ pf_score "dedicated" F64 F64 eta alpha [] 0 c' (batch [List.length X] 2 X) = Ok s' /\ s' < s /\
    exists tau', forall tau, rmean (map (fun x => - dot c' x + eta * (tau' + Rmax (- dot c' x - tau') 0 / alpha)) X) < rmean (map (fun x => - dot c x + eta * (tau + Rmax (- dot c x - tau) 0 / alpha)) X).
Proof.
  exists 2, (1 / 2), [0; 1], [1; 0], [[0; 3]; [0; -1]]. eexists _, _. split; [lra|]. split; [lra|]. split; [repeat constructor|].
  split; [intros a; simpl; intuition; subst; lra|]. split; [simpl; lra|]. split; [simpl; lra|].
  split; [apply C129_portfolio_dedicated; [repeat constructor|reflexivity|discriminate]|]. split; [apply C129_portfolio_dedicated; [repeat constructor|reflexivity|discriminate]|].
  unfold rmean, dot. simpl. split; [lra|]. exists 0. intros tau. rewrite (Rmax_left (- (1 * 0 + (0 * 3 + 0)) - 0) 0), (Rmax_left (- (1 * 0 + (0 * -1 + 0)) - 0) 0) by lra.
  unfold Rmax. repeat destruct (Rle_dec _ _); lra.
Qed.
Print Assumptions C129_portfolio_dedicated_refuted.

(* Weber: no fitted model has a score. *)
Theorem C129_weber_raises :
  forall pf a X y d t l2 pos T, wb_dispatch pf a X y = Ok (FTorch d t) ->
    wb_score (wb_solver_name a) l2 pos T = Raise (if contains "entropic" (wb_solver_name a) then AssertionError else ValueError).
Proof. intros pf a X y d t l2 pos T H. unfold wb_score. rewrite (C81_weber_eval pf a X y d t l2 pos T H). reflexivity. Qed.
Print Assumptions C129_weber_raises.

(* LinearRegression: at least two samples. On targets that are not all equal the ranking is that of the mean squared errors, the score
   is at most 1, and it is 1 exactly when all predictions are right. *)
Definition sqerr (b : R) (w : list R) (X : list (list R)) (y : list R) : R := rsum (map2 (fun x v => (v - (b + dot x w)) * (v - (b + dot x w))) X y).
Lemma sq_nonneg l : Forall (fun x => 0 <= x) (map (fun a : R => a * a) l).
Proof. apply Forall_map, Forall_forall. intros a _. pose proof (Rle_0_sqr a). unfold Rsqr in *. lra. Qed.
Lemma map2_sq (f : list R -> R -> R) X y : map2 (fun x v => f x v * f x v) X y = map (fun a => a * a) (map2 f X y).
Proof. rewrite map_map2. reflexivity. Qed.
Lemma lr_residuals d w b (X : list (list R)) y p : lr_predict d w b X = Ok p -> List.length p = List.length X /\ rsum (map2 (fun a c => (a - c) * (a - c)) y p) = sqerr b w X y.
Proof.
  unfold lr_predict. destruct (List.length w =? d)%nat; [|discriminate]. intros H. injection H as <-. split; [apply map_length|]. unfold sqerr. rewrite map2_map_r. rewrite map2_comm. reflexivity.
Qed.
Lemma sqerr_nonneg b w X y : 0 <= sqerr b w X y.
Proof. unfold sqerr. rewrite (map2_sq (fun x v => v - (b + dot x w))). apply rsum_nonneg, sq_nonneg. Qed.
Lemma spread_zero (y : list R) m : rsum (map (fun a => (a - m) * (a - m)) y) = 0 -> forall a, In a y -> a = m.
Proof.
  intros H a Ha. rewrite <- (map_map (fun a => a - m) (fun a => a * a)) in H. apply rsum_zero_nonneg in H; [|apply sq_nonneg]. rewrite Forall_map, Forall_map, Forall_forall in H. specialize (H a Ha).
  apply Rmult_integral in H. lra.
Qed.

Theorem C129_linear :
  forall d w b w' b' (X : list (list R)) y, List.length w = d -> List.length w' = d -> List.length X = List.length y -> (exists a c, In a y /\ In c y /\ a <> c) ->
    exists s s', lr_score d w b X y = Ok (Fin s) /\ lr_score d w' b' X y = Ok (Fin s') /\ (s <= s' <-> sqerr b' w' X y <= sqerr b w X y) /\
      s <= 1 /\ (s = 1 <-> Forall2 (fun x v => b + dot x w = v) X y).
Proof.
  intros d w b w' b' X y Lw Lw' L (a & c & Ha & Hc & N).
  assert (L2 : (List.length y <? 2)%nat = false).
  { apply Nat.ltb_ge. destruct y as [|v [|v' y]]; [contradiction| |simpl; lia]. destruct Ha as [<-|[]], Hc as [<-|[]]. congruence. }
  set (D := rsum (map (fun a => (a - rmean y) * (a - rmean y)) y)).
  assert (HD : 0 < D).
  { assert (0 <= D) by (unfold D; rewrite <- (map_map (fun a => a - rmean y) (fun a => a * a)); apply rsum_nonneg, sq_nonneg).
    destruct (Req_dec D 0) as [E|]; [|lra]. exfalso. apply N. pose proof (spread_zero y (rmean y) E) as K. rewrite (K a Ha), (K c Hc). reflexivity. }
  assert (G : forall w b, List.length w = d -> lr_score d w b X y = Ok (Fin (1 - sqerr b w X y / D))).
  { clear w b w' b' Lw Lw'. intros w b Lw. unfold lr_score. assert (E : exists p, lr_predict d w b X = Ok p) by (unfold lr_predict; rewrite Lw, Nat.eqb_refl; eexists; reflexivity).
    destruct E as [p E]. rewrite E. cbn [bind]. destruct (lr_residuals d w b X y p E) as [Lp Q]. unfold r2_score. assert (Ly : List.length y = List.length p) by (rewrite Lp; symmetry; exact L). rewrite Ly, Nat.eqb_refl. cbn [negb]. rewrite <- Ly, L2, Q. fold D.
    destruct (Reqb (sqerr b w X y) 0) eqn:Z; [apply Reqb_true in Z; rewrite Z; do 2 f_equal; field; lra|]. assert (ZD : Reqb D 0 = false) by (apply Reqb_false; lra). rewrite ZD. reflexivity. }
  exists (1 - sqerr b w X y / D), (1 - sqerr b' w' X y / D). split; [apply G; exact Lw|]. split; [apply G; exact Lw'|]. pose proof (sqerr_nonneg b w X y) as P.
  assert (I : 0 < / D) by (apply Rinv_0_lt_compat; exact HD). unfold Rdiv. split; [|split].
  - split; intros H.
    + apply (Rmult_le_reg_r (/ D)); lra.
    + apply (Rmult_le_compat_r (/ D)) in H; lra.
  - assert (0 <= sqerr b w X y * / D) by (apply Rmult_le_pos; lra). lra.
  - split; intros H.
    + assert (Z : sqerr b w X y * / D = 0) by lra. apply Rmult_integral in Z as [Z|Z]; [|lra]. unfold sqerr in Z. rewrite (map2_sq (fun x v => v - (b + dot x w))) in Z.
      apply rsum_zero_nonneg in Z; [|apply sq_nonneg]. rewrite Forall_map in Z. clear -Z L. revert y Z L. induction X as [|x X IH]; intros [|v y] Z L; try discriminate; constructor.
      * inversion Z as [|? ? Zv _]; subst. apply Rmult_integral in Zv. lra.
      * apply IH; [inversion Z; assumption|simpl in L; lia].
    + assert (Z : sqerr b w X y = 0); [|rewrite Z; ring]. clear -H. induction H as [|x v X y E H IH]; [reflexivity|]. unfold sqerr in *. cbn [map2 rsum]. cbn. rewrite IH, E. ring.
Qed.
Print Assumptions C129_linear.

(* equal targets: 1 for exact predictions and 0 for all others, however close *)
Theorem C129_linear_constant_targets :
  forall d w b (X : list (list R)) y, List.length w = d -> List.length X = List.length y -> (2 <= List.length y)%nat -> (forall a c, In a y -> In c y -> a = c) ->
    lr_score d w b X y = Ok (Fin (if Req_EM_T (sqerr b w X y) 0 then 1 else 0)).
Proof.
  intros d w b X y Lw L L2 H. unfold lr_score. assert (E : exists p, lr_predict d w b X = Ok p) by (unfold lr_predict; rewrite Lw, Nat.eqb_refl; eexists; reflexivity).
  destruct E as [p E]. rewrite E. cbn [bind]. destruct (lr_residuals d w b X y p E) as [Lp Q]. unfold r2_score. assert (Ly : List.length y = List.length p) by (rewrite Lp; symmetry; exact L). rewrite Ly, Nat.eqb_refl. cbn [negb]. rewrite <- Ly.
  apply Nat.ltb_ge in L2. rewrite L2, Q. unfold Reqb. destruct (Req_EM_T (sqerr b w X y) 0); [reflexivity|].
  destruct y as [|v y]; [discriminate|]. assert (M : rmean (v :: y) = v).
  { assert (A : map (fun _ => v) (v :: y) = v :: y) by (rewrite <- (map_id (v :: y)) at 2; apply map_ext_in; intros a Ha; apply H; [left; reflexivity|exact Ha]).
    rewrite <- A at 1. apply rmean_map_const. discriminate. }
  rewrite M. assert (D : rsum (map (fun a => (a - v) * (a - v)) (v :: y)) = 0).
  { rewrite (map_ext_in _ (fun _ => 0)); [rewrite rsum_map_const; ring|]. intros a Ha. rewrite (H a v Ha (or_introl eq_refl)). ring. }
  rewrite D. destruct (Req_EM_T 0 0); [reflexivity|lra].
Qed.
Print Assumptions C129_linear_constant_targets.

(* LogisticRegression: the score is the fraction of samples on the right side, between 0 and 1, ... *)
Definition hits (c0 c1 : Z) (w : list R) (i : option R) (X : list (list R)) (y : list Z) : list R :=
  map2 (fun v x => if (v =? (if Rle_dec 0 (dot w x + match i with Some b => b | None => 0 end) then c1 else c0))%Z then 1 else 0) y X.
Theorem C129_logistic :
  forall torch w i c0 c1 (X : list (list R)) y, widths (List.length w) X -> X <> [] -> List.length y = List.length X ->
    exists s, lg_score (List.length w) (coef_of torch w) i [c0; c1] X y = Ok s /\ s = rmean (hits c0 c1 w i X y) /\ 0 <= s <= 1.
Proof.
  intros torch w i c0 c1 X y W N L. exists (rmean (hits c0 c1 w i X y)). split; [|split; [reflexivity|]].
  - unfold lg_score. rewrite C54_predict by exact W. cbn [bind snd]. unfold accuracy_score. rewrite map_length, L, Nat.eqb_refl. unfold hits. rewrite map2_map_r. reflexivity.
  - assert (B : Forall (fun a => 0 <= a <= 1) (hits c0 c1 w i X y)).
    { clear. revert y. unfold hits. induction X as [|x X IH]; intros [|v y]; cbn [map2]; constructor; [|apply IH]. destruct (_ =? _)%Z; lra. }
    assert (Nh : hits c0 c1 w i X y <> []) by (unfold hits; destruct X, y; simpl in *; congruence).
    set (l := hits c0 c1 w i X y) in *. clearbody l. assert (S : 0 <= rsum l <= INR (List.length l)).
    { clear Nh. induction B as [|a l Ha B IH]; cbn [rsum List.length]; [simpl; lra|]. rewrite S_INR. simpl. lra. }
    pose proof (INR_length_pos l Nh) as P. unfold rmean. split; [apply Rle_mult_inv_pos; lra|]. apply (Rmult_le_reg_r (INR (List.length l))); [exact P|]. unfold Rdiv. rewrite Rmult_assoc, Rinv_l; lra.
Qed.
Print Assumptions C129_logistic.

(* ... and a model with the smaller logistic loss can have the smaller score: weights (ln 4, - ln 2) and (0, 0) on two samples of class 1. *)
Definition logistic_loss (w : list R) (i : option R) (X : list (list R)) (targets : list R) : R :=
  rmean (map2 (fun x t => ln (1 + exp (- (t * (dot w x + match i with Some b => b | None => 0 end))))) X targets).
Theorem C129_logistic_refuted :
  exists w w' (X : list (list R)) s s', widths 2 X /\ List.length w = 2%nat /\ List.length w' = 2%nat /\
    lg_score 2 (coef_of true w) None [0; 1]%Z X [1; 1]%Z = Ok s /\ lg_score 2 (coef_of true w') None [0; 1]%Z X [1; 1]%Z = Ok s' /\
    logistic_loss w None X [1; 1] < logistic_loss w' None X [1; 1] /\ s < s'.
Proof.
  assert (L2 : 0 < ln 2) by (rewrite <- ln_1; apply ln_increasing; lra). assert (L4 : 0 < ln 4) by (rewrite <- ln_1; apply ln_increasing; lra).
  exists [ln 4; - ln 2], [0; 0], [[1; 0]; [0; 1]].
  destruct (C129_logistic true [ln 4; - ln 2] None 0 1 [[1; 0]; [0; 1]] [1; 1]%Z) as (s & E & V & _); [repeat constructor|discriminate|reflexivity|].
  destruct (C129_logistic true [0; 0] None 0 1 [[1; 0]; [0; 1]] [1; 1]%Z) as (s' & E' & V' & _); [repeat constructor|discriminate|reflexivity|].
  exists s, s'. split; [repeat constructor|]. split; [reflexivity|]. split; [reflexivity|]. split; [exact E|]. split; [exact E'|]. split.
  - unfold logistic_loss, rmean, dot. simpl.
    replace (- (1 * (ln 4 * 1 + (- ln 2 * 0 + 0) + 0))) with (- ln 4) by ring. replace (- (1 * (ln 4 * 0 + (- ln 2 * 1 + 0) + 0))) with (ln 2) by ring.
    replace (- (1 * (0 * 1 + (0 * 0 + 0) + 0))) with 0 by ring. replace (- (1 * (0 * 0 + (0 * 1 + 0) + 0))) with 0 by ring.
    rewrite exp_Ropp, !exp_ln, exp_0 by lra. apply Rmult_lt_compat_r; [lra|].
    replace (ln (1 + / 4) + (ln (1 + 2) + 0)) with (ln ((1 + / 4) * (1 + 2))) by (rewrite ln_mult by lra; ring). replace (ln (1 + 1) + (ln (1 + 1) + 0)) with (ln ((1 + 1) * (1 + 1))) by (rewrite ln_mult by lra; ring).
    apply ln_increasing; lra.
  - rewrite V, V'. unfold hits, rmean, dot. simpl. repeat destruct (Rle_dec _ _); simpl; lra.
Qed.
Print Assumptions C129_logistic_refuted.

Example C129_newsvendor_case : exists s s', nv_score "dedicated" 5 7 1 (batch [2%nat] 1 [[3]; [4]]) = Ok s /\ nv_score "entropic_torch" 5 7 2 (batch [2%nat] 1 [[3]; [4]]) = Ok s' /\ s <= s'.
Proof.
  destruct (C129_newsvendor "dedicated" "entropic_torch" 5 7 1 2 1 [[3]; [4]]) as (s & s' & E & E' & H); [auto|left; reflexivity|lia|discriminate|repeat constructor|].
  exists s, s'. split; [exact E|]. split; [exact E'|]. apply H. unfold rmean. simpl. rewrite !Rmin_left by lra. lra.
Qed.
Example C129_linear_case : exists s, lr_score 1 [2] 1 [[0]; [1]; [2]] [1; 3; 5] = Ok (Fin s) /\ s = 1.
Proof.
  destruct (C129_linear 1 [2] 1 [0] 0 [[0]; [1]; [2]] [1; 3; 5]) as (s & s' & E & _ & _ & _ & H); [reflexivity|reflexivity|reflexivity|exists 1, 3; simpl; repeat split; auto; lra|].
  exists s. split; [exact E|]. apply H. unfold dot. repeat constructor; simpl; lra.
Qed.
Example C129_linear_constant_case : lr_score 1 [1 / 1000] 3 [[0]; [1]] [3; 3] = Ok (Fin 0).
Proof.
  rewrite C129_linear_constant_targets by (try reflexivity; try (simpl; lia); simpl; intuition; congruence). unfold sqerr, dot. simpl. destruct (Req_EM_T _ _); [lra|reflexivity].
Qed.
Example C129_logistic_case : exists s, lg_score 1 (coef_of false [1]) (Some (-1)) [0; 7]%Z [[0]; [2]; [3]] [0; 7; 0]%Z = Ok s /\ s = 2 / 3.
Proof.
  destruct (C129_logistic false [1] (Some (-1)) 0 7 [[0]; [2]; [3]] [0; 7; 0]%Z) as (s & E & V & _); [repeat constructor|discriminate|reflexivity|]. exists s. split; [exact E|].
  rewrite V. unfold hits, rmean, dot. simpl. repeat destruct (Rle_dec _ _); simpl; lra.
Qed.
Theorem C129_weber_refuted : exists a X y d T, wb_dispatch read a X y = Ok (FTorch d None) /\ wb_score (wb_solver_name a) 0 [0; 0] T = Raise AssertionError.
Proof.
  destruct C81_weber_refuted as (a & X & y & d & l2 & pos & T & H & E). exists a, X, y, d, (mkT [1%nat; 2%nat] [1; 2]). split; [exact H|].
  pose proof (C129_weber_raises read a X y d None 0 [0; 0] (mkT [1%nat; 2%nat] [1; 2]) H) as Q. rewrite Q. rewrite (C81_weber_eval read a X y d None l2 pos T H) in E. destruct (contains "entropic" (wb_solver_name a)); [reflexivity|discriminate].
Qed.
Print Assumptions C129_weber_refuted.
Example C129_portfolio_torch_case : exists s s', pf_score "entropic_torch" F32 F32 0 1 [0] 0 [1] (batch [1%nat] 1 [[5]]) = Ok s /\ pf_score "entropic_torch" F32 F32 0 1 [3] 4 [1] (batch [1%nat] 1 [[5]]) = Ok s' /\ s <= s'.
Proof.
  destruct (C129_portfolio_torch "entropic_torch" F32 0 1 [0] [3] 0 4 [1] [1] [[5]]) as (s & s' & E & E' & H); [reflexivity|reflexivity|repeat constructor|].
  exists s, s'. split; [exact E|]. split; [exact E'|]. apply H. unfold softmax, rmean, dot. simpl. replace (exp 0 / (exp 0 + 0)) with 1 by (field; pose proof (exp_pos 0); lra).
  replace (exp 3 / (exp 3 + 0)) with 1 by (field; pose proof (exp_pos 3); lra). lra.
Qed.
