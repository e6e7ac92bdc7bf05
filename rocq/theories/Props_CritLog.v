(* C157: over a critical radius robust logistic regression does not look at the features. *)
From Coq Require Import Reals List Lra Lia Psatz.
From Verif Require Import PyBase RList XReal Costs_Model Costs_Proofs Transport_Spec Transport_Proofs DedProg_Model DedProg_Spec DedLog_Proofs DedPf_Proofs CritLog_Proofs.
Import ListNotations.
Local Open Scope R_scope.

(* ---------- spec ---------- *)
Definition labelled (d : nat) (data : list (vec * R)) : Prop :=
  data <> [] /\ Forall (fun z : vec * R => length (fst z) = d) data /\ Forall (fun z : vec * R => snd z = 1 \/ snd z = -1) data.
Definition is1 (y : R) : R := if Rlt_dec 0 y then 1 else 0.
(* share of the label 1 *)
Definition share (data : list (vec * R)) : R := rmean (map (fun z => is1 (snd z)) data).
(* covariance of the features with the indicator of the label 1; average of label * features *)
Definition covariance (d : nat) (data : list (vec * R)) : vec := vaverage d (fun y => is1 y - share data) data.
Definition signed_mean (d : nat) (data : list (vec * R)) : vec := vaverage d (fun y => y) data.
(* the loss of the best constant model *)
Definition entropy (p : R) : R := - (p * ln p) - (1 - p) * ln (1 - p).
(* the worst case of the logistic loss over all plans that move the features by rho in the mean square is at most c *)
Definition worst_sq_le (d : nat) (rho : R) (data : list (vec * R)) (beta : vec) (b c : R) : Prop :=
  tworst_le feature_sq (feature_only d) data (rho * rho) (log_loss beta b) c.
(* no linear model has a smaller worst case than c *)
Definition hopeless (d : nat) (rho : R) (data : list (vec * R)) (models : vec -> R -> Prop) (c : R) : Prop :=
  forall beta b v, length beta = d -> models beta b -> worst_sq_le d rho data beta b v -> c <= v.
(* the means of the two classes *)
Definition class_means (d : nat) (data : list (vec * R)) (m1 m0 : vec) : Prop :=
  length m1 = d /\ length m0 = d /\ forall h, length h = d ->
    rmean (map (fun z => is1 (snd z) * dot (fst z) h) data) = share data * dot m1 h /\
    rmean (map (fun z => (1 - is1 (snd z)) * dot (fst z) h) data) = (1 - share data) * dot m0 h.

(* ---------- averages ---------- *)
Lemma vaverage_ext d r r' data : (forall z, In z data -> r (snd z) = r' (snd z)) -> vaverage d r data = vaverage d r' data.
Proof.
  intros E. unfold vaverage. f_equal. induction data as [|z l IH]; [reflexivity|]. simpl. rewrite (E z (or_introl eq_refl)), IH; [reflexivity|].
  intros z' I. apply E. right. exact I.
Qed.
Lemma vscal_vadd c (x y : vec) : vscal c (vadd x y) = vadd (vscal c x) (vscal c y).
Proof. unfold vscal, vadd. revert y. induction x as [|a x IH]; intros [|b y]; simpl; try reflexivity. f_equal; [ring|apply IH]. Qed.
Lemma vscal_vscal a c (x : vec) : vscal a (vscal c x) = vscal (a * c) x.
Proof. unfold vscal. rewrite map_map. apply map_ext. intros; ring. Qed.
Lemma vtotal_scal d c r data : vtotal d (fun y => c * r y) data = vscal c (vtotal d r data).
Proof.
  induction data as [|z l IH]; simpl.
  - unfold vscal. clear. induction d as [|d IH]; simpl; [reflexivity|]. rewrite <- IH. f_equal. ring.
  - rewrite IH, vscal_vadd, vscal_vscal. reflexivity.
Qed.
Lemma vaverage_scal d c r data : vaverage d (fun y => c * r y) data = vscal c (vaverage d r data).
Proof. unfold vaverage. rewrite vtotal_scal, !vscal_vscal. f_equal. ring. Qed.

Lemma is1_label y : y = 1 \/ y = -1 -> is1 y = (y + 1) / 2.
Proof. intros [-> | ->]; unfold is1; destruct (Rlt_dec _ _); lra. Qed.

Section Share.
Variables (d : nat) (data : list (vec * R)).
Hypothesis L : labelled d data.
Let P := share data.
Hypothesis HP : 0 < P < 1.
Let s0 := ln (P / (1 - P)).

Lemma split_mean (a b : R) : rmean (map (fun z => if Rlt_dec 0 (snd z) then a else b) data) = P * a + (1 - P) * b.
Proof.
  rewrite (map_ext _ (fun z => (a - b) * is1 (snd z) + b)) by (intros z; unfold is1; destruct (Rlt_dec _ _); ring).
  rewrite (rmean_map_plus (fun z : vec * R => (a - b) * is1 (snd z)) (fun _ => b)), rmean_map_scal, rmean_map_const by apply L. fold (share data). fold P. ring.
Qed.
Lemma exp_s0 : exp s0 = P / (1 - P).
Proof. unfold s0. apply exp_ln. apply Rdiv_lt_0_compat; lra. Qed.
Lemma exp_ms0 : exp (- s0) = (1 - P) / P.
Proof. rewrite exp_Ropp, exp_s0. field. lra. Qed.
Lemma pulls_share z : In z data -> pulls s0 (snd z) = is1 (snd z) - P.
Proof.
  intros I. destruct L as (_ & _ & Ly). rewrite Forall_forall in Ly. unfold pulls, sig, is1. destruct (Ly z I) as [-> | ->].
  - destruct (Rlt_dec 0 1); [|lra]. replace (- (1 * s0)) with (- s0) by ring. rewrite exp_ms0. field. lra.
  - destruct (Rlt_dec 0 (-1)); [lra|]. replace (- (-1 * s0)) with s0 by ring. rewrite exp_s0. field. lra.
Qed.
Lemma share_V : rmean (map (fun z => pulls s0 (snd z) * pulls s0 (snd z)) data) = P * (1 - P).
Proof.
  rewrite (map_ext_in _ (fun z => if Rlt_dec 0 (snd z) then (1 - P) * (1 - P) else P * P)).
  - rewrite split_mean. ring.
  - intros z I. rewrite pulls_share by exact I. unfold is1. destruct (Rlt_dec _ _); ring.
Qed.
Lemma share_M : rmean (map (fun z => pulls s0 (snd z)) data) = 0.
Proof.
  rewrite (map_ext_in _ (fun z => if Rlt_dec 0 (snd z) then 1 - P else - P)).
  - rewrite split_mean. ring.
  - intros z I. rewrite pulls_share by exact I. unfold is1. destruct (Rlt_dec _ _); ring.
Qed.
Lemma share_H : rmean (map (fun z => cp_logistic (- (snd z * s0))) data) = entropy P.
Proof.
  rewrite (map_ext_in _ (fun z => if Rlt_dec 0 (snd z) then - ln P else - ln (1 - P))).
  - rewrite split_mean. unfold entropy. ring.
  - intros z I. destruct L as (_ & _ & Ly). rewrite Forall_forall in Ly. unfold cp_logistic. destruct (Ly z I) as [-> | ->].
    + destruct (Rlt_dec 0 1); [|lra]. replace (- (1 * s0)) with (- s0) by ring. rewrite exp_ms0. replace (1 + (1 - P) / P) with (/ P) by (field; lra). apply ln_Rinv. lra.
    + destruct (Rlt_dec 0 (-1)); [lra|]. replace (- (-1 * s0)) with s0 by ring. rewrite exp_s0. replace (1 + P / (1 - P)) with (/ (1 - P)) by (field; lra). apply ln_Rinv. lra.
Qed.
Lemma share_g : vaverage d (pulls s0) data = covariance d data.
Proof. unfold covariance. apply vaverage_ext. intros z I. apply pulls_share. exact I. Qed.
End Share.

Lemma zero_pulls y : pulls 0 y = / 2 * y.
Proof. unfold pulls, sig. rewrite Rmult_0_r, Ropp_0, exp_0. field. Qed.
Lemma zero_g d data : vaverage d (pulls 0) data = vscal (/ 2) (signed_mean d data).
Proof. unfold signed_mean. rewrite <- vaverage_scal. apply vaverage_ext. intros z _. apply zero_pulls. Qed.
Lemma zero_V d data : labelled d data -> rmean (map (fun z => pulls 0 (snd z) * pulls 0 (snd z)) data) = / 4.
Proof.
  intros (Hd & _ & Ly). rewrite (map_ext_in _ (fun _ => / 4)); [apply rmean_map_const; exact Hd|]. intros z I. rewrite zero_pulls. rewrite Forall_forall in Ly. destruct (Ly z I) as [-> | ->]; field.
Qed.
Lemma zero_H d data : labelled d data -> rmean (map (fun z : vec * R => cp_logistic (- (snd z * 0))) data) = ln 2.
Proof. intros (Hd & _). rewrite (map_ext _ (fun _ => ln 2)); [apply rmean_map_const; exact Hd|]. intros z. unfold cp_logistic. rewrite Rmult_0_r, Ropp_0, exp_0. reflexivity. Qed.

(* ---------- the exact problem of LogisticRegression, squared Euclidean cost on the features ---------- *)
(* The constant model log(p / (1 - p)) has the same loss in every plan, so its worst case is the entropy of the labels. *)
Theorem C157_constant :
  forall d rho data, labelled d data -> 0 < share data < 1 ->
    worst_sq_le d rho data (repeat 0 d) (ln (share data / (1 - share data))) (entropy (share data)).
Proof.
  intros d rho data L HP p O. set (b := ln (share data / (1 - share data))).
  assert (X := weak_duality feature_sq (feature_only d) data (rho * rho) (log_loss (repeat 0 d) b) 0 (map (fun z => cp_logistic (- (snd z * b))) data) p (Rle_refl 0)).
  rewrite Rmult_0_l, Rplus_0_l in X. unfold b in X. rewrite (share_H d data L HP) in X. apply X; [|exact O].
  apply (DedLin_Proofs.Forall2_map_self _ _ _ _ (proj1 (proj2 L))). intros z _ v [_ Ev]. rewrite Rmult_0_l, Rplus_0_l. unfold log_loss. rewrite Ev, dot_repeat0, Rplus_0_l. right. reflexivity.
Qed.
Print Assumptions C157_constant.

(* No linear model with intercept does better exactly from the critical radius |cov| / sqrt(p (1 - p)) on. *)
Theorem C157_intercept :
  forall d rho data, labelled d data -> 0 < share data < 1 ->
    (hopeless d rho data (fun _ _ => True) (entropy (share data)) <-> sqnorm (covariance d data) <= rho * rho * (share data * (1 - share data))).
Proof.
  intros d rho data L HP. pose proof L as (Hd & Hx & Hy). set (s0 := ln (share data / (1 - share data))). split.
  - intros W. apply Rnot_lt_le. intros C. destruct (below d data s0 Hd Hx Hy rho) as (eps & c & _ & Hc & V).
    { unfold s0. rewrite (share_V d data L HP), (share_g d data L HP). exact C. }
    unfold s0 in Hc. rewrite (share_H d data L HP) in Hc. apply (W _ _ c) in V; [lra|rewrite vscal_length; apply vaverage_length; exact Hx|exact I].
  - intros C beta b v Lb _ W. rewrite <- (share_H d data L HP). apply (over d data s0 Hd Hx Hy feature_sq (feature_only d) rho beta b v); [auto using Rle_refl|exact Lb| | |exact W].
    + right. apply (share_M d data L HP).
    + unfold s0. rewrite (share_V d data L HP), (share_g d data L HP). exact C.
Qed.
Print Assumptions C157_intercept.

(* Strictly over it every best model is constant: its coefficients vanish. *)
Theorem C157_only_constants :
  forall d rho data beta b, labelled d data -> 0 < share data < 1 -> length beta = d ->
    sqnorm (covariance d data) < rho * rho * (share data * (1 - share data)) ->
    worst_sq_le d rho data beta b (entropy (share data)) -> Forall (fun w => w = 0) beta.
Proof.
  intros d rho data beta b L HP Lb C W. pose proof L as (Hd & Hx & Hy). set (s0 := ln (share data / (1 - share data))).
  apply (over_strict d data s0 Hd Hx Hy rho beta b Lb).
  - apply (share_M d data L HP).
  - unfold s0. rewrite (share_V d data L HP), (share_g d data L HP). exact C.
  - unfold s0. rewrite (share_H d data L HP). exact W.
Qed.
Print Assumptions C157_only_constants.

(* Adversaries with more freedom (labels that may move, cheaper moves) do not help the models. *)
Theorem C157_more_freedom :
  forall cost allowed d rho data beta b v, labelled d data -> 0 < share data < 1 -> length beta = d ->
    (forall z z', feature_only d z z' -> allowed z z' /\ cost z z' <= feature_sq z z') ->
    sqnorm (covariance d data) <= rho * rho * (share data * (1 - share data)) ->
    tworst_le cost allowed data (rho * rho) (log_loss beta b) v -> entropy (share data) <= v.
Proof.
  intros cost allowed d rho data beta b v L HP Lb A C W. pose proof L as (Hd & Hx & Hy). set (s0 := ln (share data / (1 - share data))).
  rewrite <- (share_H d data L HP). apply (over d data s0 Hd Hx Hy cost allowed rho beta b v A Lb); [|unfold s0; rewrite (share_V d data L HP), (share_g d data L HP); exact C|exact W].
  right. apply (share_M d data L HP).
Qed.
Print Assumptions C157_more_freedom.

(* Without intercept the constant is 0, and the critical radius the length of the average of label * features. *)
Theorem C157_no_intercept :
  forall d rho data, labelled d data -> 0 <= rho ->
    (hopeless d rho data (fun _ b => b = 0) (ln 2) <-> norm2 (signed_mean d data) <= rho).
Proof.
  intros d rho data L Hr. pose proof L as (Hd & Hx & Hy).
  assert (K : norm2 (signed_mean d data) <= rho <-> sqnorm (vaverage d (pulls 0) data) <= rho * rho * rmean (map (fun z => pulls 0 (snd z) * pulls 0 (snd z)) data)).
  { rewrite (zero_V d data L), zero_g, sqnorm_vscal, <- norm2_sq. pose proof (norm2_nonneg (signed_mean d data)). split; intros Q; nra. }
  rewrite K. split.
  - intros W. apply Rnot_lt_le. intros C. destruct (below d data 0 Hd Hx Hy rho C) as (eps & c & _ & Hc & V). rewrite (zero_H d data L) in Hc.
    apply (W _ _ c) in V; [lra|rewrite vscal_length; apply vaverage_length; exact Hx|reflexivity].
  - intros C beta b v Lb B W. rewrite <- (zero_H d data L). apply (over d data 0 Hd Hx Hy feature_sq (feature_only d) rho beta b v); [auto using Rle_refl|exact Lb|left; exact B|exact C|exact W].
Qed.
Print Assumptions C157_no_intercept.

(* In terms of the means of the classes: critical radius sqrt(p (1 - p)) times their distance. *)
Lemma covariance_means d data m1 m0 : labelled d data -> class_means d data m1 m0 -> forall h, length h = d ->
  dot (covariance d data) h = share data * (1 - share data) * dot (vsub m1 m0) h.
Proof.
  intros L (L1 & L0 & E) h Lh. destruct L as (Hd & Hx & _). unfold covariance. rewrite vaverage_dot by assumption.
  rewrite (map_ext _ (fun z => (1 - share data) * (is1 (snd z) * dot (fst z) h) - share data * ((1 - is1 (snd z)) * dot (fst z) h))) by (intros z; ring).
  rewrite (rmean_map_minus (fun z : vec * R => (1 - share data) * (is1 (snd z) * dot (fst z) h))), !rmean_map_scal. destruct (E h Lh) as [-> ->].
  rewrite dot_vsub_l by congruence. ring.
Qed.
Theorem C157_class_means :
  forall d rho data m1 m0, labelled d data -> 0 < share data < 1 -> class_means d data m1 m0 ->
    (hopeless d rho data (fun _ _ => True) (entropy (share data)) <-> share data * (1 - share data) * sqnorm (vsub m1 m0) <= rho * rho).
Proof.
  intros d rho data m1 m0 L HP CM. rewrite (C157_intercept d rho data L HP). pose proof CM as (L1 & L0 & _).
  assert (Lc : length (covariance d data) = d) by (apply vaverage_length; apply L).
  assert (Lv : length (vsub m1 m0) = d) by (rewrite vsub_length; congruence).
  assert (E : sqnorm (covariance d data) = (share data * (1 - share data)) * ((share data * (1 - share data)) * sqnorm (vsub m1 m0))).
  { unfold sqnorm at 1. rewrite (covariance_means d data m1 m0 L CM _ Lc), (dot_comm (vsub m1 m0)), (covariance_means d data m1 m0 L CM _ Lv). reflexivity. }
  rewrite E. set (q := share data * (1 - share data)). assert (Q : 0 < q) by (unfold q; apply Rmult_lt_0_compat; lra). split; intros C.
  - apply Rmult_le_reg_l with q; [exact Q|]. lra.
  - rewrite (Rmult_comm (rho * rho)). apply Rmult_le_compat_l; [lra|exact C].
Qed.
Print Assumptions C157_class_means.

(* The example spatial_perturbation_logistic_regression.py: two balanced classes around (4, 4) and (-4, -4), and "rho chosen analytically",
   2 * 4**2. That is the square of the critical radius, so the exact problem has constant models only as solutions. *)
Definition script_rho : R := 2 * 4 ^ 2.
Theorem C157_script :
  forall data, labelled 2 data -> share data = 1 / 2 -> class_means 2 data [4; 4] [-4; -4] ->
    (forall rho, 0 <= rho -> (hopeless 2 rho data (fun _ _ => True) (ln 2) <-> sqrt script_rho <= rho)) /\
    (forall beta b, length beta = 2%nat -> worst_sq_le 2 script_rho data beta b (ln 2) -> beta = [0; 0]).
Proof.
  intros data L E CM. assert (HP : 0 < share data < 1) by lra.
  assert (En : entropy (share data) = ln 2).
  { rewrite E. unfold entropy. replace (1 - 1 / 2) with (/ 2) by field. replace (1 / 2) with (/ 2) by field. rewrite ln_Rinv by lra. field. }
  assert (D : share data * (1 - share data) * sqnorm (vsub [4; 4] [-4; -4]) = script_rho) by (rewrite E; unfold sqnorm, dot, vsub, script_rho; simpl; field).
  assert (Sp : 0 <= script_rho) by (unfold script_rho; lra). split.
  - intros rho Hr. rewrite <- En, (C157_class_means 2 rho data [4; 4] [-4; -4] L HP CM), D. pose proof (sqrt_sqrt script_rho Sp). pose proof (sqrt_pos script_rho). split; intros; nra.
  - intros beta b Lb W. rewrite <- En in W.
    assert (C : sqnorm (covariance 2 data) < script_rho * script_rho * (share data * (1 - share data))).
    { pose proof CM as (L1 & L0 & _). assert (Lc : length (covariance 2 data) = 2%nat) by (apply vaverage_length; apply L). unfold sqnorm.
      rewrite (covariance_means 2 data [4; 4] [-4; -4] L CM _ Lc), (dot_comm (vsub _ _)), (covariance_means 2 data [4; 4] [-4; -4] L CM (vsub [4; 4] [-4; -4]) eq_refl).
      change (dot (vsub [4; 4] [-4; -4]) (vsub [4; 4] [-4; -4])) with (sqnorm (vsub [4; 4] [-4; -4])). rewrite D. rewrite E. unfold script_rho. lra. }
    pose proof (C157_only_constants 2 script_rho data beta b L HP Lb C W) as F. destruct beta as [|u [|v [|]]]; try discriminate. inversion F as [|? ? -> F']; subst. inversion F'; subst. reflexivity.
Qed.
Print Assumptions C157_script.
Definition two_blobs : list (vec * R) := [([5; 3], 1); ([-6; -4], -1); ([3; 5], 1); ([-2; -4], -1)].
Example C157_script_case : labelled 2 two_blobs /\ share two_blobs = 1 / 2 /\ class_means 2 two_blobs [4; 4] [-4; -4].
Proof.
  assert (L : labelled 2 two_blobs) by (split; [discriminate|]; split; unfold two_blobs; repeat (apply Forall_cons || apply Forall_nil); simpl; auto).
  assert (S : share two_blobs = 1 / 2).
  { unfold share, two_blobs, rmean, is1. simpl. destruct (Rlt_dec 0 1); [|lra]. destruct (Rlt_dec 0 (-1)); [lra|]. field. }
  split; [exact L|]. split; [exact S|]. split; [reflexivity|]. split; [reflexivity|]. intros h Lh. rewrite S. destruct h as [|u [|v [|]]]; try discriminate.
  unfold two_blobs, rmean, is1, dot. simpl. destruct (Rlt_dec 0 1); [|lra]. destruct (Rlt_dec 0 (-1)); [lra|]. split; field.
Qed.

(* ---------- the dedicated solver ---------- *)
(* From the radius |cov| on no feasible point of the programme has an objective below the entropy of the labels. *)
Theorem C157_dedicated_over :
  forall d kappa rho data beta b lam s, labelled d data -> 0 < share data < 1 -> norm2 (covariance d data) <= rho ->
    log_feasible d true kappa data beta b lam s -> entropy (share data) <= log_objective rho lam s.
Proof.
  intros d kappa rho data beta b lam s L HP C F. pose proof L as (Hd & Hx & Hy). rewrite <- (share_H d data L HP).
  apply (ded_over d data (ln (share data / (1 - share data))) Hd Hx true kappa rho beta b lam s F).
  - right. apply (share_M d data L HP).
  - rewrite (share_g d data L HP). exact C.
Qed.
Print Assumptions C157_dedicated_over.

(* Without intercept, and with intercept when the classes are balanced: when no sample is longer than kappa, the programme is solved by the
   zero model exactly from half the length of the average of label * features on. *)
Theorem C157_dedicated :
  forall d fi kappa rho data, labelled d data -> 0 <= rho -> (fi = true -> share data = 1 / 2) -> Forall (fun z : vec * R => norm2 (fst z) <= kappa) data ->
    ((forall beta b lam s, log_feasible d fi kappa data beta b lam s -> ln 2 <= log_objective rho lam s) <-> norm2 (signed_mean d data) / 2 <= rho).
Proof.
  intros d fi kappa rho data L Hr B K. pose proof L as (Hd & Hx & Hy). set (g := vaverage d (pulls 0) data).
  assert (N : norm2 g = norm2 (signed_mean d data) / 2) by (unfold g; rewrite zero_g, norm2_vscal, Rabs_pos_eq by lra; field).
  assert (Lg : length g = d) by (apply vaverage_length; exact Hx). rewrite <- N. split.
  - intros W. apply Rnot_lt_le. intros C.
    destruct (ded_below d data Hd Hx Hy fi kappa rho (norm2 g) (Rle_refl _)) as (beta & lam & s & F & O).
    + intros z I. rewrite Forall_forall in K, Hx. specialize (K z I). specialize (Hx z I). cbv beta in *. fold g.
      assert (Z : Rabs (dot g (fst z)) <= norm2 g * norm2 (fst z)) by (apply abs_dot_le; etransitivity; [exact Lg|symmetry; exact Hx]).
      pose proof (norm2_nonneg g). rewrite Forall_forall in Hy.
      assert (snd z * dot g (fst z) <= Rabs (dot g (fst z))).
      { pose proof (Rle_abs (dot g (fst z))). pose proof (Rle_abs (- dot g (fst z))). rewrite Rabs_Ropp in H1. destruct (Hy z I) as [-> | ->]; lra. }
      assert (norm2 g * norm2 (fst z) <= norm2 g * kappa) by (apply Rmult_le_compat_l; assumption). lra.
    + fold g. rewrite <- norm2_sq. apply Rmult_lt_compat_r; lra.
    + pose proof (W _ _ _ _ F). lra.
  - intros C beta b lam s F. rewrite <- (zero_H d data L). apply (ded_over d data 0 Hd Hx fi kappa rho beta b lam s F); [|exact C].
    destruct fi.
    + right. rewrite (map_ext_in _ (fun z => is1 (snd z) - / 2)).
      * rewrite (rmean_map_minus (fun z : vec * R => is1 (snd z)) (fun _ => / 2)), rmean_map_const by exact Hd. fold (share data). rewrite (B eq_refl). field.
      * intros z I. rewrite zero_pulls. rewrite Forall_forall in Hy. rewrite (is1_label _ (Hy z I)). field.
    + left. apply (proj1 (proj2 F)). reflexivity.
Qed.
Print Assumptions C157_dedicated.
Theorem C157_dedicated_zero :
  forall d fi kappa rho data, data <> [] -> log_feasible d fi kappa data (repeat 0 d) 0 0 (map (fun _ => ln 2) data) /\ log_objective rho 0 (map (fun _ : vec * R => ln 2) data) = ln 2.
Proof.
  intros d fi kappa rho data Hd. split.
  - split; [apply repeat_length|]. split; [reflexivity|]. split; [unfold norm2, sqnorm; rewrite dot_repeat0, sqrt_0; lra|].
    assert (F : Forall (fun _ : vec * R => True) data) by (apply Forall_forall; auto). apply (DedLin_Proofs.Forall2_map_self _ _ _ _ F). intros z _.
    rewrite (dot_comm (fst z)), dot_repeat0, Rplus_0_l, !Rmult_0_r. unfold cp_logistic. rewrite exp_0. replace (1 + 1) with 2 by ring. lra.
  - unfold log_objective. rewrite map_length, rsum_map_const. pose proof (INR_length_pos data Hd). field. lra.
Qed.
Print Assumptions C157_dedicated_zero.
(* two points of the default kappa: the zero model is what the solver returns from the radius 5 on and not before *)
Example C157_dedicated_case : forall rho, 0 <= rho ->
  ((forall beta b lam s, log_feasible 2 true 1000 [([6; 8], 1); ([-6; -8], -1)] beta b lam s -> ln 2 <= log_objective rho lam s) <-> 5 <= rho).
Proof.
  intros rho Hr. assert (L : labelled 2 [([6; 8], 1); ([-6; -8], -1)]) by (split; [discriminate|]; split; repeat (apply Forall_cons || apply Forall_nil); simpl; auto).
  assert (T : norm2 [6; 8] = 10 /\ norm2 [-6; -8] = 10).
  { split; unfold norm2, sqnorm, dot; simpl; [replace (6 * 6 + (8 * 8 + 0)) with (10 * 10) by ring|replace (-6 * -6 + (-8 * -8 + 0)) with (10 * 10) by ring]; apply sqrt_square; lra. }
  assert (M : signed_mean 2 [([6; 8], 1); ([-6; -8], -1)] = [6; 8]) by (unfold signed_mean, vaverage, vscal, vadd; simpl; f_equal; [field|f_equal; field]).
  rewrite (C157_dedicated 2 true 1000 rho _ L Hr).
  - rewrite M, (proj1 T). split; lra.
  - intros _. unfold share, rmean, is1. simpl. destruct (Rlt_dec 0 1); [|lra]. destruct (Rlt_dec 0 (-1)); [lra|]. field.
  - repeat (apply Forall_cons || apply Forall_nil); simpl; destruct T as [T1 T2]; rewrite ?T1, ?T2; lra.
Qed.
(* the same points without the specialised solver: critical radius 10 *)
Example C157_intercept_case : forall rho, 0 <= rho -> (hopeless 2 rho [([6; 8], 1); ([-6; -8], -1)] (fun _ b => b = 0) (ln 2) <-> 10 <= rho).
Proof.
  intros rho Hr. assert (L : labelled 2 [([6; 8], 1); ([-6; -8], -1)]) by (split; [discriminate|]; split; repeat (apply Forall_cons || apply Forall_nil); simpl; auto).
  rewrite (C157_no_intercept 2 rho _ L Hr). replace (signed_mean 2 [([6; 8], 1); ([-6; -8], -1)]) with [6; 8] by (unfold signed_mean, vaverage, vscal, vadd; simpl; f_equal; [field|f_equal; field]).
  replace (norm2 [6; 8]) with 10; [split; lra|]. unfold norm2, sqnorm, dot. simpl. replace (6 * 6 + (8 * 8 + 0)) with (10 * 10) by ring. symmetry. apply sqrt_square. lra.
Qed.
