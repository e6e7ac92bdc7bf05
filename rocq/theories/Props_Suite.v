(* C145: what the assertions of the test-suite accept. *)
From Coq Require Import Reals List String Lra Lia Arith Bool ZArith.
From Verif Require Import PyBase RList XReal Dtype_Model Dtype_Spec Dtype_Proofs Props_Dtype Suite_Model Suite_Spec.
Import ListNotations.
Local Open Scope R_scope.
Notation length := List.length.

(* ---------- lemmas ---------- *)
Lemma tol_bounds : 3 / 10 < ANGLE_TOL <= 4 / 10.
Proof. unfold ANGLE_TOL. pose proof PI2_3_2. pose proof PI_4. lra. Qed.
Lemma sqrt2_pos : 0 < sqrt 2. Proof. apply sqrt_lt_R0. lra. Qed.
Lemma sqrt2_sq : sqrt 2 * sqrt 2 = 2. Proof. apply sqrt_sqrt. lra. Qed.
Lemma norm2_pair a b : norm2 [a; b] * norm2 [a; b] = a * a + b * b.
Proof. rewrite norm2_sq. unfold sqnorm, dot. cbn. ring. Qed.
Lemma norm2_pair_pos a b : a <> 0 \/ b <> 0 -> 0 < norm2 [a; b].
Proof.
  intros H. pose proof (norm2_nonneg [a; b]) as N. destruct N as [N|N]; [exact N|]. pose proof (norm2_pair a b) as E. rewrite <- N in E.
  assert (0 <= a * a) by apply Rle_0_sqr. assert (0 <= b * b) by apply Rle_0_sqr. assert (A : a * a = 0) by lra. assert (B : b * b = 0) by lra.
  apply Rmult_integral in A. apply Rmult_integral in B. destruct H; tauto.
Qed.
Lemma sum_pair a b : rsum [a; b] = a + b. Proof. cbn. ring. Qed.
Lemma abs_sq x : Rabs x * Rabs x = x * x. Proof. rewrite <- Rabs_mult. apply Rabs_right. apply Rle_ge, Rle_0_sqr. Qed.
Lemma sq_le a b : 0 <= b -> a * a <= b * b -> a <= b.
Proof. intros H E. apply Rnot_lt_le. intros L. assert (b * b < a * a) by (apply Rmult_le_0_lt_compat; lra). lra. Qed.
Lemma sq_lt a b : 0 <= b -> a * a < b * b -> a < b.
Proof. intros H E. apply Rnot_le_lt. intros L. assert (b * b <= a * a) by (apply Rmult_le_compat; lra). lra. Qed.
Lemma cone a b : Rabs (a + b) <= sqrt 2 * norm2 [a; b].
Proof.
  pose proof sqrt2_pos. pose proof (norm2_nonneg [a; b]). apply sq_le; [apply Rmult_le_pos; lra|].
  rewrite abs_sq. replace (sqrt 2 * norm2 [a; b] * (sqrt 2 * norm2 [a; b])) with (sqrt 2 * sqrt 2 * (norm2 [a; b] * norm2 [a; b])) by ring.
  rewrite sqrt2_sq, norm2_pair. assert (0 <= (a - b) * (a - b)) by apply Rle_0_sqr. lra.
Qed.

(* ---------- the angle ---------- *)
Theorem C145_angle : forall a b, a <> 0 \/ b <> 0 ->
  exists r, angle_to_northeast [a; b] = Fin r /\ 0 <= r <= 1 /\ Rabs (a + b) = sqrt 2 * norm2 [a; b] * (1 - r).
Proof.
  intros a b H. pose proof (norm2_pair_pos a b H) as N. pose proof sqrt2_pos as S. pose proof (cone a b) as C. pose proof (Rabs_pos (a + b)) as P.
  exists (1 - Rabs (a + b) / norm2 [a; b] / sqrt 2). unfold angle_to_northeast. rewrite sum_pair. cbn [xdiv].
  assert (Reqb (norm2 [a; b]) 0 = false) as -> by (apply Reqb_false; lra). cbn [xdiv]. assert (Reqb (sqrt 2) 0 = false) as -> by (apply Reqb_false; lra).
  cbn [xsub xopp xadd xabs].
  assert (Q : 0 <= Rabs (a + b) / norm2 [a; b] / sqrt 2 <= 1).
  { split; [unfold Rdiv; repeat apply Rmult_le_pos; try lra; apply Rlt_le, Rinv_0_lt_compat; assumption|].
    apply (Rmult_le_reg_l (sqrt 2 * norm2 [a; b])); [apply Rmult_lt_0_compat; lra|].
    replace (sqrt 2 * norm2 [a; b] * (Rabs (a + b) / norm2 [a; b] / sqrt 2)) with (Rabs (a + b)) by (field; lra). lra. }
  split; [f_equal; rewrite Rabs_right by lra; ring|]. split; [lra|]. field. lra.
Qed.
Print Assumptions C145_angle.

Theorem C145_angle_of_zero : angle_to_northeast [0; 0] = NaN.
Proof.
  unfold angle_to_northeast. assert (norm2 [0; 0] = 0) as ->. { pose proof (norm2_pair 0 0) as E. rewrite Rmult_0_l, Rplus_0_r in E. apply Rmult_integral in E. tauto. }
  assert (Rabs (rsum [0; 0]) = 0) as -> by (rewrite sum_pair, Rplus_0_r; apply Rabs_R0). cbn [xdiv]. assert (Reqb 0 0 = true) as -> by (apply Reqb_true; reflexivity). reflexivity.
Qed.
Print Assumptions C145_angle_of_zero.

(* the assertion of test_binary_separable_log_classif_cvx.py:24 accepts every trained model *)
Theorem C145_cvx_accepts_all : forall a b intercept, test_fit_fi_cvx [a; b] intercept = true <-> a <> 0 \/ b <> 0.
Proof.
  intros a b i. unfold test_fit_fi_cvx. split.
  - intros H. destruct (Req_dec a 0) as [->|]; [|left; assumption]. destruct (Req_dec b 0) as [->|]; [|right; assumption].
    rewrite C145_angle_of_zero in H. discriminate.
  - intros H. destruct (C145_angle a b H) as (r & -> & B & _). cbn. apply Rltb_true. unfold ANGLE_TOL. pose proof PI2_3_2. lra.
Qed.
Print Assumptions C145_cvx_accepts_all.

(* exactly what the other angle assertions accept *)
Theorem C145_fit_accepts : forall a b intercept,
  test_fit [a; b] intercept = true <-> sqrt 2 * (1 - ANGLE_TOL) * norm2 [a; b] < Rabs (a + b).
Proof.
  intros a b i. unfold test_fit. pose proof tol_bounds as T. pose proof sqrt2_pos as S.
  destruct (Req_dec a 0) as [Ha|Ha]; [destruct (Req_dec b 0) as [Hb|Hb]|].
  - subst. rewrite C145_angle_of_zero. cbn. rewrite Rplus_0_r, Rabs_R0. split; [discriminate|]. intros H. exfalso.
    pose proof (norm2_nonneg [0; 0]). assert (0 <= sqrt 2 * (1 - ANGLE_TOL) * norm2 [0; 0]) by (repeat apply Rmult_le_pos; lra). lra.
  - destruct (C145_angle a b (or_intror Hb)) as (r & -> & B & ->). pose proof (norm2_pair_pos a b (or_intror Hb)) as N.
    cbn. rewrite Rltb_true. split; intros H.
    + assert (sqrt 2 * norm2 [a; b] * (1 - ANGLE_TOL) < sqrt 2 * norm2 [a; b] * (1 - r)) by (apply Rmult_lt_compat_l; [apply Rmult_lt_0_compat; lra|lra]). lra.
    + assert (1 - ANGLE_TOL < 1 - r); [|lra]. apply (Rmult_lt_reg_l (sqrt 2 * norm2 [a; b])); [apply Rmult_lt_0_compat; lra|lra].
  - destruct (C145_angle a b (or_introl Ha)) as (r & -> & B & ->). pose proof (norm2_pair_pos a b (or_introl Ha)) as N.
    cbn. rewrite Rltb_true. split; intros H.
    + assert (sqrt 2 * norm2 [a; b] * (1 - ANGLE_TOL) < sqrt 2 * norm2 [a; b] * (1 - r)) by (apply Rmult_lt_compat_l; [apply Rmult_lt_0_compat; lra|lra]). lra.
    + assert (1 - ANGLE_TOL < 1 - r); [|lra]. apply (Rmult_lt_reg_l (sqrt 2 * norm2 [a; b])); [apply Rmult_lt_0_compat; lra|lra].
Qed.
Print Assumptions C145_fit_accepts.

(* every direction between east and north, and between west and south, with any intercept *)
Theorem C145_quadrant : forall a b intercept, 0 <= a * b -> a <> 0 \/ b <> 0 -> test_fit [a; b] intercept = true.
Proof.
  intros a b i H Z. apply C145_fit_accepts. pose proof tol_bounds as T. pose proof sqrt2_pos as S. pose proof (norm2_pair_pos a b Z) as N.
  apply Rlt_le_trans with (norm2 [a; b]).
  - rewrite <- (Rmult_1_l (norm2 [a; b])) at 2. apply Rmult_lt_compat_r; [exact N|].
    assert (sqrt 2 < 10 / 7). { apply sq_lt; [lra|]. rewrite sqrt2_sq. lra. }
    apply Rle_lt_trans with (sqrt 2 * (7 / 10)); [apply Rmult_le_compat_l; lra|lra].
  - apply sq_le; [apply Rabs_pos|]. rewrite norm2_pair, abs_sq. lra.
Qed.
Print Assumptions C145_quadrant.

(* a model that classifies the six points correctly passes *)
Theorem C145_right_passes : forall a b intercept, all_right [a; b] intercept generate_points -> test_fit [a; b] intercept = true.
Proof.
  intros a b i H. unfold all_right, generate_points, opposites in H. cbn in H.
  inversion H as [|? ? H1 K1]; subst. inversion K1 as [|? ? H2 K2]; subst. inversion K2 as [|? ? H3 K3]; subst. inversion K3 as [|? ? H4 K4]; subst.
  inversion K4 as [|? ? H5 K5]; subst. inversion K5 as [|? ? H6 _]; subst. clear H K1 K2 K3 K4 K5. unfold dot in *. cbn in *.
  apply C145_quadrant; [|left; lra]. apply Rmult_le_pos; lra.
Qed.
Print Assumptions C145_right_passes.

(* and so does its opposite, which classifies all of them wrongly *)
Theorem C145_opposite_passes : forall a b intercept, all_right [a; b] intercept generate_points ->
  test_fit [- a; - b] (- intercept) = true /\ all_wrong [- a; - b] (- intercept) generate_points.
Proof.
  intros a b i H. split.
  - pose proof (C145_right_passes a b i H) as P. apply C145_fit_accepts in P. apply C145_fit_accepts.
    replace (- a + - b) with (- (a + b)) by ring. rewrite Rabs_Ropp. replace (norm2 [- a; - b]) with (norm2 [a; b]); [exact P|].
    unfold norm2, sqnorm, dot. cbn. f_equal. ring.
  - unfold all_right, all_wrong in *. revert H. apply Forall_impl. intros [x y]. cbn [fst snd]. intros H.
    assert (E : dot [- a; - b] x = - dot [a; b] x). { unfold dot. destruct x as [|p [|q x]]; cbn; ring. }
    rewrite E. lra.
Qed.
Print Assumptions C145_opposite_passes.

Theorem C145_wrong_model_refuted : exists coef intercept, test_fit coef intercept = true /\ all_wrong coef intercept generate_points.
Proof.
  exists [- 1; - 1], (- 0). apply (C145_opposite_passes 1 1 0). unfold all_right, generate_points, opposites. cbn [combine map app].
  repeat (apply Forall_cons; [unfold dot; cbn; lra|]). constructor.
Qed.
Print Assumptions C145_wrong_model_refuted.

(* the intercept is fitted but not tested: this one puts all points in one class *)
Theorem C145_intercept_refuted : exists coef intercept, test_fit coef intercept = true /\
  Forall (fun xy => 0 < dot coef (fst xy) + intercept) generate_points.
Proof.
  exists [1; 1], 10. split; [apply C145_quadrant; lra|]. unfold generate_points, opposites. cbn [combine map app].
  repeat (apply Forall_cons; [unfold dot; cbn; lra|]). constructor.
Qed.
Print Assumptions C145_intercept_refuted.

(* with the accuracy asserted first, the sign matters; the angle may then be up to 68 degrees off: cos >= 1 - 0.2 pi *)
Theorem C145_overfitting_accepts : forall accuracy a b intercept, 8 / 10 < accuracy -> 0 <= a * b -> a <> 0 \/ b <> 0 ->
  test_fit_overfitting accuracy [a; b] intercept = true.
Proof.
  intros acc a b i A H Z. unfold test_fit_overfitting. apply Rltb_true in A. rewrite A. cbn [andb].
  pose proof (C145_quadrant a b i H Z) as Q. unfold test_fit in Q. destruct (angle_to_northeast [a; b]) as [r| | |]; try discriminate.
  - cbn in *. apply Rltb_true in Q. apply Rltb_true. unfold ANGLE_TOL, ANGLE_TOL_overfitting in *. pose proof PI2_3_2. lra.
  - reflexivity.
Qed.
Print Assumptions C145_overfitting_accepts.

(* ---------- the multiclass test ---------- *)
Lemma centroid_sum (A : R) k (cs : list vec) (l : list R) : A <> 0 -> Forall (fun c => norm2 c <> 0) cs ->
  xsum (map2 xmul (map (fun c => xdiv (Fin (nth k c 0)) (Fin (norm2 c))) cs) (map (fun a => xdiv (Fin a) (Fin A)) l))
  = Fin (rsum (map2 (fun c a => nth k c 0 / norm2 c * (a / A)) cs l)).
Proof.
  intros HA F. revert l. induction F as [|c cs Hc F IH]; intros [|a l]; try reflexivity. cbn [map map2].
  change (xsum (?x :: ?t)) with (xadd x (xsum t)). rewrite IH. cbn [xdiv]. assert (Reqb (norm2 c) 0 = false) as -> by (apply Reqb_false; exact Hc).
  assert (Reqb A 0 = false) as -> by (apply Reqb_false; exact HA). reflexivity.
Qed.
Lemma norm2_opp l : norm2 (map Ropp l) = norm2 l.
Proof. unfold norm2. f_equal. induction l as [|a l IH]; [reflexivity|]. unfold sqnorm, dot in *. cbn. unfold rsum in *. rewrite IH. ring. Qed.
(* the sign of each feature is ignored *)
Theorem C145_centroids_sign : forall d coefs coefs' centers, Forall (fun c => norm2 c <> 0) centers -> (forall k, (k < d)%nat -> norm2 (column k coefs) <> 0) ->
  (forall k, (k < d)%nat -> column k coefs' = column k coefs \/ column k coefs' = map Ropp (column k coefs)) ->
  angle_to_centroids d coefs' centers = angle_to_centroids d coefs centers.
Proof.
  intros d coefs coefs' centers F N H. unfold angle_to_centroids. apply map_ext_in. intros k Hk. apply in_seq in Hk. cbv zeta.
  destruct (H k ltac:(lia)) as [->| ->]; [reflexivity|]. rewrite norm2_opp. specialize (N k ltac:(lia)).
  assert (E : forall A l, rsum (map2 (fun (c : vec) a => nth k c 0 / norm2 c * (a / A)) centers (map Ropp l)) = - rsum (map2 (fun (c : vec) a => nth k c 0 / norm2 c * (a / A)) centers l)).
  { clear. intros A l. revert l. induction centers as [|c cs IH]; intros [|a l]; cbn; try ring. unfold rsum in *. rewrite IH. unfold Rdiv. ring. }
  rewrite !centroid_sum by assumption. rewrite E. cbn [xabs]. rewrite Rabs_Ropp. reflexivity.
Qed.
Print Assumptions C145_centroids_sign.
(* so the test accepts coefficients that are at right angles to the centroid of each class *)
Theorem C145_centroids_refuted : exists coefs centers, test_centroids 2 coefs centers = true /\ length coefs = 3%nat /\ length centers = 3%nat /\
  Forall (fun cc => dot (fst cc) (snd cc) = 0 /\ 0 < norm2 (fst cc) /\ 0 < norm2 (snd cc)) (combine coefs centers).
Proof.
  pose (centers := [[2; 2]; [-2; -2]; [2; -2]]). pose (coefs := [[-2; 2]; [2; -2]; [-2; -2]]). exists coefs, centers.
  assert (N8 : forall a b, a * a + b * b = 8 -> norm2 [a; b] = sqrt 8) by (intros a b E; unfold norm2, sqnorm, dot; cbn; f_equal; lra).
  assert (N12 : forall a b c, a * a + b * b + c * c = 12 -> norm2 [a; b; c] = sqrt 12) by (intros a b c E; unfold norm2, sqnorm, dot; cbn; f_equal; lra).
  assert (P8 : 0 < sqrt 8) by (apply sqrt_lt_R0; lra). assert (P12 : 0 < sqrt 12) by (apply sqrt_lt_R0; lra).
  assert (B : 1 < 12 / (sqrt 8 * sqrt 12) < 13 / 10).
  { rewrite <- sqrt_mult_alt by lra. replace (8 * 12) with 96 by ring. assert (P : 0 < sqrt 96) by (apply sqrt_lt_R0; lra).
    assert (sqrt 96 < 12) by (apply sq_lt; [lra|]; rewrite sqrt_sqrt by lra; lra). assert (12 * 10 / 13 < sqrt 96) by (apply sq_lt; [lra|]; rewrite sqrt_sqrt by lra; lra).
    split; apply (Rmult_lt_reg_r (sqrt 96)); try exact P; unfold Rdiv; rewrite ?Rmult_assoc, ?Rinv_l by lra; lra. }
  split; [|split; [reflexivity|split; [reflexivity|]]].
  - unfold test_centroids, angle_to_centroids. cbn [seq map forallb]. cbv zeta.
    assert (C0 : column 0 coefs = [-2; 2; -2]) by reflexivity. assert (C1 : column 1 coefs = [2; -2; -2]) by reflexivity.
    assert (F : Forall (fun c => norm2 c <> 0) centers) by (unfold centers; repeat (apply Forall_cons; [rewrite N8 by ring; lra|]); constructor).
    rewrite !C0, !C1. rewrite !(N12 _ _ _) by ring. rewrite !centroid_sum by (try exact F; lra).
    assert (S : forall x, x = - (12 / (sqrt 8 * sqrt 12)) \/ x = 12 / (sqrt 8 * sqrt 12) -> xlt (xabs (xsub (Fin 1) (xabs (Fin x)))) (Fin ANGLE_TOL_overfitting) = true).
    { intros x Hx. assert (A : Rabs x = 12 / (sqrt 8 * sqrt 12)) by (destruct Hx as [->| ->]; [rewrite Rabs_Ropp|]; apply Rabs_right; lra).
      cbn. rewrite A. apply Rltb_true. unfold ANGLE_TOL_overfitting. pose proof PI2_3_2. unfold Rabs. destruct (Rcase_abs _); lra. }
    unfold centers. cbn [map2 nth]. rewrite !N8 by ring. apply andb_true_iff. split; [|apply andb_true_iff; split; [|reflexivity]]; apply S.
    + left. cbn. field. lra.
    + right. cbn. field. lra.
  - unfold coefs, centers. cbn [combine]. repeat (apply Forall_cons; [cbn [fst snd]; rewrite !N8 by ring; split; [unfold dot; cbn; ring|lra]|]). constructor.
Qed.
Print Assumptions C145_centroids_refuted.

(* ---------- test_autostop ---------- *)
Theorem C145_autostop : forall p, test_autostop p = Ok tt <-> exists outcome, p = Finished outcome.
Proof. intros [|o]; cbn; split; try discriminate; eauto. intros [? E]. discriminate. Qed.
Print Assumptions C145_autostop.
Theorem C145_autostop_refuted : exists run, launch_solver run = Raise AssertionError /\ test_autostop (Finished (launch_solver run)) = Ok tt.
Proof. exists (Ok 0). split; [|reflexivity]. cbn. destruct (Rltb (/ 2) 0) eqn:E; [apply Rltb_true in E; lra|reflexivity]. Qed.
Print Assumptions C145_autostop_refuted.

(* ---------- test_consistency ---------- *)
Lemma rsum_nonneg l : Forall (fun a => 0 <= a) l -> 0 <= rsum l.
Proof. induction 1; cbn; [lra|]. unfold rsum in *. lra. Qed.
Lemma mean_le c l : l <> [] -> Forall (fun a => a <= c) l -> rmean l <= c.
Proof.
  intros N F. assert (P : 0 < INR (length l)) by (apply lt_0_INR; destruct l; [congruence|cbn; lia]).
  assert (S : rsum l <= INR (length l) * c).
  { clear N P. induction F as [|a l Ha F IH]; [cbn; lra|]. change (length (a :: l)) with (S (length l)). rewrite S_INR. change (rsum (a :: l)) with (a + rsum l). lra. }
  unfold rmean. apply (Rmult_le_reg_l (INR (length l))); [exact P|]. replace (INR (length l) * (rsum l / INR (length l))) with (rsum l) by (field; lra). exact S.
Qed.
Lemma var_second_moment l : l <> [] -> np_var l = rmean (map (fun a => a * a) l) - rmean l * rmean l.
Proof.
  intros N. assert (P : 0 < INR (length l)) by (apply lt_0_INR; destruct l; [congruence|cbn; lia]).
  unfold np_var. remember (rmean l) as m eqn:Em.
  assert (E : rsum (map (fun a => (a - m) * (a - m)) l) = rsum (map (fun a => a * a) l) - 2 * m * rsum l + INR (length l) * (m * m)).
  { clear. induction l as [|a l IH]; [cbn; ring|]. change (length (a :: l)) with (S (length l)). rewrite S_INR. cbn [map].
    change (rsum (?x :: ?t)) with (x + rsum t). rewrite IH. ring. }
  assert (M : rsum l = INR (length l) * m) by (rewrite Em; unfold rmean; field; lra). unfold rmean. rewrite !map_length, E, M. field. lra.
Qed.
Theorem C145_consistency_same : forall d params c, params <> [] -> Forall (eq c) params -> test_consistency d params = true.
Proof.
  intros d params c N F. unfold test_consistency. apply Rltb_true. apply Rle_lt_trans with 0; [|lra].
  assert (V : forall j, np_var (column j params) = 0).
  { intros j. assert (P : 0 < INR (length params)) by (apply lt_0_INR; destruct params; [congruence|cbn; lia]).
    assert (E : column j params = repeat (nth j c 0) (length params)).
    { unfold column. clear N P. induction F as [|a l Ha F IH]; [reflexivity|]. cbn. rewrite IH, Ha. reflexivity. }
    assert (Q : forall x n, rsum (repeat x n) = INR n * x).
    { intros x n. induction n as [|n IH]; [cbn; ring|]. rewrite S_INR. cbn [repeat]. change (rsum (?y :: ?t)) with (y + rsum t). rewrite IH. ring. }
    assert (M : forall x n, map (fun a => (a - x) * (a - x)) (repeat x n) = repeat 0 n) by (intros x n; induction n as [|n IH]; [reflexivity|]; cbn; rewrite IH; f_equal; ring).
    rewrite E. unfold np_var. assert (rmean (repeat (nth j c 0) (length params)) = nth j c 0) as -> by (unfold rmean; rewrite repeat_length, Q; field; lra).
    rewrite M. unfold rmean. rewrite Q. unfold Rdiv. ring. }
  unfold mean_variance. destruct d as [|d]; [unfold rmean; cbn; unfold Rdiv; lra|]. apply mean_le; [discriminate|].
  apply Forall_forall. intros v Hv. apply in_map_iff in Hv. destruct Hv as (j & <- & _). rewrite V. lra.
Qed.
Print Assumptions C145_consistency_same.

(* all runs whose coefficients are below 0.316 in size pass, whatever they are *)
Theorem C145_consistency_small : forall d m params, params <> [] -> m * m < / 10 -> Forall (fun c => length c = d /\ Forall (fun a => Rabs a <= m) c) params ->
  test_consistency d params = true.
Proof.
  intros d m params N M F. unfold test_consistency. apply Rltb_true. apply Rle_lt_trans with (m * m); [|exact M].
  unfold mean_variance. destruct d as [|d]; [unfold rmean; cbn; unfold Rdiv; pose proof (Rle_0_sqr m) as Q; unfold Rsqr in Q; lra|]. apply mean_le; [discriminate|].
  apply Forall_forall. intros v Hv. apply in_map_iff in Hv. destruct Hv as (j & <- & Hj). apply in_seq in Hj.
  rewrite var_second_moment by (unfold column; destruct params; [congruence|discriminate]).
  assert (rmean (map (fun a => a * a) (column j params)) <= m * m).
  { apply mean_le; [unfold column; destruct params; [congruence|discriminate]|]. unfold column. rewrite map_map. apply Forall_map. revert F. apply Forall_impl.
    intros c [L K]. rewrite Forall_forall in K. assert (B : Rabs (nth j c 0) <= m) by (apply K, nth_In; lia). pose proof (Rabs_pos (nth j c 0)).
    rewrite <- abs_sq. apply Rmult_le_compat; lra. }
  pose proof (Rle_0_sqr (rmean (column j params))) as Q. unfold Rsqr in Q. lra.
Qed.
Print Assumptions C145_consistency_small.

(* opposite classifiers, and the same one never, in two runs of one seed *)
Theorem C145_consistency_refuted : exists params c, In c params /\ In (vscal (-1) c) params /\ norm2 c > 4 / 10 /\ test_consistency 2 params = true.
Proof.
  exists [[3 / 10; 3 / 10]; [-3 / 10; -3 / 10]; [3 / 10; 3 / 10]; [-3 / 10; -3 / 10]], [3 / 10; 3 / 10]. split; [left; reflexivity|].
  split; [right; left; assert (E : -3 / 10 = -1 * (3 / 10)) by lra; cbn [vscal map]; rewrite E; reflexivity|]. split.
  - apply Rlt_gt, sq_lt; [apply norm2_nonneg|]. rewrite norm2_pair. lra.
  - apply (C145_consistency_small 2 (3 / 10)); [discriminate|lra|].
    repeat (apply Forall_cons; [split; [reflexivity|]; repeat (apply Forall_cons; [unfold Rabs; destruct (Rcase_abs _); lra|]); constructor|]). constructor.
Qed.
Print Assumptions C145_consistency_refuted.

(* what passing does guarantee: two of n runs differ by at most sqrt(n d / 5) in each coordinate *)
Lemma var_nonneg l : 0 <= np_var l.
Proof.
  unfold np_var, rmean. destruct l as [|a l]; [cbn; unfold Rdiv; rewrite Rmult_0_l; lra|].
  apply Rmult_le_pos; [|apply Rlt_le, Rinv_0_lt_compat, lt_0_INR; rewrite map_length; cbn; lia].
  apply rsum_nonneg, Forall_forall. intros x H. apply in_map_iff in H. destruct H as (y & <- & _). apply Rle_0_sqr.
Qed.
Lemma sum_ge_two (f : R -> R) l i k x y : (forall a, 0 <= f a) -> nth_error l i = Some x -> nth_error l k = Some y -> i <> k -> f x + f y <= rsum (map f l).
Proof.
  intros P. assert (G : forall l i x, nth_error l i = Some x -> f x <= rsum (map f l)).
  { clear - P. induction l as [|a l IH]; intros [|i] x H; cbn in H; try discriminate; cbn [map]; change (rsum (?y :: ?t)) with (y + rsum t).
    - injection H as ->. assert (0 <= rsum (map f l)) by (apply rsum_nonneg, Forall_forall; intros z Hz; apply in_map_iff in Hz; destruct Hz as (q & <- & _); apply P). lra.
    - specialize (IH i x H). specialize (P a). lra. }
  revert i k. induction l as [|a l IH]; intros [|i] [|k] Hx Hy D; cbn in Hx, Hy; try discriminate; try congruence; cbn [map]; change (rsum (?z :: ?t)) with (z + rsum t).
  - injection Hx as ->. pose proof (G l k y Hy). lra.
  - injection Hy as ->. pose proof (G l i x Hx). lra.
  - pose proof (IH i k Hx Hy (fun E => D (f_equal S E))). specialize (P a). lra.
Qed.
Lemma in_le_sum l a : Forall (fun x => 0 <= x) l -> In a l -> a <= rsum l.
Proof.
  induction 1 as [|x l P F IH]; intros H; [destruct H|]. change (rsum (x :: l)) with (x + rsum l). destruct H as [->|H].
  - pose proof (rsum_nonneg l F). lra.
  - specialize (IH H). lra.
Qed.
Theorem C145_consistency_guarantees : forall d params i k c c' j, test_consistency d params = true -> nth_error params i = Some c -> nth_error params k = Some c' -> i <> k -> (j < d)%nat ->
  (nth j c 0 - nth j c' 0) * (nth j c 0 - nth j c' 0) < INR (length params) * INR d / 5.
Proof.
  intros d params i k c c' j T Hi Hk D Hj. unfold test_consistency in T. apply Rltb_true in T.
  assert (Pn : 0 < INR (length params)) by (apply lt_0_INR; destruct params; [destruct i; discriminate|cbn; lia]).
  assert (Pd : 0 < INR d) by (apply lt_0_INR; lia).
  assert (V : np_var (column j params) <= rsum (map (fun j => np_var (column j params)) (seq 0 d))).
  { apply in_le_sum; [apply Forall_forall; intros z Hz; apply in_map_iff in Hz; destruct Hz as (q & <- & _); apply var_nonneg|].
    apply (in_map (fun j => np_var (column j params))), in_seq. lia. }
  unfold mean_variance, rmean in T. rewrite map_length, seq_length in T.
  assert (S : rsum (map (fun j => np_var (column j params)) (seq 0 d)) < / 10 * INR d).
  { apply (Rmult_lt_compat_r (INR d)) in T; [|exact Pd]. unfold Rdiv in T. rewrite Rmult_assoc, Rinv_l, Rmult_1_r in T by lra. exact T. }
  remember (rmean (column j params)) as m eqn:Em.
  pose proof (sum_ge_two (fun a => (a - m) * (a - m)) (column j params) i k (nth j c 0) (nth j c' 0) (fun a => Rle_0_sqr (a - m))) as G.
  assert (Ei : nth_error (column j params) i = Some (nth j c 0)) by (exact (map_nth_error (fun c => nth j c 0) _ _ Hi)).
  assert (Ek : nth_error (column j params) k = Some (nth j c' 0)) by (exact (map_nth_error (fun c => nth j c 0) _ _ Hk)).
  specialize (G Ei Ek D). cbv beta in G.
  assert (W : INR (length params) * np_var (column j params) = rsum (map (fun a => (a - m) * (a - m)) (column j params))).
  { unfold np_var. rewrite <- Em. unfold rmean. rewrite map_length. assert (length (column j params) = length params) as -> by (unfold column; apply map_length). field. lra. }
  assert (G2 : rsum (map (fun a => (a - m) * (a - m)) (column j params)) < INR (length params) * (/ 10 * INR d)).
  { rewrite <- W. apply Rmult_lt_compat_l; lra. }
  pose proof (Rle_0_sqr ((nth j c 0 - m) + (nth j c' 0 - m))) as Q. unfold Rsqr in Q. lra.
Qed.
Print Assumptions C145_consistency_guarantees.

(* ---------- test_log_reg_reg ---------- *)
Lemma nrm_scaled t x : 0 < t -> nrm (vscal t x) = nrm x.
Proof.
  intros Ht. unfold nrm. rewrite norm2_vscal, Rabs_right by lra. unfold vscal. rewrite map_map. apply map_ext. intros a.
  destruct (Req_dec (norm2 x) 0) as [E|E].
  - rewrite E, Rmult_0_r, Rinv_0. ring.
  - field. lra.
Qed.

(* the size of the coefficients is not compared, only their direction *)
Theorem C145_exact_direction : forall t est theta l l', 0 < t -> test_log_reg_reg (vscal t est) theta l l' = test_log_reg_reg est theta l l'.
Proof. intros t est theta l l' Ht. unfold test_log_reg_reg. rewrite nrm_scaled by exact Ht. reflexivity. Qed.
Print Assumptions C145_exact_direction.

Lemma sqnorm_cons a x : sqnorm (a :: x) = a * a + sqnorm x. Proof. reflexivity. Qed.
Lemma close_bound (u v : vec) : length u = length v -> forallb (fun ab => np_isclose TOL TOL (fst ab) (snd ab)) (combine u v) = true ->
  norm2 (vsub u v) <= TOL * (sqrt (INR (length v)) + norm2 v).
Proof.
  intros L H. assert (T : 0 < TOL) by (unfold TOL; lra).
  (* below the norm of the vector of the bounds *)
  pose (w := map (fun b => TOL + TOL * Rabs b) v). pose (ones := repeat TOL (length v)). pose (vt := map (fun b => TOL * Rabs b) v).
  assert (A : sqnorm (vsub u v) <= sqnorm w).
  { unfold w. clear w ones vt. revert u L H. induction v as [|b v IH]; intros [|a u] L H; try discriminate L; [unfold sqnorm, dot; cbn; lra|].
    cbn [combine forallb fst snd] in H. apply andb_true_iff in H. destruct H as [H1 H2]. specialize (IH u ltac:(cbn in L; lia) H2).
    unfold np_isclose in H1. apply Rleb_true in H1. change (vsub (a :: u) (b :: v)) with ((a - b) :: vsub u v). cbn [map]. rewrite !sqnorm_cons.
    assert ((a - b) * (a - b) <= (TOL + TOL * Rabs b) * (TOL + TOL * Rabs b)); [|lra]. rewrite <- (abs_sq (a - b)). pose proof (Rabs_pos (a - b)). apply Rmult_le_compat; lra. }
  assert (B : norm2 (vsub u v) <= norm2 w) by (apply sqrt_le_1_alt; exact A).
  assert (W : w = vadd ones vt) by (unfold w, ones, vt; clear; induction v as [|b v IH]; [reflexivity|]; cbn; rewrite IH; reflexivity).
  assert (L1 : length ones = length vt) by (unfold ones, vt; rewrite repeat_length, map_length; reflexivity).
  pose proof (norm2_triangle ones vt L1) as Tr. rewrite <- W in Tr.
  assert (N1 : norm2 ones = TOL * sqrt (INR (length v))).
  { unfold ones. generalize (length v) as n. intros n. unfold norm2.
    assert (sqnorm (repeat TOL n) = TOL * TOL * INR n) as ->.
    { induction n as [|n IH]; [unfold sqnorm, dot; cbn; ring|]. rewrite S_INR. cbn [repeat]. rewrite sqnorm_cons, IH. ring. }
    rewrite sqrt_mult_alt by (apply Rlt_le, Rmult_lt_0_compat; exact T). rewrite sqrt_square by lra. reflexivity. }
  assert (N2 : norm2 vt = TOL * norm2 v).
  { unfold norm2. assert (sqnorm vt = TOL * TOL * sqnorm v) as ->.
    { unfold vt. clear. induction v as [|b v IH]; [unfold sqnorm, dot; cbn; ring|]. cbn [map]. rewrite !sqnorm_cons, IH.
      replace (TOL * Rabs b * (TOL * Rabs b)) with (TOL * TOL * (Rabs b * Rabs b)) by ring. rewrite abs_sq. ring. }
    rewrite sqrt_mult_alt by (apply Rlt_le, Rmult_lt_0_compat; exact T). rewrite sqrt_square by lra. reflexivity. }
  lra.
Qed.
(* what passing guarantees: the two directions are within 0.05 (1 + sqrt d), and the losses within 5 per cent and 0.05 *)
Theorem C145_exact_guarantees : forall est theta l l', length est = length theta -> 0 < norm2 theta ->
  test_log_reg_reg est theta l l' = true ->
  norm2 (vsub (nrm est) (nrm theta)) <= 5 / 100 * (1 + sqrt (INR (length theta))) /\ Rabs (l - l') <= 5 / 100 * (1 + Rabs l').
Proof.
  intros est theta l l' L P H. unfold test_log_reg_reg in H. apply andb_true_iff in H. destruct H as [H1 H2]. split.
  - assert (LL : length (nrm est) = length (nrm theta)) by (unfold nrm; rewrite !vscal_length; exact L).
    pose proof (close_bound _ _ LL H1) as B. unfold nrm in B at 3 4. rewrite vscal_length, norm2_vscal in B.
    rewrite Rabs_right in B by (apply Rle_ge, Rlt_le, Rinv_0_lt_compat, P). rewrite Rinv_l in B by lra. unfold TOL in B. lra.
  - unfold np_isclose, TOL in H2. apply Rleb_true in H2. lra.
Qed.
Print Assumptions C145_exact_guarantees.
(* in the five or ten dimensions of the reference data the estimate never points away from the reference *)
Theorem C145_exact_not_opposite : forall est theta l l', length est = length theta -> 0 < norm2 theta -> 0 < norm2 est -> (length theta <= 10)%nat ->
  test_log_reg_reg est theta l l' = true -> 0 < dot est theta.
Proof.
  intros est theta l l' L P Pe D H. destruct (C145_exact_guarantees est theta l l' L P H) as [B _].
  assert (S : sqrt (INR (length theta)) <= 4). { apply sq_le; [lra|]. rewrite sqrt_sqrt by apply pos_INR. apply le_INR in D. cbn in D. lra. }
  assert (B1 : norm2 (vsub (nrm est) (nrm theta)) <= 1 / 4) by lra.
  assert (LL : length (nrm est) = length (nrm theta)) by (unfold nrm; rewrite !vscal_length; exact L).
  assert (U : forall x, 0 < norm2 x -> sqnorm (nrm x) = 1).
  { intros x Px. rewrite <- norm2_sq. unfold nrm. rewrite norm2_vscal, Rabs_right by (apply Rle_ge, Rlt_le, Rinv_0_lt_compat, Px). field. lra. }
  assert (Q : sqnorm (vsub (nrm est) (nrm theta)) <= / 16).
  { rewrite <- norm2_sq. pose proof (norm2_nonneg (vsub (nrm est) (nrm theta))). assert (norm2 (vsub (nrm est) (nrm theta)) * norm2 (vsub (nrm est) (nrm theta)) <= 1 / 4 * (1 / 4)) by (apply Rmult_le_compat; lra). lra. }
  rewrite sqnorm_vsub in Q by exact LL. rewrite (U est Pe), (U theta P) in Q.
  assert (E : dot (nrm est) (nrm theta) = / norm2 est * / norm2 theta * dot est theta).
  { unfold nrm. generalize (/ norm2 est) (/ norm2 theta). intros a b. clear. unfold dot. revert theta. induction est as [|x est IH]; intros [|y theta]; cbn; try ring.
    change (rsum (map2 Rmult (vscal a est) (vscal b theta))) with (rsum (map2 Rmult (vscal a est) (vscal b theta))). unfold vscal in IH. rewrite IH. ring. }
  assert (0 < dot (nrm est) (nrm theta)) by lra. rewrite E in H0.
  apply (Rmult_lt_reg_l (/ norm2 est * / norm2 theta)); [apply Rmult_lt_0_compat; apply Rinv_0_lt_compat; assumption|]. lra.
Qed.
Print Assumptions C145_exact_not_opposite.

(* ---------- the parameters of the portfolio loss ---------- *)
(* the assertion on the risk level holds exactly when the level was not stored exactly *)
Theorem C145_alpha_accepts : forall alpha level, test_alpha alpha level = true <-> alpha <> Fin (d2r level).
Proof.
  intros alpha level. unfold test_alpha, THRESHOLD_RECAST. split.
  - intros H E. subst alpha. assert (Q : xeq (Fin (d2r level)) (Fin (d2r level)) = true) by (cbn; apply Reqb_true; reflexivity). rewrite Q in H.
    cbn in H. apply Rltb_true in H. rewrite Rabs_right in H by lra. lra.
  - intros H. assert (Q : xeq alpha (Fin (d2r level)) = false).
    { destruct alpha as [a| | |]; try reflexivity. cbn. apply Reqb_false. intros E. apply H. subst. reflexivity. }
    rewrite Q. cbn. apply Rltb_true. rewrite Rabs_R0. lra.
Qed.
Print Assumptions C145_alpha_accepts.
Theorem C145_alpha : forall level, test_alpha (stored32 level) level = true <-> ~ representable float32 (d2r level).
Proof.
  intros level. rewrite C145_alpha_accepts. unfold stored32. split.
  - intros H R. apply H. apply C120_exact; [exact good32|exact R].
  - intros H E. apply H. exact (proj1 (C120_nearest float32 level _ good32 E)).
Qed.
Print Assumptions C145_alpha.
(* a level of one half is stored exactly and refused; a level of 0 stored instead of any other one is accepted *)
Theorem C145_alpha_refuted : exists level, stored32 level = Fin (d2r level) /\ 0 < d2r level < 1 /\ test_alpha (stored32 level) level = false.
Proof.
  exists (Dy 1 (-1)). assert (E : stored32 (Dy 1 (-1)) = Fin (d2r (Dy 1 (-1)))) by reflexivity. split; [exact E|]. split; [unfold d2r, two_pow; cbn [dm de]; assert (powerRZ 2 (-1) = / 2) as -> by (unfold powerRZ; change (Pos.to_nat 1) with 1%nat; rewrite pow_1; reflexivity); lra|].
  destruct (test_alpha (stored32 (Dy 1 (-1))) (Dy 1 (-1))) eqn:T; [|reflexivity]. apply C145_alpha_accepts in T. contradiction.
Qed.
Print Assumptions C145_alpha_refuted.
(* the other assertion accepts exact storage, and every level below one sixth *)
Theorem C145_eta : forall v, representable float32 (d2r v) \/ powerRZ 2 (-126) <= Rabs (d2r v) <= / 6 -> test_eta (stored32 v) v = true.
Proof.
  intros v [H|[H1 H2]]; unfold test_eta, stored32.
  - rewrite (C120_exact float32 v good32 H). cbn. apply Rltb_true. replace (d2r v + - d2r v) with 0 by ring. rewrite Rabs_R0. unfold THRESHOLD_RECAST. lra.
  - assert (F : exists r, convert float32 v = Fin r).
    { apply (C120_overflow float32 v good32). apply Rle_lt_trans with (/ 6); [exact H2|]. unfold overflow_from. cbn [prec emax float32]. change (128 - 24)%Z with 104%Z.
      apply Rlt_le_trans with (1 * 1); [lra|]. apply Rmult_le_compat; try lra; [change (powerRZ 2 24) with (two_pow 24); rewrite tp_IZR by lia; change (2 ^ 24)%Z with 16777216%Z; lra|].
      rewrite <- (powerRZ_O 2). apply (tp_le 0 104). lia. }
    destruct F as [r F]. rewrite F. pose proof (C120_relative float32 v r good32 F) as B. cbn [emin prec float32] in B. specialize (B H1).
    cbn. apply Rltb_true. rewrite <- Rabs_Ropp. replace (- (r + - d2r v)) with (d2r v - r) by ring. apply Rle_lt_trans with (1 := B).
    apply Rle_lt_trans with (powerRZ 2 (-24) * / 6); [apply Rmult_le_compat_l; [apply Rlt_le, powerRZ_lt; lra|exact H2]|].
    unfold THRESHOLD_RECAST. assert (E : powerRZ 2 (-24) = / 16777216).
    { assert (M : two_pow (-24) * two_pow 24 = 1) by (rewrite <- tp_add; reflexivity). rewrite (tp_IZR 24) in M by lia. change (2 ^ 24)%Z with 16777216%Z in M.
      unfold two_pow in M. lra. }
    rewrite E. lra.
Qed.
Print Assumptions C145_eta.

(* ---------- cases ---------- *)
Example C145_case : all_right [2; 1] 0 generate_points /\ test_fit [2; 1] 0 = true /\ test_fit [1; -1] 0 = false /\ test_fit_fi_cvx [1; -1] 0 = true /\
  test_log_reg_reg [3] [1] 1 1 = true.
Proof.
  assert (A : all_right [2; 1] 0 generate_points).
  { unfold all_right, generate_points, opposites. cbn [combine map app]. repeat (apply Forall_cons; [unfold dot; cbn; lra|]). constructor. }
  split; [exact A|]. split; [apply C145_right_passes, A|]. split; [|split].
  - destruct (test_fit [1; -1] 0) eqn:E; [|reflexivity]. apply C145_fit_accepts in E. replace (1 + -1) with 0 in E by ring. rewrite Rabs_R0 in E.
    pose proof tol_bounds. pose proof sqrt2_pos. pose proof (norm2_nonneg [1; -1]). assert (0 <= sqrt 2 * (1 - ANGLE_TOL) * norm2 [1; -1]) by (repeat apply Rmult_le_pos; lra). lra.
  - apply C145_cvx_accepts_all. lra.
  - replace [3] with (vscal 3 [1]) by (cbn; f_equal; ring). rewrite C145_exact_direction by lra. unfold test_log_reg_reg, np_isclose. cbn.
    apply andb_true_iff. split; [apply andb_true_iff; split; [|reflexivity]|]; apply Rleb_true; replace (_ - _) with 0 by ring; rewrite Rabs_R0.
    + match goal with |- _ <= _ + _ * Rabs ?x => pose proof (Rabs_pos x) as P; unfold TOL; lra end.
    + pose proof (Rabs_pos 1). unfold TOL. lra.
Qed.
Example C145_consistency_case : test_consistency 2 [[1; 2]; [1; 2]; [1; 2]; [1; 2]] = true.
Proof. apply (C145_consistency_same 2 _ [1; 2]); [discriminate|repeat constructor]. Qed.
(* the risk levels of the test: the float64 nearest to one twentieth is not a float32 *)
Example C145_alpha_case : test_alpha (stored32 (Dy 3602879701896397 (-56))) (Dy 3602879701896397 (-56)) = true.
Proof.
  apply C145_alpha_accepts. assert (E : stored32 (Dy 3602879701896397 (-56)) = Fin (d2r (Dy 13421773 (-28)))) by reflexivity. rewrite E. intros H. injection H as H.
  unfold d2r in H. cbn [dm de] in H. replace (-28)%Z with (-56 + 28)%Z in H by lia. rewrite tp_add, (tp_IZR 28) in H by lia. change (2 ^ 28)%Z with 268435456%Z in H.
  pose proof (tp_pos (-56)). assert (Q : two_pow (-56) * (IZR 13421773 * IZR 268435456 - IZR 3602879701896397) = 0) by lra.
  apply Rmult_integral in Q. destruct Q; lra.
Qed.
Example C145_eta_case : representable float32 (d2r (Dy 1 (-1))) /\ test_eta (stored32 (Dy 1 (-1))) (Dy 1 (-1)) = true.
Proof.
  assert (R : representable float32 (d2r (Dy 1 (-1)))).
  { exists 1%Z, (-1)%Z. split; [reflexivity|]. split; [cbn; lia|]. split; [cbn; lia|]. unfold d2r. cbn [dm de]. rewrite Rmult_1_l. rewrite Rabs_right by (apply Rle_ge, Rlt_le, tp_pos).
    apply (tp_lt (-1) 128). lia. }
  split; [exact R|]. apply C145_eta. left. exact R.
Qed.
