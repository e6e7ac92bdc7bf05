(* C146: the logistic regression on samples that a linear score separates (tests/misc/test_auto_convergence.py). *)
From Coq Require Import Reals List String Lra Lia Arith Bool.
From Verif Require Import PyBase RList XReal LogMeanExp Tensor Loss_Model Loss_Spec Costs_Model Costs_Spec Costs_Proofs
  Dual_Model Dual_Spec Dual_Proofs Transport_Spec Transport_Proofs DedProg_Model DedProg_Spec DedLog_Proofs InitLabel_Proofs Gradient
  TDual_Model TDual_Spec TDual_Proofs Suite_Model Suite_Spec Props_Loss Props_TDual.
Import ListNotations.
Local Open Scope R_scope.
Notation length := List.length.

(* ---------- lemmas ---------- *)
Lemma rsum_map_lt {A} (f g : A -> R) l : l <> [] -> (forall a, In a l -> f a < g a) -> rsum (map f l) < rsum (map g l).
Proof.
  induction l as [|a l IH]; intros N H; [congruence|]. cbn [map]. change (f a + rsum (map f l) < g a + rsum (map g l)).
  pose proof (H a (or_introl eq_refl)). destruct l as [|b l]; [cbn; lra|].
  assert (rsum (map f (b :: l)) < rsum (map g (b :: l))) by (apply IH; [discriminate|intros; apply H; right; assumption]). lra.
Qed.
Lemma rmean_map_lt {A} (f g : A -> R) l : l <> [] -> (forall a, In a l -> f a < g a) -> rmean (map f l) < rmean (map g l).
Proof.
  intros N H. unfold rmean. rewrite !map_length. pose proof (INR_length_pos l N). unfold Rdiv.
  apply Rmult_lt_compat_r; [apply Rinv_0_lt_compat; assumption|apply rsum_map_lt; assumption].
Qed.
Lemma softmaximum_lt {A} eps (f g : A -> R) l : 0 < eps -> l <> [] -> (forall a, In a l -> f a < g a) ->
  softmaximum eps (map f l) < softmaximum eps (map g l).
Proof.
  intros He N H. unfold softmaximum, lme, sumexp. rewrite !map_length, !map_map. apply Rmult_lt_compat_l; [exact He|].
  apply Rplus_lt_compat_r. apply ln_increasing.
  - rewrite <- (map_map (fun x => f x / eps) exp). apply (sumexp_pos (map (fun x => f x / eps) l)). apply map_neq_nil. exact N.
  - apply rsum_map_lt; [exact N|]. intros a Ha. apply exp_increasing. unfold Rdiv. apply Rmult_lt_compat_r; [apply Rinv_0_lt_compat; exact He|]. apply H, Ha.
Qed.
Lemma log_loss_pos w b z : 0 < log_loss w b z.
Proof. unfold log_loss. rewrite <- ln_1. apply ln_increasing; [lra|]. pose proof (exp_pos (- (snd z * (dot w (fst z) + b)))). lra. Qed.
Lemma log_loss_lt w b w' b' z : snd z * (dot w (fst z) + b) < snd z * (dot w' (fst z) + b') -> log_loss w' b' z < log_loss w b z.
Proof.
  intros H. unfold log_loss. apply ln_increasing; [pose proof (exp_pos (- (snd z * (dot w' (fst z) + b')))); lra|].
  apply Rplus_lt_compat_l. apply exp_increasing. lra.
Qed.
Lemma log_loss_small w b z m : 0 < m -> m <= snd z * (dot w (fst z) + b) -> log_loss w b z < / m.
Proof.
  intros Hm H. unfold log_loss. set (e := exp (- (snd z * (dot w (fst z) + b)))).
  assert (E0 : 0 < e) by apply exp_pos.
  apply Rle_lt_trans with e. { pose proof (ln_le_pred (1 + e) ltac:(lra)). lra. }
  apply Rle_lt_trans with (exp (- m)).
  { unfold e. destruct H as [H|H]; [left; apply exp_increasing; lra|rewrite H; lra]. }
  rewrite exp_Ropp. apply Rinv_lt_contravar; [apply Rmult_lt_0_compat; [exact Hm|apply exp_pos]|].
  pose proof (exp_ineq1 m ltac:(lra)). lra.
Qed.
Lemma least_margin (f : vec * R -> R) l : (forall z, In z l -> 0 < f z) -> exists m, 0 < m /\ forall z, In z l -> m <= f z.
Proof.
  induction l as [|a l IH]; intros H; [exists 1; split; [lra|intros z []]|].
  destruct IH as (m & Hm & L); [intros; apply H; right; assumption|]. exists (Rmin m (f a)). split.
  - apply Rmin_glb_lt; [exact Hm|apply H; left; reflexivity].
  - intros z [<-|Hz]; [apply Rmin_r|]. eapply Rle_trans; [apply Rmin_l|apply L, Hz].
Qed.

Lemma Rpower_mult_distr_r x y z : 0 < x -> 0 < y -> Rpower (x * y) z = Rpower x z * Rpower y z.
Proof. intros. symmetry. apply Rpower_mult_distr; assumption. Qed.

Section Any.
Variable P : Type.
Variable cost : P -> P -> R.
Variable displace : list (row P) -> Result (list (P * list P)).
Variable lp : P -> P -> R.
Variable lpr : P -> P -> P -> R.
(* a loss that is smaller at every sample has a smaller objective, whatever the costs *)
Lemma smaller_everywhere loss loss' n rows rho lam eps p : batch_ok n rows -> 0 < rho -> 0 < eps ->
  (forall r z, In r rows -> In z (r_zeta r) -> loss' z < loss z) ->
  exists v v', compute_dual P loss cost displace lp lpr (cfg "mean" rho lam eps p) n rows = Ok (Scalar (Fin v)) /\
    compute_dual P loss' cost displace lp lpr (cfg "mean" rho lam eps p) n rows = Ok (Scalar (Fin v')) /\ v' < v.
Proof.
  intros Hb Hr He H. rewrite !(cd_mean P _ cost displace lp lpr n rows rho lam eps p Hb Hr He).
  eexists; eexists; split; [reflexivity|]. split; [reflexivity|]. unfold objective. apply Rplus_lt_compat_l.
  apply rmean_map_lt; [apply Hb|]. intros r Hin. unfold soft, pen.
  apply softmaximum_lt; [exact He|eapply batch_nonempty; eauto|]. intros z Hz. specialize (H r z Hin Hz). lra.
Qed.
End Any.

Definition rows_of (n : nat) (rows : list (row (vec * R))) (d : nat) : Prop :=
  batch_ok n rows /\ forall r z, In r rows -> In z (r_zeta r) -> length (fst z) = d.
Definition samples_right (u : vec) (b0 : R) (rows : list (row (vec * R))) : Prop := forall r, In r rows -> all_right u b0 (r_zeta r).

Section Log.
Variable cost : vec * R -> vec * R -> R.
Variable displace : list (row (vec * R)) -> Result (list (vec * R * list (vec * R))).
Variable lp : vec * R -> vec * R -> R.
Variable lpr : vec * R -> vec * R -> vec * R -> R.
Notation robust loss := (compute_dual (vec * R) loss cost displace lp lpr).

(* a step along a separating direction always lowers the value, at any model, any multiplier and any cost *)
Theorem C146_always_lower : forall n rows d rho lam eps p u b0 w b t,
  rows_of n rows d -> 0 < rho -> 0 < eps -> length u = d -> length w = d -> samples_right u b0 rows -> 0 < t ->
  exists v v', robust (log_loss w b) (cfg "mean" rho lam eps p) n rows = Ok (Scalar (Fin v)) /\
    robust (log_loss (vadd w (vscal t u)) (b + t * b0)) (cfg "mean" rho lam eps p) n rows = Ok (Scalar (Fin v')) /\ v' < v.
Proof.
  intros n rows d rho lam eps p u b0 w b t [Hb Hd] Hr He Lu Lw Hs Ht. apply smaller_everywhere; auto.
  intros r z Hin Hz. apply log_loss_lt. specialize (Hs r Hin). unfold all_right in Hs. rewrite Forall_forall in Hs. specialize (Hs z Hz).
  pose proof (Hd r z Hin Hz) as Lz.
  rewrite dot_vadd_l by (rewrite ?vscal_length; congruence). rewrite dot_vscal_l. nra.
Qed.

(* so no model of the right width is at least as good as all others *)
Theorem C146_no_minimiser : forall n rows d rho eps p u b0,
  rows_of n rows d -> 0 < rho -> 0 < eps -> length u = d -> samples_right u b0 rows ->
  ~ exists w b lam v, length w = d /\ robust (log_loss w b) (cfg "mean" rho lam eps p) n rows = Ok (Scalar (Fin v)) /\
      forall w' b' v', length w' = d -> robust (log_loss w' b') (cfg "mean" rho lam eps p) n rows = Ok (Scalar (Fin v')) -> v <= v'.
Proof.
  intros n rows d rho eps p u b0 HR Hr He Lu Hs (w & b & lam & v & Lw & E & M).
  destruct (C146_always_lower n rows d rho lam eps p u b0 w b 1 HR Hr He Lu Lw Hs ltac:(lra)) as (a & a' & E1 & E2 & L).
  assert (a = v) by (rewrite E in E1; injection E1; auto). subst a.
  assert (Lv : length (vadd w (vscal 1 u)) = d) by (rewrite vadd_length; [exact Lw|rewrite vscal_length; congruence]).
  specialize (M _ _ _ Lv E2). lra.
Qed.

(* without an intercept, when the direction needs none *)
Theorem C146_no_minimiser_lin : forall n rows d rho eps p u,
  rows_of n rows d -> 0 < rho -> 0 < eps -> length u = d -> samples_right u 0 rows ->
  ~ exists w lam v, length w = d /\ robust (log_loss w 0) (cfg "mean" rho lam eps p) n rows = Ok (Scalar (Fin v)) /\
      forall w' v', length w' = d -> robust (log_loss w' 0) (cfg "mean" rho lam eps p) n rows = Ok (Scalar (Fin v')) -> v <= v'.
Proof.
  intros n rows d rho eps p u HR Hr He Lu Hs (w & lam & v & Lw & E & M).
  destruct (C146_always_lower n rows d rho lam eps p u 0 w 0 1 HR Hr He Lu Lw Hs ltac:(lra)) as (a & a' & E1 & E2 & L).
  assert (a = v) by (rewrite E in E1; injection E1; auto). subst a.
  assert (Lv : length (vadd w (vscal 1 u)) = d) by (rewrite vadd_length; [exact Lw|rewrite vscal_length; congruence]).
  rewrite Rmult_0_r, Rplus_0_r in E2. specialize (M _ _ Lv E2). lra.
Qed.

(* a penalty c >= 0 on the model stays below every value, when the samples cost at most the radius on average *)
Theorem C146_penalty : forall n rows d rho lam eps p w b c v,
  rows_of n rows d -> 0 < rho -> 0 < eps -> 0 <= lam ->
  rmean (map (fun r => rmean (map (cost (r_xi r)) (r_zeta r))) rows) <= Rpower rho p ->
  robust (fun z => log_loss w b z + c) (cfg "mean" rho lam eps p) n rows = Ok (Scalar (Fin v)) -> c < v.
Proof.
  intros n rows d rho lam eps p w b c v [Hb _] Hr He Hl Hc E.
  destruct (objective_bounds (vec * R) (fun z => log_loss w b z + c) cost displace lp lpr n rows rho lam eps p Hb Hr He) as (v' & E' & Lo & _).
  assert (v' = v) by (rewrite E in E'; injection E'; auto). subst v'. apply Rlt_le_trans with (2 := Lo). pose proof (proj1 (proj2 Hb)) as Ne.
  assert (Nz : forall r, In r rows -> r_zeta r <> []) by (intros; eapply batch_nonempty; eauto).
  apply Rlt_le_trans with (lam * Rpower rho p + rmean (map (fun r => rmean (map (log_loss w b) (r_zeta r)) + (c - lam * rmean (map (cost (r_xi r)) (r_zeta r)))) rows)).
  - rewrite rmean_map_plus, (rmean_map_minus (fun _ => c)), rmean_map_const, rmean_map_scal by exact Ne.
    assert (0 < rmean (map (fun r => rmean (map (log_loss w b) (r_zeta r))) rows)).
    { rewrite <- (rmean_map_const 0 rows Ne). apply rmean_map_lt; [exact Ne|]. intros r Hin.
      rewrite <- (rmean_map_const 0 (r_zeta r) (Nz r Hin)). apply rmean_map_lt; [apply Nz, Hin|]. intros z _. apply log_loss_pos. }
    apply (Rmult_le_compat_l lam) in Hc; [lra|exact Hl].
  - apply Rplus_le_compat_l. apply rmean_map_le. intros r Hin. right.
    rewrite (rmean_map_minus (fun z => log_loss w b z + c)), (rmean_map_plus (log_loss w b)), rmean_map_const, rmean_map_scal by (apply Nz, Hin). ring.
Qed.

(* without a penalty the values are positive and come as close to 0 as one likes: the infimum 0 is not attained *)
Theorem C146_infimum : forall n rows d rho eps p u b0,
  rows_of n rows d -> 0 < rho -> 0 < eps -> length u = d -> samples_right u b0 rows ->
  rmean (map (fun r => rmean (map (cost (r_xi r)) (r_zeta r))) rows) <= Rpower rho p ->
  (forall w b lam v, 0 <= lam -> robust (log_loss w b) (cfg "mean" rho lam eps p) n rows = Ok (Scalar (Fin v)) -> 0 < v) /\
  (forall delta, 0 < delta -> exists t v, 0 < t /\
     robust (log_loss (vscal t u) (t * b0)) (cfg "mean" rho 0 eps p) n rows = Ok (Scalar (Fin v)) /\ 0 < v < delta).
Proof.
  intros n rows d rho eps p u b0 HR Hr He Lu Hs Hc.
  assert (Pos : forall w b lam v, 0 <= lam -> robust (log_loss w b) (cfg "mean" rho lam eps p) n rows = Ok (Scalar (Fin v)) -> 0 < v).
  { intros w b lam v Hl E. apply (C146_penalty n rows d rho lam eps p w b 0 v HR Hr He Hl Hc).
    rewrite <- E. rewrite !(cd_mean _ _ _ _ _ _ n rows rho lam eps p (proj1 HR) Hr He). do 3 f_equal. unfold objective, soft, pen. do 2 f_equal.
    apply map_ext. intros r. f_equal. apply map_ext. intros z. ring. }
  split; [exact Pos|]. intros delta Hd.
  destruct (least_margin (fun z => snd z * (dot u (fst z) + b0)) (List.concat (map r_zeta rows))) as (m & Hm & L).
  { intros z Hz. apply in_concat in Hz as (l & Hl & Hz). apply in_map_iff in Hl as (r & <- & Hin).
    specialize (Hs r Hin). unfold all_right in Hs. rewrite Forall_forall in Hs. exact (Hs z Hz). }
  set (t := 2 * / (m * delta)).
  assert (Ht : 0 < t) by (unfold t; pose proof (Rinv_0_lt_compat (m * delta) (Rmult_lt_0_compat _ _ Hm Hd)); lra).
  destruct (objective_bounds (vec * R) (log_loss (vscal t u) (t * b0)) cost displace lp lpr n rows rho 0 eps p (proj1 HR) Hr He) as (v & E & _ & Up).
  exists t, v. split; [exact Ht|]. split; [exact E|]. split; [exact (Pos _ _ 0 v ltac:(lra) E)|].
  apply Rle_lt_trans with (delta / 2); [|lra].
  rewrite <- (rmean_map_const (delta / 2) rows (proj1 (proj2 (proj1 HR)))).
  replace (rmean (map (fun _ => delta / 2) rows)) with (0 * Rpower rho p + rmean (map (fun _ : row (vec * R) => delta / 2) rows)) by ring.
  apply Up. intros r z Hin Hz. rewrite Rmult_0_l, Rminus_0_r.
  assert (Q : m <= snd z * (dot u (fst z) + b0)) by (apply L; apply in_concat; exists (r_zeta r); split; [apply in_map, Hin|exact Hz]).
  left. replace (delta / 2) with (/ (t * m)) by (unfold t; field; lra).
  apply log_loss_small; [apply Rmult_lt_0_compat; assumption|]. rewrite dot_vscal_l.
  replace (snd z * (t * dot u (fst z) + t * b0)) with (t * (snd z * (dot u (fst z) + b0))) by ring. apply Rmult_le_compat_l; [lra|exact Q].
Qed.

(* with the l2 penalty r/2 |(w,b)|^2 of the code, a model at least as good as the zero model with multiplier 0 is bounded *)
Theorem C146_ridge_bounded : forall n rows d rho lam eps p reg w b v v0,
  rows_of n rows d -> 0 < rho -> 0 < eps -> 0 <= lam -> 0 < reg ->
  rmean (map (fun r => rmean (map (cost (r_xi r)) (r_zeta r))) rows) <= Rpower rho p ->
  robust (fun z => log_loss w b z + reg / 2 * (sqnorm w + b * b)) (cfg "mean" rho lam eps p) n rows = Ok (Scalar (Fin v)) ->
  robust (log_loss (repeat 0 d) 0) (cfg "mean" rho 0 eps p) n rows = Ok (Scalar (Fin v0)) -> v <= v0 ->
  v0 = ln 2 /\ sqnorm w + b * b < 2 * ln 2 / reg.
Proof.
  intros n rows d rho lam eps p reg w b v v0 HR Hr He Hl Hg Hc E E0 Le.
  assert (V0 : v0 = ln 2).
  { assert (Ez : forall r z, In r rows -> In z (r_zeta r) -> log_loss (repeat 0 d) 0 z = ln 2).
    { intros r z Hin Hz. pose proof (proj2 HR r z Hin Hz) as Lz. unfold log_loss.
      assert (D : dot (repeat 0 d) (fst z) = 0).
      { clear - Lz. destruct z as [x y]. cbn [fst] in *. revert d Lz. induction x as [|a x IH]; intros [|d] L; try discriminate; [reflexivity|].
        cbn [repeat]. change (dot (0 :: repeat 0 d) (a :: x)) with (0 * a + dot (repeat 0 d) x). rewrite IH by (simpl in L; lia). ring. }
      rewrite D. replace (- (snd z * (0 + 0))) with 0 by ring. rewrite exp_0. f_equal; lra. }
    destruct (objective_bounds (vec * R) (log_loss (repeat 0 d) 0) cost displace lp lpr n rows rho 0 eps p (proj1 HR) Hr He) as (v' & E' & Lo & Up).
    assert (v' = v0) by (rewrite E0 in E'; injection E'; auto). subst v'. apply Rle_antisym.
    - eapply Rle_trans; [apply (Up (fun _ => ln 2)); intros r z Hin Hz; rewrite (Ez r z Hin Hz); lra|]. rewrite rmean_map_const by apply (proj1 HR). lra.
    - eapply Rle_trans; [|exact Lo]. rewrite <- (rmean_map_const (ln 2) rows (proj1 (proj2 (proj1 HR)))) at 1.
      rewrite Rmult_0_l, Rplus_0_l. apply rmean_map_le. intros r Hin.
      rewrite <- (rmean_map_const (ln 2) (r_zeta r) (batch_nonempty _ n rows (proj1 HR) r Hin)) at 1. apply rmean_map_le.
      intros z Hz. rewrite (Ez r z Hin Hz). lra. }
  split; [exact V0|]. pose proof (C146_penalty n rows d rho lam eps p w b _ v HR Hr He Hl Hc E) as Q. rewrite V0 in Le.
  apply (Rmult_lt_reg_l (reg / 2)); [lra|]. replace (reg / 2 * (2 * ln 2 / reg)) with (ln 2) by (field; lra). lra.
Qed.
End Log.
Print Assumptions C146_always_lower.
Print Assumptions C146_no_minimiser.
Print Assumptions C146_no_minimiser_lin.
Print Assumptions C146_penalty.
Print Assumptions C146_infimum.
Print Assumptions C146_ridge_bounded.

(* ---------- the worst case that the value stands for ---------- *)
(* features moved at Euclidean price to a power, labels kept, scores without intercept: models at least as good as c are bounded,
   although the data may be separable *)
Definition feature_power (p : R) (x z : vec * R) : R := ppow (norm2 (vsub (fst z) (fst x))) p.
Theorem C146_exact_bounded : forall d p rho R0 data w c,
  0 < p -> 0 < rho -> 0 <= R0 -> data <> [] -> length w = d ->
  Forall (fun xy => length (fst xy) = d /\ (snd xy = 1 \/ snd xy = -1) /\ norm2 (fst xy) <= R0) data ->
  tworst_le (feature_power p) (feature_only d) data (Rpower rho p) (log_loss w 0) c ->
  norm2 w <= c * Rpower (Rmax (R0 + 1) rho / rho) p.
Proof.
  intros d p rho R0 data w c Hp Hr HR Nd Lw Hx W. set (D := Rmax (R0 + 1) rho).
  assert (D1 : R0 + 1 <= D) by apply Rmax_l. assert (D2 : rho <= D) by apply Rmax_r. assert (D0 : 0 < D) by lra.
  set (th := Rpower (rho / D) p).
  assert (T0 : 0 < th) by apply exp_pos.
  assert (rD : 0 < rho / D) by (apply Rdiv_lt_0_compat; lra).
  assert (T1 : th <= 1).
  { unfold th. rewrite <- (ppow_pos (rho / D) p rD), <- (ppow_one p). apply ppow_le; [exact Hp|lra|]. apply (Rmult_le_reg_r D); [exact D0|]. unfold Rdiv. rewrite Rmult_assoc, Rinv_l by lra. lra. }
  assert (Inv : th * Rpower (D / rho) p = 1).
  { unfold th. rewrite <- Rpower_mult_distr_r by (try exact rD; apply Rdiv_lt_0_compat; lra). replace (rho / D * (D / rho)) with 1 by (field; lra).
    unfold Rpower. rewrite ln_1, Rmult_0_r, exp_0. reflexivity. }
  rewrite Forall_forall in Hx.
  set (far := fun xy : vec * R => (xy, [(1 - th, xy); (th, far_point w D xy)]) : (vec * R) * tlaw).
  assert (Far : forall xy, In xy data -> feature_only d xy (far_point w D xy) /\ feature_power p xy (far_point w D xy) <= Rpower D p /\ norm2 w <= log_loss w 0 (far_point w D xy)).
  { intros xy Hin. destruct (Hx xy Hin) as (X1 & X2 & X3).
    destruct (far_point_spec d 1 w 0 Lw D xy ltac:(lra) X1 X2) as ([F1 F2] & F3 & F4).
    split; [split; [exact F1|reflexivity]|]. split.
    - unfold feature_power. rewrite <- (ppow_pos D p D0). apply ppow_le; [exact Hp|apply norm2_nonneg|]. unfold flip_price in F3.
      change (snd (far_point w D xy)) with (snd xy) in F3. revert F3. match goal with |- context [Req_EM_T ?a ?b] => destruct (Req_EM_T a b) as [_|N] end; [|exfalso; apply N; reflexivity]. rewrite Rplus_0_r. intros F3. exact F3.
    - apply Rle_trans with (2 := F4). unfold margin. pose proof (abs_dot w (fst xy) ltac:(unfold vec in *; congruence)) as A.
      assert (B : snd xy * (dot w (fst xy) + 0) <= norm2 w * R0).
      { rewrite Rplus_0_r. eapply Rle_trans; [|apply Rmult_le_compat_l; [apply norm2_nonneg|exact X3]]. apply Rle_trans with (2 := A).
        unfold Rabs. destruct (Rcase_abs _); destruct X2 as [->| ->]; lra. }
      pose proof (norm2_nonneg w). apply Rle_trans with (norm2 w * D - norm2 w * R0); [nra|]. apply Rplus_le_compat_l, Ropp_le_contravar. exact B. }
  assert (Hok : tplan_ok (feature_power p) (feature_only d) data (Rpower rho p) (map far data)).
  { split; [rewrite map_map; apply map_id|]. split.
    - apply Forall_forall. intros xl Hin. apply in_map_iff in Hin as (xy & <- & Hin). destruct (Hx xy Hin) as (X1 & _). destruct (Far xy Hin) as (F1 & _). split.
      + unfold far. cbn [fst snd]. apply Forall_cons; [split; [cbn [fst]; lra|split; [exact X1|reflexivity]]|apply Forall_cons; [split; [cbn [fst]; lra|exact F1]|apply Forall_nil]].
      + cbn. ring.
    - unfold tplan_cost. rewrite map_map. rewrite <- (rmean_map_const (Rpower rho p) data Nd). apply rmean_map_le. intros xy Hin.
      unfold texpect, far. cbn [fst snd map rsum fold_right]. destruct (Far xy Hin) as (_ & F2 & _).
      assert (S0 : feature_power p xy xy = 0) by (unfold feature_power; rewrite norm2_self; apply ppow_0). rewrite S0.
      replace (Rpower rho p) with (th * Rpower D p).
      + apply (Rmult_le_compat_l th) in F2; [lra|lra].
      + unfold th. rewrite <- Rpower_mult_distr_r by (try exact rD; exact D0). f_equal. field. lra. }
  specialize (W _ Hok). unfold tplan_value in W. rewrite map_map in W.
  assert (Q : th * norm2 w <= c).
  { apply Rle_trans with (2 := W). rewrite <- (rmean_map_const (th * norm2 w) data Nd). apply rmean_map_le. intros xy Hin. unfold texpect, far. cbn [fst snd map rsum fold_right].
    destruct (Far xy Hin) as (_ & _ & F3). pose proof (log_loss_pos w 0 xy). apply (Rmult_le_compat_l th) in F3; [|lra]. nra. }
  fold D. apply (Rmult_le_reg_l th); [exact T0|]. replace (th * (c * Rpower (D / rho) p)) with (c * (th * Rpower (D / rho) p)) by ring. rewrite Inv. lra.
Qed.
Print Assumptions C146_exact_bounded.

(* ... and the zero model is as good as ln 2 *)
Theorem C146_exact_zero : forall d p rho data, data <> [] ->
  tworst_le (feature_power p) (feature_only d) data (Rpower rho p) (log_loss (repeat 0 d) 0) (ln 2).
Proof.
  intros d p rho data Nd P (Hf & Hl & _). unfold tplan_value.
  assert (Np : P <> []) by (intros ->; cbn in Hf; congruence).
  rewrite <- (rmean_map_const (ln 2) P Np). apply rmean_map_le. intros xl Hin. rewrite Forall_forall in Hl. destruct (Hl xl Hin) as [Fw S1].
  unfold texpect. right. rewrite <- (Rmult_1_r (ln 2)), <- S1, <- rsum_map_scal. f_equal.
  apply map_ext_in. intros wa Hwa. rewrite Forall_forall in Fw. destruct (Fw wa Hwa) as (_ & L & _).
  assert (D : dot (repeat 0 d) (fst (snd wa)) = 0).
  { clear - L. destruct (snd wa) as [x y]. cbn [fst] in *. revert d L. induction x as [|a x IH]; intros [|d] L; try discriminate; [reflexivity|].
    cbn [repeat]. change (dot (0 :: repeat 0 d) (a :: x)) with (0 * a + dot (repeat 0 d) x). rewrite IH by (simpl in L; lia). ring. }
  unfold log_loss. rewrite D. replace (- (snd (snd wa) * (0 + 0))) with 0 by ring. rewrite exp_0. replace (1 + 1) with 2 by lra. ring.
Qed.
Print Assumptions C146_exact_zero.

(* ---------- the wrapped module on tensors ---------- *)
Lemma point_rows_batch {P} (dflt : P) n means xs zs : (0 < n)%nat -> xs <> [] -> length zs = n -> batch_ok n (point_rows dflt means xs zs).
Proof.
  intros Hn Nx L. split; [exact Hn|]. split.
  - unfold point_rows. apply map_neq_nil. destruct xs; [congruence|discriminate].
  - unfold point_rows. apply Forall_map, Forall_forall. intros j _. cbn [r_zeta]. rewrite map_length. exact L.
Qed.
Lemma bin_samples wt b : samplewise_labelled (w_value (bin_loss wt b) (bin_wrapped wt b)) (length wt) 1 (fun x y => rmean [ln (1 + exp (- (hd 0 y * (dot wt x + b))))] + 0).
Proof.
  apply (C112_losses_labelled _ _ 0 (length wt) 1 1 (fun x y => [ln (1 + exp (- (hd 0 y * (dot wt x + b))))])); try reflexivity; try lia.
  - left. split; reflexivity.
  - apply (bin_rowwise wt b).
Qed.
Theorem C146_tensor : forall wt b u b0 t c s grads n xs ys zs zls rho lam eps,
  length u = length wt -> widths (length wt) xs -> widths 1 ys -> length ys = length xs ->
  is_grid n (length xs) (length wt) zs -> is_grid n (length xs) 1 zls -> xs <> [] -> zs <> [] -> 0 < rho -> 0 < eps -> 0 < t ->
  (forall j z zl, (j < length xs)%nat -> In (z, zl) (combine zs zls) -> 0 < hd 0 (nth j zl []) * (dot u (nth j z []) + b0)) ->
  let value w' b' := t_compute_dual (bin_loss w' b') (bin_wrapped w' b') c s grads (cfg "mean" rho lam eps (tc_power c))
    (Tensor.batch [length xs] (length wt) xs) (Some (Tensor.batch [length xs] 1 ys)) (grid n (length xs) (length wt) zs) (Some (grid n (length xs) 1 zls)) in
  exists v v', value wt b = Ok (Scalar (Fin v)) /\ value (vadd wt (vscal t u)) (b + t * b0) = Ok (Scalar (Fin v')) /\ v' < v.
Proof.
  intros wt b u b0 t c s grads n xs ys zs zls rho lam eps Lu W W' E G G' Nx Nz Hr He Ht Hs value. unfold value.
  assert (Hn : (0 < n)%nat) by (destruct G as [<- _]; destruct zs; [congruence|simpl; lia]).
  assert (Lv : length (vadd wt (vscal t u)) = length wt) by (apply vadd_length; rewrite vscal_length; congruence).
  pose proof (bin_samples wt b) as S1. pose proof (bin_samples (vadd wt (vscal t u)) (b + t * b0)) as S2. rewrite Lv in S2.
  set (disp := fun _ : list (row (vec * vec)) => @Raise (list (vec * vec * list (vec * vec))) ValueError).
  pose proof (C112_labelled _ _ s grads c (length wt) 1 _ (cfg "mean" rho lam eps (tc_power c)) n xs ys zs zls disp (fun _ _ => 0) (fun _ _ _ => 0) S1 W W' E G G' eq_refl eq_refl) as V1.
  pose proof (C112_labelled _ _ s grads c (length wt) 1 _ (cfg "mean" rho lam eps (tc_power c)) n xs ys zs zls disp (fun _ _ => 0) (fun _ _ _ => 0) S2 W W' E G G' eq_refl eq_refl) as V2.
  rewrite V1, V2. apply smaller_everywhere; auto.
  - apply point_rows_batch; [exact Hn| |].
    + destruct xs; [congruence|]. destruct ys; [discriminate E|]. discriminate.
    + rewrite map2_length; [apply G|]. destruct G as [G0 _], G' as [G0' _]. unfold vec in *. congruence.
  - intros r z0 Hin Hz. unfold point_rows in Hin. apply in_map_iff in Hin as (j & <- & Hj). apply in_seq in Hj. cbn [r_zeta] in Hz.
    assert (Lp : length (pairs xs ys) = length xs) by (apply pairs_length; symmetry; exact E). unfold vec in *. rewrite Lp in Hj.
    apply in_map_iff in Hz as (q & Eq & Hq).
    assert (X : exists z zl, In (z, zl) (combine zs zls) /\ q = pairs z zl).
    { clear - Hq. revert zls Hq. induction zs as [|a zs IH]; intros [|a' zls] Hq; cbn [map2] in Hq; try contradiction.
      destruct Hq as [<-|Hq]; [exists a, a'; split; [left; reflexivity|reflexivity]|]. destruct (IH zls Hq) as (z & zl & I & ->). exists z, zl. split; [right; exact I|reflexivity]. }
    destruct X as (z & zl & I & ->). destruct G as [_ F]. destruct G' as [_ F']. rewrite Forall_forall in F, F'.
    destruct (F z (in_combine_l _ _ _ _ I)) as [Lz Wz]. destruct (F' zl (in_combine_r _ _ _ _ I)) as [Lzl _].
    assert (P1 : nth j (pairs z zl) ([], []) = (nth j z [], nth j zl [])) by (apply combine_nth; unfold vec in *; congruence).
    assert (Z0 : z0 = (nth j z [], nth j zl [])) by (refine (eq_trans (eq_sym Eq) _); exact P1). clear Eq P1. subst z0. cbn [fst snd]. specialize (Hs j z zl (proj2 Hj) I).
    assert (Lj : length (nth j z []) = length wt) by (unfold widths in Wz; rewrite Forall_forall in Wz; apply Wz, nth_In; unfold vec in *; lia).
    apply Rplus_lt_compat_r. unfold rmean. cbn [rsum fold_right List.length INR].
    pose proof (log_loss_lt wt b (vadd wt (vscal t u)) (b + t * b0) (nth j z [], hd 0 (nth j zl []))) as Q. unfold log_loss in Q. cbn [fst snd] in Q.
    assert (Q' := Q ltac:(rewrite dot_vadd_l by (rewrite ?vscal_length; congruence); rewrite dot_vscal_l; nra)). lra.
Qed.
Print Assumptions C146_tensor.

(* ---------- the points of the test ---------- *)
Definition near (xy : vec * R) : row (vec * R) := {| r_mean := xy; r_xi := xy; r_zeta := [xy; (vscal (9 / 10) (fst xy), snd xy)] |}.
Lemma near_ok : rows_of 2 (map near generate_points) 2.
Proof.
  split; [split; [lia|]; split; [discriminate|]; repeat constructor|].
  intros r z Hin Hz. apply in_map_iff in Hin as (xy & <- & Hin). cbn [near r_zeta] in Hz.
  assert (L : length (fst xy) = 2%nat) by (cbn in Hin; repeat (destruct Hin as [<-|Hin]; [reflexivity|]); contradiction).
  destruct Hz as [<-|[<-|[]]]; [exact L|]. cbn [fst]. rewrite vscal_length. exact L.
Qed.
Lemma near_right : samples_right [1; 1] 0 (map near generate_points).
Proof.
  intros r Hin. apply in_map_iff in Hin as (xy & <- & Hin).
  cbn in Hin; repeat (destruct Hin as [<-|Hin]; [unfold all_right; repeat (apply Forall_cons; [unfold dot; cbn; lra|]); apply Forall_nil|]). contradiction.
Qed.

(* on the points of the test, whatever the cost, the radius and the temperature: every model and multiplier can be improved *)
Theorem C146_refuted : exists rows : list (row (vec * R)), map r_xi rows = generate_points /\
  forall cost displace lp lpr rho eps p w lam, 0 < rho -> 0 < eps -> length w = 2%nat -> exists w' v v', length w' = 2%nat /\
    compute_dual (vec * R) (log_loss w 0) cost displace lp lpr (cfg "mean" rho lam eps p) 2 rows = Ok (Scalar (Fin v)) /\
    compute_dual (vec * R) (log_loss w' 0) cost displace lp lpr (cfg "mean" rho lam eps p) 2 rows = Ok (Scalar (Fin v')) /\ v' < v.
Proof.
  exists (map near generate_points). split; [rewrite map_map; apply map_id|].
  intros cost displace lp lpr rho eps p w lam Hr He Lw.
  destruct (C146_always_lower cost displace lp lpr 2 _ 2 rho lam eps p [1; 1] 0 w 0 1 near_ok Hr He eq_refl Lw near_right ltac:(lra)) as (v & v' & E & E' & L).
  exists (vadd w (vscal 1 [1; 1])), v, v'. rewrite Rmult_0_r, Rplus_0_r in E'. split; [rewrite vadd_length; [exact Lw|rewrite Lw; reflexivity]|]. auto.
Qed.
Print Assumptions C146_refuted.

Example C146_always_lower_case : rows_of 2 (map near generate_points) 2 /\ samples_right [1; 1] 0 (map near generate_points).
Proof. split; [apply near_ok|apply near_right]. Qed.
(* the samples are cheap for the radius 1 and the squared Euclidean cost, and expensive for the radius 1/100 *)
Lemma near_cost : rmean (map (fun r => rmean (map (feature_sq (r_xi r)) (r_zeta r))) (map near generate_points)) = / 60.
Proof. unfold rmean, feature_sq, sqnorm, dot. cbn. field. Qed.
Example C146_infimum_case : rmean (map (fun r => rmean (map (feature_sq (r_xi r)) (r_zeta r))) (map near generate_points)) <= Rpower 1 2 /\
  Rpower (/ 100) 2 < rmean (map (fun r => rmean (map (feature_sq (r_xi r)) (r_zeta r))) (map near generate_points)).
Proof.
  rewrite near_cost. split.
  - unfold Rpower. rewrite ln_1, Rmult_0_r, exp_0. lra.
  - replace 2 with (INR 2) by (cbn; lra). rewrite Rpower_pow by lra. cbn. lra.
Qed.
Example C146_exact_bounded_case : forall w c, length w = 2%nat -> tworst_le (feature_power 2) (feature_only 2) generate_points (Rpower 1 2) (log_loss w 0) c ->
  norm2 w <= c * Rpower (Rmax (2 + 1) 1 / 1) 2.
Proof.
  intros w c Lw. apply (C146_exact_bounded 2 2 1 2 generate_points w c); try lra; [discriminate|exact Lw|].
  assert (N : forall x, sqnorm x <= 4 -> norm2 x <= 2) by (intros x H; unfold norm2; replace 2 with (sqrt (2 * 2)) by (apply sqrt_square; lra); apply sqrt_le_1_alt; lra).
  cbn. repeat (apply Forall_cons; [cbn [fst snd]; split; [reflexivity|]; split; [lra|]; apply N; unfold sqnorm, dot; cbn; lra|]). apply Forall_nil.
Qed.
Example C146_tensor_case : exists v v',
  t_compute_dual (bin_loss [1; 1] 0) (bin_wrapped [1; 1] 0) (TNLC (PFin 2) 2 KInf) (TPlain (Tensor.batch [1%nat] 2 [[1; 1]]) 1) (fun _ _ => Raise ValueError) (cfg "mean" 1 1 1 2)
    (Tensor.batch [1%nat] 2 [[1; 1]]) (Some (Tensor.batch [1%nat] 1 [[1]])) (grid 2 1 2 [[[1; 1]]; [[2; 0]]]) (Some (grid 2 1 1 [[[1]]; [[1]]])) = Ok (Scalar (Fin v)) /\
  t_compute_dual (bin_loss (vadd [1; 1] (vscal 3 [1; 1])) (0 + 3 * 0)) (bin_wrapped (vadd [1; 1] (vscal 3 [1; 1])) (0 + 3 * 0)) (TNLC (PFin 2) 2 KInf) (TPlain (Tensor.batch [1%nat] 2 [[1; 1]]) 1) (fun _ _ => Raise ValueError) (cfg "mean" 1 1 1 2)
    (Tensor.batch [1%nat] 2 [[1; 1]]) (Some (Tensor.batch [1%nat] 1 [[1]])) (grid 2 1 2 [[[1; 1]]; [[2; 0]]]) (Some (grid 2 1 1 [[[1]]; [[1]]])) = Ok (Scalar (Fin v')) /\ v' < v.
Proof.
  apply (C146_tensor [1; 1] 0 [1; 1] 0 3 (TNLC (PFin 2) 2 KInf) _ _ 2 [[1; 1]] [[1]] [[[1; 1]]; [[2; 0]]] [[[1]]; [[1]]] 1 1 1); try reflexivity; try lra; try discriminate.
  - repeat constructor.
  - repeat constructor.
  - split; [reflexivity|repeat constructor].
  - split; [reflexivity|repeat constructor].
  - intros [|j] z zl Hj I; [|cbn in Hj; lia]. cbn in I. destruct I as [I|[I|[]]]; injection I as <- <-; unfold dot; cbn; lra.
Qed.
