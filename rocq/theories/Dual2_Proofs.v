(* More about the robust objective: distance to the unregularised one, large epsilon, joint convexity, invariances, stability and
   the derivative in the multiplier. *)
From Coq Require Import Reals Bool String List Lra Lia Permutation Psatz Ranalysis.
From Verif Require Import PyBase RList XReal LogMeanExp Dual_Model Dual_Spec Dual_Proofs.
Import ListNotations.
Local Open Scope R_scope.

(* ---------- log-mean-exp ---------- *)
Lemma sumexp_ge f a : In a f -> exp a <= sumexp f.
Proof.
  unfold sumexp. induction f as [|b f IH]; [contradiction|]. cbn [map rsum]. intros [->|H].
  - assert (0 <= rsum (map exp f)) by (apply rsum_map_nonneg; intros; left; apply exp_pos). lra.
  - specialize (IH H). pose proof (exp_pos b). lra.
Qed.
Lemma lme_near_max f a : In a f -> a - ln (INR (length f)) <= lme f.
Proof.
  intros H. unfold lme. assert (a <= ln (sumexp f)); [|lra].
  rewrite <- (ln_exp a). pose proof (sumexp_ge f a H). pose proof (exp_pos a).
  destruct (Rle_lt_or_eq_dec _ _ H0) as [L|L]; [left; apply ln_increasing; lra|rewrite L; lra].
Qed.
Lemma softmaximum_near_max eps f M : 0 < eps -> In M f -> (forall a, In a f -> a <= M) ->
  M - eps * ln (INR (length f)) <= softmaximum eps f <= M.
Proof.
  intros He Hin HM. assert (Hne : f <> []) by (intros E; rewrite E in Hin; contradiction). split.
  - unfold softmaximum. pose proof (lme_near_max (map (fun a => a / eps) f) (M / eps) (in_map _ _ _ Hin)) as H.
    rewrite map_length in H. apply (Rmult_le_compat_l eps) in H; [|lra].
    replace (eps * (M / eps - ln (INR (length f)))) with (M - eps * ln (INR (length f))) in H by (field; lra). exact H.
  - apply softmaximum_bounds; assumption.
Qed.

Lemma exp_quad x : x <= / 2 -> exp x <= 1 + x + 2 * (x * x).
Proof.
  intros H. pose proof (exp_tangent (- x) 0) as T. rewrite exp_0 in T. pose proof (exp_pos x) as Px.
  assert (E : exp x * exp (- x) = 1) by (rewrite <- exp_plus, Rplus_opp_r; apply exp_0).
  assert (U : exp x * (1 - x) <= 1) by nra.
  assert (V : 1 <= (1 - x) * (1 + x + 2 * (x * x))) by nra.
  assert (W : exp x * (1 - x) <= (1 + x + 2 * (x * x)) * (1 - x)) by lra.
  apply Rmult_le_reg_r with (1 - x); lra.
Qed.
Lemma lme_quad f : f <> [] -> (forall a, In a f -> a - rmean f <= / 2) ->
  lme f <= rmean f + 2 * rmean (map (fun a => (a - rmean f) * (a - rmean f)) f).
Proof.
  intros Hne H. set (c := rmean f) in *.
  assert (E : lme f = lme (map (fun a => a - c) f) + c).
  { rewrite <- (lme_shift c (map (fun a => a - c) f)) by (apply map_neq_nil; exact Hne). rewrite map_map. f_equal.
    rewrite <- (map_id f) at 1. apply map_ext. intros; ring. }
  rewrite E. set (g := map (fun a => a - c) f).
  assert (Hg : g <> []) by (apply map_neq_nil; exact Hne).
  pose proof (sumexp_pos g Hg) as Sp. pose proof (INR_length_pos g Hg) as Lp.
  assert (L : lme g <= rmean (map exp g) - 1).
  { unfold lme. assert (Q : ln (sumexp g) - ln (INR (length g)) = ln (sumexp g / INR (length g))).
    { unfold Rdiv. rewrite ln_mult; [|assumption|apply Rinv_0_lt_compat; assumption]. rewrite ln_Rinv by assumption. ring. }
    rewrite Q. unfold rmean. rewrite map_length. fold (sumexp g). apply ln_le_pred. apply Rdiv_lt_0_compat; assumption. }
  assert (B : rmean (map exp g) <= rmean (map (fun a => 1 + a + 2 * (a * a)) g)).
  { apply rmean_map_le. intros a Ha. apply exp_quad. unfold g in Ha. apply in_map_iff in Ha. destruct Ha as [b [<- Hb]]. apply H; exact Hb. }
  rewrite rmean_map_plus in B. rewrite (rmean_map_plus (fun _ => 1) (fun a => a)) in B.
  rewrite rmean_map_const in B by exact Hg. rewrite (rmean_map_scal 2 (fun a => a * a)) in B.
  assert (Z : rmean (map (fun a => a) g) = 0).
  { unfold g. rewrite map_map, rmean_map_minus, map_id, rmean_map_const by exact Hne. unfold c. ring. }
  rewrite Z in B. replace (map (fun a => a * a) g) with (map (fun a => (a - c) * (a - c)) f) in B by (unfold g; rewrite map_map; reflexivity). lra.
Qed.
Lemma softmaximum_quad eps f : 0 < eps -> f <> [] -> (forall a, In a f -> 2 * (a - rmean f) <= eps) ->
  softmaximum eps f <= rmean f + 2 * rmean (map (fun a => (a - rmean f) * (a - rmean f)) f) / eps.
Proof.
  intros He Hne H. unfold softmaximum. set (h := map (fun a => a / eps) f).
  assert (M : rmean h = rmean f / eps).
  { unfold h. rewrite (map_ext (fun a => a / eps) (fun a => / eps * a)) by (intros; unfold Rdiv; ring).
    rewrite (rmean_map_scal (/ eps) (fun a => a)), map_id. unfold Rdiv; ring. }
  assert (Q : lme h <= rmean h + 2 * rmean (map (fun a => (a - rmean h) * (a - rmean h)) h)).
  { apply lme_quad; [apply map_neq_nil; exact Hne|]. intros a Ha. unfold h in Ha. apply in_map_iff in Ha. destruct Ha as [b [<- Hb]].
    rewrite M. specialize (H b Hb). replace (b / eps - rmean f / eps) with ((b - rmean f) * / eps) by (field; lra).
    apply Rmult_le_reg_r with (2 * eps); [lra|]. replace ((b - rmean f) * / eps * (2 * eps)) with (2 * (b - rmean f)) by (field; lra). lra. }
  rewrite M in Q. unfold h in Q at 2. rewrite map_map in Q.
  rewrite (map_ext _ (fun a => / (eps * eps) * ((a - rmean f) * (a - rmean f)))) in Q by (intros; field; lra).
  rewrite rmean_map_scal in Q. apply (Rmult_le_compat_l eps) in Q; [|lra].
  eapply Rle_trans; [exact Q|]. right. field. lra.
Qed.

Lemma softmaximum_double eps f : 0 < eps -> f <> [] -> softmaximum eps (f ++ f) = softmaximum eps f.
Proof.
  intros He Hne. unfold softmaximum, lme, sumexp. rewrite !map_app, rsum_app, app_length, plus_INR, !map_length.
  pose proof (INR_length_pos f Hne) as L. pose proof (sumexp_pos (map (fun a => a / eps) f) (map_neq_nil _ _ Hne)) as S. unfold sumexp in S.
  set (s := rsum (map exp (map (fun a => a / eps) f))) in *. set (n := INR (length f)) in *.
  replace (s + s) with (2 * s) by ring. replace (n + n) with (2 * n) by ring. rewrite !ln_mult by lra. f_equal. ring.
Qed.

(* ---------- means ---------- *)
Lemma rmean_app l m : l <> [] -> m <> [] ->
  rmean (l ++ m) = (INR (length l) * rmean l + INR (length m) * rmean m) / (INR (length l) + INR (length m)).
Proof.
  intros Hl Hm. unfold rmean. rewrite rsum_app, app_length, plus_INR. pose proof (INR_length_pos l Hl). pose proof (INR_length_pos m Hm). field. lra.
Qed.

(* ---------- derivatives ---------- *)
Lemma deriv_rsum {A} (f g : A -> R -> R) x : forall l : list A, (forall a, In a l -> derivable_pt_lim (f a) x (g a x)) ->
  derivable_pt_lim (fun t => rsum (map (fun a => f a t) l)) x (rsum (map (fun a => g a x) l)).
Proof.
  induction l as [|a l IH]; intros H; cbn [map rsum]; [apply derivable_pt_lim_const|].
  apply (derivable_pt_lim_plus (f a) (fun t => rsum (map (fun a => f a t) l))); [apply H; left; reflexivity|apply IH; intros; apply H; right; assumption].
Qed.
Lemma deriv_exp_affine u v x : derivable_pt_lim (fun t => exp (u + v * t)) x (v * exp (u + v * x)).
Proof.
  assert (D : derivable_pt_lim (fun t => u + v * t) x v).
  { pose proof (derivable_pt_lim_plus (fun _ => u) (fun t => v * t) x 0 (0 * x + v * 1) (derivable_pt_lim_const u x)
      (derivable_pt_lim_mult (fun _ => v) (fun t => t) x 0 1 (derivable_pt_lim_const v x) (derivable_pt_lim_id x))) as D.
    replace (0 + (0 * x + v * 1)) with v in D by ring. exact D. }
  rewrite Rmult_comm. apply (derivable_pt_lim_comp (fun t => u + v * t) exp); [exact D|apply derivable_pt_lim_exp].
Qed.

Section More.
Variable P : Type.
Variable loss : P -> R.
Variable cost : P -> P -> R.

(* weights of the samples of a point, proportional to exp((loss - lam * cost) / eps) *)
Definition gibbs (eps lam : R) (r : row P) : list R :=
  map (fun z => exp ((loss z - lam * cost (r_xi r) z) / eps) / rsum (map (fun z' => exp ((loss z' - lam * cost (r_xi r) z') / eps)) (r_zeta r))) (r_zeta r).

Lemma gibbs_best eps lam r : gibbs eps lam r = best P loss cost eps lam r.
Proof. unfold gibbs, best, softmax, sumexp, pen. rewrite !map_map. reflexivity. Qed.

Lemma soft_deriv eps lam r : 0 < eps -> r_zeta r <> [] ->
  derivable_pt_lim (fun l => soft P loss cost eps l r) lam (- rsum (map2 (fun w z => w * cost (r_xi r) z) (gibbs eps lam r) (r_zeta r))).
Proof.
  intros He Hne. set (S := fun l => rsum (map (fun z => exp (loss z / eps + - (cost (r_xi r) z / eps) * l)) (r_zeta r))).
  assert (E : forall l, soft P loss cost eps l r = eps * (ln (S l) - ln (INR (length (r_zeta r))))).
  { intros l. unfold soft, softmaximum, lme, sumexp, pen, S. rewrite !map_length, !map_map. do 3 f_equal. f_equal. apply map_ext. intros z. f_equal. field. lra. }
  assert (Sp : forall l, 0 < S l).
  { intros l. unfold S. apply rsum_pos; [apply map_neq_nil; exact Hne|]. apply Forall_forall. intros y Hy. apply in_map_iff in Hy. destruct Hy as [z [<- _]]. apply exp_pos. }
  set (dS := rsum (map (fun z => - (cost (r_xi r) z / eps) * exp (loss z / eps + - (cost (r_xi r) z / eps) * lam)) (r_zeta r))).
  assert (DS : derivable_pt_lim S lam dS).
  { unfold S, dS. apply (deriv_rsum (fun z l => exp (loss z / eps + - (cost (r_xi r) z / eps) * l)) (fun z l => - (cost (r_xi r) z / eps) * exp (loss z / eps + - (cost (r_xi r) z / eps) * l))).
    intros z _. apply deriv_exp_affine. }
  assert (DL : derivable_pt_lim (fun l => ln (S l)) lam (/ S lam * dS)).
  { apply (derivable_pt_lim_comp S ln); [exact DS|apply derivable_pt_lim_ln; apply Sp]. }
  assert (DF : derivable_pt_lim (fun l => eps * (ln (S l) - ln (INR (length (r_zeta r))))) lam (eps * (/ S lam * dS - 0))).
  { apply (derivable_pt_lim_scal (fun l => ln (S l) - ln (INR (length (r_zeta r)))) eps).
    apply (derivable_pt_lim_minus (fun l => ln (S l)) (fun _ => ln (INR (length (r_zeta r))))); [exact DL|apply derivable_pt_lim_const]. }
  replace (- rsum (map2 (fun w z => w * cost (r_xi r) z) (gibbs eps lam r) (r_zeta r))) with (eps * (/ S lam * dS - 0)).
  - intros e Hp. destruct (DF e Hp) as [d Hd]. exists d. intros h H1 H2. rewrite !E. apply Hd; assumption.
  - unfold gibbs. set (T := rsum (map (fun z' => exp ((loss z' - lam * cost (r_xi r) z') / eps)) (r_zeta r))).
    assert (TS : T = S lam). { unfold T, S. f_equal. apply map_ext. intros z. f_equal. field. lra. }
    rewrite map2_map_l, map2_same. unfold dS.
    rewrite (map_ext (fun z => - (cost (r_xi r) z / eps) * exp (loss z / eps + - (cost (r_xi r) z / eps) * lam))
                     (fun z => - (T / eps) * (exp ((loss z - lam * cost (r_xi r) z) / eps) / T * cost (r_xi r) z))).
    + rewrite rsum_map_scal. rewrite <- TS. pose proof (Sp lam). rewrite <- TS in H. field. lra.
    + intros z. pose proof (Sp lam) as Q. rewrite <- TS in Q.
      replace (loss z / eps + - (cost (r_xi r) z / eps) * lam) with ((loss z - lam * cost (r_xi r) z) / eps) by (field; lra). field. lra.
Qed.

Lemma rmean_deriv (f : row P -> R -> R) (g : row P -> R) x rows : (forall r, In r rows -> derivable_pt_lim (f r) x (g r)) ->
  derivable_pt_lim (fun t => rmean (map (fun r => f r t) rows)) x (rmean (map g rows)).
Proof.
  intros H. unfold rmean. rewrite map_length.
  assert (E : forall t, rsum (map (fun r => f r t) rows) / INR (length (map (fun r => f r t) rows)) = / INR (length rows) * rsum (map (fun r => f r t) rows)).
  { intros t. rewrite map_length. unfold Rdiv. ring. }
  replace (rsum (map g rows) / INR (length rows)) with (/ INR (length rows) * rsum (map g rows)) by (unfold Rdiv; ring).
  assert (D : derivable_pt_lim (fun t => / INR (length rows) * rsum (map (fun r => f r t) rows)) x (/ INR (length rows) * rsum (map g rows))).
  { apply (derivable_pt_lim_scal (fun t => rsum (map (fun r => f r t) rows))).
    apply (deriv_rsum f (fun r _ => g r)). exact H. }
  intros e He. destruct (D e He) as [d Hd]. exists d. intros h H1 H2. rewrite !E. apply Hd; assumption.
Qed.

Lemma objective_deriv n rows rho lam eps p : batch_ok n rows -> 0 < eps ->
  derivable_pt_lim (fun l => objective P loss cost rho l eps p rows) lam
    (Rpower rho p - adv_mean cost (map (gibbs eps lam) rows) rows).
Proof.
  intros Hb He. unfold objective.
  replace (Rpower rho p - adv_mean cost (map (gibbs eps lam) rows) rows) with
    ((1 * Rpower rho p + lam * 0) + rmean (map (fun r => - rsum (map2 (fun w z => w * cost (r_xi r) z) (gibbs eps lam r) (r_zeta r))) rows)).
  - apply (derivable_pt_lim_plus (fun l => l * Rpower rho p) (fun l => rmean (map (soft P loss cost eps l) rows))).
    + apply (derivable_pt_lim_mult (fun l => l) (fun _ => Rpower rho p)); [apply derivable_pt_lim_id|apply derivable_pt_lim_const].
    + apply (rmean_deriv (fun r l => soft P loss cost eps l r)). intros r Hr. apply soft_deriv; [exact He|]. exact (batch_nonempty P n rows Hb r Hr).
  - unfold adv_mean. rewrite map2_map_l, map2_same.
    rewrite (map_ext (fun r => - rsum (map2 (fun w z => w * cost (r_xi r) z) (gibbs eps lam r) (r_zeta r)))
                     (fun r => -1 * rsum (map2 (fun w z => w * cost (r_xi r) z) (gibbs eps lam r) (r_zeta r)))) by (intros; ring).
    rewrite rmean_map_scal. ring.
Qed.
End More.
