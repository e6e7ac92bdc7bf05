(* Strong duality for the sampled robust loss, comparison of two losses, and witnesses. *)
From Coq Require Import Reals List Bool String Lra Lia Permutation.
From Verif Require Import PyBase RList XReal LogMeanExp Dual_Model Dual_Spec Dual_Proofs.
Import ListNotations.
Local Open Scope R_scope.

(* one-sided Fermat rules *)
Lemma right_min_deriv f c l : derivable_pt_lim f c l -> (forall x, c <= x -> f c <= f x) -> 0 <= l.
Proof.
  intros Hd Hm. destruct (Rle_lt_dec 0 l) as [|Hl]; [assumption|exfalso].
  destruct (Hd (- l) ltac:(lra)) as [del Hdel].
  set (h := del / 2). assert (Hh : 0 < h) by (unfold h; pose proof (cond_pos del); lra).
  assert (Habs : Rabs h < del) by (rewrite Rabs_right by lra; unfold h; pose proof (cond_pos del); lra).
  specialize (Hdel h ltac:(lra) Habs). specialize (Hm (c + h) ltac:(lra)).
  apply Rabs_def2 in Hdel. destruct Hdel as [H1 H2].
  assert (0 <= (f (c + h) - f c) / h). { apply Rmult_le_pos; [lra|left; apply Rinv_0_lt_compat; exact Hh]. }
  lra.
Qed.

Lemma left_min_deriv f c l a : a < c -> derivable_pt_lim f c l -> (forall x, a <= x <= c -> f c <= f x) -> l <= 0.
Proof.
  intros Ha Hd Hm. destruct (Rle_lt_dec l 0) as [|Hl]; [assumption|exfalso].
  destruct (Hd l Hl) as [del Hdel].
  set (h := Rmin (del / 2) (c - a)).
  assert (Hh : 0 < h) by (unfold h; pose proof (cond_pos del); apply Rmin_glb_lt; lra).
  assert (Hh1 : h <= del / 2) by apply Rmin_l. assert (Hh2 : h <= c - a) by apply Rmin_r.
  assert (Habs : Rabs (- h) < del) by (rewrite Rabs_Ropp, Rabs_right by lra; pose proof (cond_pos del); lra).
  specialize (Hdel (- h) ltac:(lra) Habs). specialize (Hm (c + - h) ltac:(lra)).
  apply Rabs_def2 in Hdel. destruct Hdel as [H1 H2].
  assert (Hq : (f (c + - h) - f c) / - h = - ((f (c + - h) - f c) * / h)) by (field; lra).
  rewrite Hq in *.
  assert (0 <= (f (c + - h) - f c) * / h). { apply Rmult_le_pos; [lra|left; apply Rinv_0_lt_compat; exact Hh]. }
  lra.
Qed.

Lemma derivable_rsum {A} (F : A -> R -> R) (D : A -> R) x l :
  (forall a, In a l -> derivable_pt_lim (F a) x (D a)) ->
  derivable_pt_lim (fun t => rsum (map (fun a => F a t) l)) x (rsum (map D l)).
Proof.
  induction l as [|a l IH]; intros H; simpl.
  - apply derivable_pt_lim_const.
  - apply (derivable_pt_lim_plus (F a) (fun t => rsum (map (fun a => F a t) l))); [apply H; left; reflexivity|].
    apply IH. intros; apply H; right; assumption.
Qed.

Lemma derivable_scal_eq f c x l d : derivable_pt_lim f x l -> d = c * l -> derivable_pt_lim (fun t => c * f t) x d.
Proof. intros H ->. exact (derivable_pt_lim_scal f c x l H). Qed.

Lemma derivable_eq f x l l' : derivable_pt_lim f x l -> l = l' -> derivable_pt_lim f x l'.
Proof. intros H <-. exact H. Qed.

Lemma derivable_affine a b x : derivable_pt_lim (fun t => a + t * b) x b.
Proof.
  apply derivable_eq with (0 + (1 * b + x * 0)); [|ring].
  apply (derivable_pt_lim_plus (fun _ => a) (fun t => t * b)); [apply derivable_pt_lim_const|].
  apply (derivable_pt_lim_mult (fun t => t) (fun _ => b)); [apply derivable_pt_lim_id|apply derivable_pt_lim_const].
Qed.

Lemma derivable_ext f g x l : (forall t, f t = g t) -> derivable_pt_lim f x l -> derivable_pt_lim g x l.
Proof.
  intros E H e He. destruct (H e He) as [d Hd]. exists d. intros h Hh Hh'. rewrite <- !E. exact (Hd h Hh Hh').
Qed.

Section Dual.
Variable P : Type.
Variable loss : P -> R.
Variable cost : P -> P -> R.
Variable displace : list (row P) -> Result (list (P * list P)).
Variable log_prob : P -> P -> R.
Variable log_prob_recentered : P -> P -> P -> R.
Notation cd := (compute_dual P loss cost displace log_prob log_prob_recentered).
Notation pen := (pen P loss cost).
Notation soft := (soft P loss cost).
Notation objective := (objective P loss cost).
Notation best := (best P loss cost).

Lemma soft_deriv n rows eps lam r :
  batch_ok n rows -> In r rows -> 0 < eps ->
  derivable_pt_lim (fun t => soft eps t r) lam (- expect (best eps lam r) (map (cost (r_xi r)) (r_zeta r))).
Proof.
  intros Hb Hr He.
  set (ex := fun t z => exp ((loss z - t * cost (r_xi r) z) / eps)).
  set (S := fun t => rsum (map (fun z => ex t z) (r_zeta r))).
  assert (HS : 0 < S lam).
  { unfold S. apply rsum_pos; [apply map_neq_nil; exact (batch_nonempty P n rows Hb r Hr)|].
    apply Forall_map, Forall_forall. intros; apply exp_pos. }
  assert (Hex : forall z, derivable_pt_lim (fun t => ex t z) lam (ex lam z * (- cost (r_xi r) z / eps))).
  { intros z. unfold ex.
    apply (derivable_pt_lim_comp (fun t => (loss z - t * cost (r_xi r) z) / eps) exp lam); [|apply derivable_pt_lim_exp].
    apply (derivable_ext (fun t => loss z / eps + t * (- cost (r_xi r) z / eps))); [intros; field; lra|].
    apply derivable_affine. }
  assert (HSd : derivable_pt_lim S lam (rsum (map (fun z => ex lam z * (- cost (r_xi r) z / eps)) (r_zeta r)))).
  { apply (derivable_rsum (fun z t => ex t z) (fun z => ex lam z * (- cost (r_xi r) z / eps))). intros z _. apply Hex. }
  apply (derivable_ext (fun t => eps * (ln (S t) + (- ln (INR n))))).
  { intros t. unfold Dual_Proofs.soft, softmaximum, lme, sumexp. rewrite !map_length, (pen_length P loss cost n rows t r Hb Hr).
    unfold Dual_Proofs.pen. rewrite !map_map. reflexivity. }
  eapply derivable_scal_eq.
  - apply (derivable_pt_lim_plus (fun t => ln (S t)) (fun _ => - ln (INR n))); [|apply derivable_pt_lim_const].
    apply (derivable_pt_lim_comp S ln lam); [exact HSd|]. apply derivable_pt_lim_ln. exact HS.
  - rewrite Rplus_0_r. unfold expect, Dual_Proofs.best, softmax, sumexp, Dual_Proofs.pen. rewrite !map_map, map2_map_l, map2_map_r, map2_same.
    change (rsum (map (fun x => exp ((loss x - lam * cost (r_xi r) x) / eps)) (r_zeta r))) with (S lam).
    rewrite <- !rsum_map_scal, <- (Rmult_1_l (rsum _)), Ropp_mult_distr_l, <- rsum_map_scal. f_equal. apply map_ext. intros z.
    unfold ex. field. split; lra.
Qed.

Lemma rmean_deriv {A} (F : A -> R -> R) (D : A -> R) x l :
  (forall a, In a l -> derivable_pt_lim (F a) x (D a)) ->
  derivable_pt_lim (fun t => rmean (map (fun a => F a t) l)) x (rmean (map D l)).
Proof.
  intros H. unfold rmean. rewrite map_length.
  apply (derivable_ext (fun t => / INR (List.length l) * rsum (map (fun a => F a t) l))).
  { intros t. rewrite map_length. unfold Rdiv. ring. }
  eapply derivable_scal_eq; [apply (derivable_rsum F D); exact H|]. unfold Rdiv. ring.
Qed.

Lemma objective_deriv n rows rho lam eps p :
  batch_ok n rows -> 0 < eps ->
  derivable_pt_lim (fun t => objective rho t eps p rows) lam
                   (Rpower rho p - adv_mean cost (map (best eps lam) rows) rows).
Proof.
  intros Hb He. unfold Dual_Proofs.objective.
  replace (Rpower rho p - adv_mean cost (map (best eps lam) rows) rows) with
    (Rpower rho p + rmean (map (fun r => - expect (best eps lam r) (map (cost (r_xi r)) (r_zeta r))) rows)).
  - apply (derivable_pt_lim_plus (fun t => t * Rpower rho p) (fun t => rmean (map (soft eps t) rows))).
    + apply (derivable_ext (fun t => 0 + t * Rpower rho p)); [intros; ring|]. apply derivable_affine.
    + apply (rmean_deriv (fun r t => soft eps t r)). intros r Hr. exact (soft_deriv n rows eps lam r Hb Hr He).
  - rewrite adv_mean_expect, map2_map_l, map2_same.
    rewrite (map_ext (fun r => - expect (best eps lam r) (map (cost (r_xi r)) (r_zeta r)))
                     (fun r => (-1) * expect (best eps lam r) (map (cost (r_xi r)) (r_zeta r)))) by (intros; ring).
    rewrite rmean_map_scal. ring.
Qed.

(* at a minimiser over lambda >= 0 the best response is a feasible adversary that attains the objective *)
Lemma saddle n rows rho lam eps p :
  batch_ok n rows -> 0 < eps -> 0 <= lam ->
  (forall l, 0 <= l -> objective rho lam eps p rows <= objective rho l eps p rows) ->
  adv_mean cost (map (best eps lam) rows) rows <= Rpower rho p /\
  adv_mean (fun _ z => loss z) (map (best eps lam) rows) rows - eps * adv_entropy (map (best eps lam) rows)
  = objective rho lam eps p rows.
Proof.
  intros Hb He Hl Hm. pose proof (objective_deriv n rows rho lam eps p Hb He) as Hd.
  set (g := Rpower rho p - adv_mean cost (map (best eps lam) rows) rows) in *.
  assert (Hg : 0 <= g). { apply (right_min_deriv _ _ _ Hd). intros x Hx. apply Hm. lra. }
  assert (Hs : lam * g = 0).
  { destruct Hl as [Hl|<-]; [|ring]. assert (g <= 0); [|replace g with 0 by lra; ring].
    apply (left_min_deriv _ lam g 0 Hl Hd). intros x Hx. apply Hm. lra. }
  split; [unfold g in Hg; lra|].
  pose proof (best_attains P loss cost n eps lam rows Hb He) as H. unfold penalised in H. unfold Dual_Proofs.objective, g in *. lra.
Qed.

Lemma strong_duality_at n rows rho lam eps p :
  batch_ok n rows -> 0 < rho -> 0 < eps -> 0 <= lam ->
  (forall l v v', 0 <= l -> cd (cfg "mean" rho lam eps p) n rows = Ok (Scalar (Fin v)) ->
                  cd (cfg "mean" rho l eps p) n rows = Ok (Scalar (Fin v')) -> v <= v') ->
  exists A v, adversary n A rows /\ adv_mean cost A rows <= Rpower rho p /\
              cd (cfg "mean" rho lam eps p) n rows = Ok (Scalar (Fin v)) /\
              adv_mean (fun _ z => loss z) A rows - eps * adv_entropy A = v.
Proof.
  intros Hb Hr He Hl Hm.
  destruct (saddle n rows rho lam eps p Hb He Hl) as [H1 H2].
  { intros l Hl'. apply (Hm l _ _ Hl'); apply cd_mean; assumption. }
  exists (map (best eps lam) rows), (objective rho lam eps p rows).
  split; [apply best_adversary; exact Hb|]. split; [exact H1|]. split; [apply cd_mean; assumption|exact H2].
Qed.

(* under strict feasibility a minimising multiplier exists *)
Lemma minimiser_exists n rows rho eps p A :
  batch_ok n rows -> 0 < eps -> adversary n A rows -> adv_mean cost A rows < Rpower rho p ->
  exists lam, 0 <= lam /\ forall l, 0 <= l -> objective rho lam eps p rows <= objective rho l eps p rows.
Proof.
  intros Hb He HA Hc.
  set (s := Rpower rho p - adv_mean cost A rows). assert (Hs : 0 < s) by (unfold s; lra).
  set (b := adv_mean (fun _ z => loss z) A rows - eps * adv_entropy A).
  assert (Hlow : forall l, b + l * s <= objective rho l eps p rows).
  { intros l. pose proof (penalised_le P loss cost n l eps A rows Hb HA He) as H. unfold penalised in H.
    unfold Dual_Proofs.objective, b, s. lra. }
  set (F0 := objective rho 0 eps p rows).
  set (M := Rmax 1 ((F0 - b) / s)).
  assert (HM : 1 <= M) by apply Rmax_l. assert (HM2 : (F0 - b) / s <= M) by apply Rmax_r.
  destruct (continuity_ab_min (fun t => objective rho t eps p rows) 0 M ltac:(lra)) as [mx [Hmin Hrange]].
  { intros c _. apply derivable_continuous_pt. exists (Rpower rho p - adv_mean cost (map (best eps c) rows) rows).
    apply (objective_deriv n); assumption. }
  exists mx. split; [lra|]. intros l Hl. destruct (Rle_lt_dec l M) as [Hle|Hgt]; [apply Hmin; lra|].
  apply Rle_trans with F0; [apply Hmin; lra|]. eapply Rle_trans; [|apply Hlow].
  apply (Rmult_le_compat_r s) in HM2; [|lra]. replace ((F0 - b) / s * s) with (F0 - b) in HM2 by (field; lra).
  assert (M * s <= l * s) by (apply Rmult_le_compat_r; lra). lra.
Qed.

Lemma strong_duality n rows rho eps p A0 :
  batch_ok n rows -> 0 < rho -> 0 < eps -> adversary n A0 rows -> adv_mean cost A0 rows < Rpower rho p ->
  exists lam A v, 0 <= lam /\ cd (cfg "mean" rho lam eps p) n rows = Ok (Scalar (Fin v)) /\
    (forall l v', 0 <= l -> cd (cfg "mean" rho l eps p) n rows = Ok (Scalar (Fin v')) -> v <= v') /\
    adversary n A rows /\ adv_mean cost A rows <= Rpower rho p /\
    adv_mean (fun _ z => loss z) A rows - eps * adv_entropy A = v /\
    (forall A', adversary n A' rows -> adv_mean cost A' rows <= Rpower rho p ->
                adv_mean (fun _ z => loss z) A' rows - eps * adv_entropy A' <= v).
Proof.
  intros Hb Hr He HA Hc. destruct (minimiser_exists n rows rho eps p A0 Hb He HA Hc) as [lam [Hl Hm]].
  destruct (saddle n rows rho lam eps p Hb He Hl Hm) as [H1 H2].
  exists lam, (map (best eps lam) rows), (objective rho lam eps p rows).
  split; [exact Hl|]. split; [apply cd_mean; assumption|]. split.
  { intros l v' Hl' Hv. rewrite cd_mean in Hv by assumption. injection Hv as <-. apply Hm. exact Hl'. }
  split; [apply best_adversary; exact Hb|]. split; [exact H1|]. split; [exact H2|].
  intros A' HA' Hc'. destruct (weak_duality P loss cost displace log_prob log_prob_recentered n rows rho lam eps p A' Hb Hr He Hl HA' Hc') as [v [Hv Hle]].
  rewrite cd_mean in Hv by assumption. injection Hv as <-. exact Hle.
Qed.

(* when every sample is too far the objective is unbounded below in lambda *)
Lemma unbounded_below n rows rho eps p (B : row P -> R) M :
  batch_ok n rows -> 0 < rho -> 0 < eps ->
  (forall r z, In r rows -> In z (r_zeta r) -> B r <= cost (r_xi r) z) ->
  Rpower rho p < rmean (map B rows) ->
  exists lam v, 0 <= lam /\ cd (cfg "mean" rho lam eps p) n rows = Ok (Scalar (Fin v)) /\ v < M.
Proof.
  intros Hb Hr He HB Hs.
  set (s := rmean (map B rows) - Rpower rho p). assert (Hsp : 0 < s) by (unfold s; lra).
  (* bound on the losses *)
  assert (HL : exists L : row P -> R, forall r z, In r rows -> In z (r_zeta r) -> loss z <= L r).
  { exists (fun r => rmax0 (map loss (r_zeta r))). intros r z _ Hz. apply rmax0_ge. apply in_map. exact Hz. }
  destruct HL as [L HL].
  set (K := rmean (map L rows)).
  set (lam := Rmax 0 ((K - M) / s + 1)).
  assert (H0 : 0 <= lam) by apply Rmax_l. assert (H1 : (K - M) / s + 1 <= lam) by apply Rmax_r.
  exists lam, (objective rho lam eps p rows). split; [exact H0|]. split; [apply cd_mean; assumption|].
  destruct (objective_bounds P loss cost displace log_prob log_prob_recentered n rows rho lam eps p Hb Hr He) as [v [Hv [_ Hup]]].
  rewrite cd_mean in Hv by assumption. injection Hv as <-.
  specialize (Hup (fun r => L r - lam * B r)).
  assert (Hb' : objective rho lam eps p rows <= lam * Rpower rho p + rmean (map (fun r => L r - lam * B r) rows)).
  { apply Hup. intros r z Hin Hz. pose proof (HL r z Hin Hz). pose proof (HB r z Hin Hz).
    assert (lam * B r <= lam * cost (r_xi r) z) by (apply Rmult_le_compat_l; assumption). lra. }
  eapply Rle_lt_trans; [exact Hb'|]. rewrite rmean_map_minus, rmean_map_scal. fold K.
  apply (Rmult_le_compat_r s) in H1; [|lra]. rewrite Rmult_plus_distr_r in H1.
  replace ((K - M) / s * s) with (K - M) in H1 by (field; lra). unfold s in *. lra.
Qed.
End Dual.

(* ---- C19: two losses, permutations ---- *)
Section Two.
Variable P : Type.
Variable cost : P -> P -> R.
Variable displace : list (row P) -> Result (list (P * list P)).
Variable log_prob : P -> P -> R.
Variable log_prob_recentered : P -> P -> P -> R.
Notation cd loss := (compute_dual P loss cost displace log_prob log_prob_recentered).

Lemma loss_shift loss c n rows rho lam eps p :
  batch_ok n rows -> 0 < rho -> 0 < eps ->
  exists v, cd loss (cfg "mean" rho lam eps p) n rows = Ok (Scalar (Fin v)) /\
            cd (fun z => loss z + c) (cfg "mean" rho lam eps p) n rows = Ok (Scalar (Fin (v + c))).
Proof.
  intros Hb Hr He. exists (objective P loss cost rho lam eps p rows). split; [apply cd_mean; assumption|].
  rewrite cd_mean by assumption. do 3 f_equal. unfold objective. rewrite Rplus_assoc. f_equal.
  rewrite (rmean_map_ext _ (fun r => soft P loss cost eps lam r + c)).
  { rewrite rmean_map_plus, rmean_map_const by apply Hb. reflexivity. }
  intros r Hin. unfold soft. rewrite <- softmaximum_shift; [|exact He|exact (pen_ne P loss cost n rows lam r Hb Hin)].
  f_equal. unfold pen. rewrite map_map. apply map_ext. intros; ring.
Qed.

Lemma loss_mono loss loss' n rows rho lam eps p :
  batch_ok n rows -> 0 < rho -> 0 < eps ->
  (forall r z, In r rows -> In z (r_zeta r) -> loss z <= loss' z) ->
  exists v v', cd loss (cfg "mean" rho lam eps p) n rows = Ok (Scalar (Fin v)) /\
               cd loss' (cfg "mean" rho lam eps p) n rows = Ok (Scalar (Fin v')) /\ v <= v'.
Proof.
  intros Hb Hr He Hle. exists (objective P loss cost rho lam eps p rows), (objective P loss' cost rho lam eps p rows).
  split; [apply cd_mean; assumption|]. split; [apply cd_mean; assumption|].
  unfold objective. apply Rplus_le_compat_l. apply rmean_map_le. intros r Hin. unfold soft.
  apply softmaximum_mono; [exact He|exact (pen_ne P loss cost n rows lam r Hb Hin)|].
  unfold pen. assert (H : forall z, In z (r_zeta r) -> loss z <= loss' z) by (intros; apply (Hle r); assumption).
  clear -H. induction (r_zeta r) as [|z l IH]; simpl; constructor.
  - pose proof (H z (or_introl eq_refl)). lra.
  - apply IH. intros; apply H; right; assumption.
Qed.

Definition same_up_to_order (r r' : row P) : Prop := r_xi r = r_xi r' /\ Permutation (r_zeta r) (r_zeta r').

Lemma order_irrelevant loss n rows rows1 rows2 rho lam eps p :
  batch_ok n rows -> 0 < rho -> 0 < eps ->
  Forall2 same_up_to_order rows rows1 -> Permutation rows1 rows2 ->
  cd loss (cfg "mean" rho lam eps p) n rows = cd loss (cfg "mean" rho lam eps p) n rows2.
Proof.
  intros Hb Hr He H1 H2.
  assert (Hb1 : batch_ok n rows1).
  { destruct Hb as [Hn [Hne Hall]]. split; [exact Hn|]. split; [intros ->; inversion H1; subst; contradiction|].
    clear -H1 Hall. induction H1 as [|r r' l l' [_ Hp] H IH]; constructor; inversion Hall as [|? ? Hr Hl]; subst.
    - symmetry. apply (Permutation_length Hp).
    - apply IH; assumption. }
  assert (Hb2 : batch_ok n rows2).
  { destruct Hb1 as [Hn [Hne Hall]]. split; [exact Hn|]. split.
    - intros ->. apply Permutation_sym, Permutation_nil in H2. contradiction.
    - apply (Permutation_Forall H2). exact Hall. }
  rewrite !cd_mean by assumption. do 3 f_equal. unfold objective. f_equal.
  rewrite <- (rmean_perm _ _ (Permutation_map (soft P loss cost eps lam) H2)). f_equal.
  clear -H1. induction H1 as [|r r' l l' [Hx Hp] H IH]; simpl; [reflexivity|]. f_equal; [|exact IH].
  unfold soft. apply softmaximum_perm. unfold pen. rewrite Hx. apply Permutation_map. exact Hp.
Qed.
End Two.

(* ---- witnesses ---- *)
Definition no_displace {P} (rows : list (row P)) : Result (list (P * list P)) := Raise NotImplementedError.
Definition mkrow (x : R) (zs : list R) : row R := {| r_mean := x; r_xi := x; r_zeta := zs |}.

Lemma softmaximum_single eps a : 0 < eps -> softmaximum eps [a] = a.
Proof.
  intros He. unfold softmaximum, lme, sumexp; simpl. rewrite Rplus_0_r, ln_exp, ln_1. field. lra.
Qed.

(* constant zero loss, one point with one sample at distance 1, lambda = 1: the objective at rho = 1/2 is below the one at rho = 0 *)
Lemma zero_radius_not_monotone :
  exists (rows : list (row R)) (loss : R -> R) (cost : R -> R -> R) lam eps p rho v0 v,
    0 <= lam /\ 0 < eps /\ 0 < rho /\ batch_ok 1 rows /\
    compute_dual R loss cost no_displace (fun _ _ => 0) (fun _ _ _ => 0) (cfg "mean" 0 lam eps p) 1 rows = Ok (Scalar (Fin v0)) /\
    compute_dual R loss cost no_displace (fun _ _ => 0) (fun _ _ _ => 0) (cfg "mean" rho lam eps p) 1 rows = Ok (Scalar (Fin v)) /\
    v < v0.
Proof.
  exists [mkrow 0 [1]], (fun _ => 0), (fun x z => (x - z) * (x - z)), 1, 1, 2, (/ 2), 0, (/4 - 1).
  assert (Hb : batch_ok 1 [mkrow 0 [1]]) by (split; [lia|split; [discriminate|repeat constructor]]).
  split; [lra|]. split; [lra|]. split; [lra|]. split; [exact Hb|]. split; [|split; [|lra]].
  - rewrite (zero_radius_compute R (fun _ => 0)); [|reflexivity|reflexivity|discriminate]. unfold rmean; simpl. do 3 f_equal. field.
  - rewrite cd_mean by (try assumption; lra). do 3 f_equal. unfold objective, soft, pen; simpl.
    rewrite softmaximum_single by lra. unfold rmean; simpl.
    rewrite <- (ppow_pos (/ 2) 2), ppow_2 by lra. field.
Qed.

Lemma sum_reduction_refuted :
  exists (rows : list (row R)) (loss : R -> R) (cost : R -> R -> R) lam eps p rho vs v,
    0 < lam /\ 0 < eps /\ 0 < rho /\ batch_ok 1 rows /\
    compute_dual R loss cost no_displace (fun _ _ => 0) (fun _ _ _ => 0) (cfg "none" rho lam eps p) 1 rows = Ok (Vector (map Fin vs)) /\
    compute_dual R loss cost no_displace (fun _ _ => 0) (fun _ _ _ => 0) (cfg "sum" rho lam eps p) 1 rows = Ok (Scalar (Fin v)) /\
    v <> rsum vs.
Proof.
  set (rows := [mkrow 0 [1]; mkrow 0 [1]]).
  assert (Hb : batch_ok 1 rows) by (split; [lia|split; [discriminate|repeat constructor]]).
  destruct (reductions R (fun _ => 0) (fun _ _ => 0) no_displace (fun _ _ => 0) (fun _ _ _ => 0) 1 rows 1 1 1 1 Hb ltac:(lra) ltac:(lra))
    as [vs [vm [v [H1 [H2 [H3 [H4 [H5 H6]]]]]]]].
  exists rows, (fun _ => 0), (fun _ _ => 0), 1, 1, 1, 1, vs, v.
  repeat (split; [lra || assumption|]). intros E. rewrite E in H6.
  unfold rows in H6; simpl in H6. rewrite Rpower_1, ln_1 in H6 by lra. lra.
Qed.

Lemma presampled_reuse_witness :
  exists (loss : R -> R) (z : samples R) data,
    (exists v, forward_pre R loss (fun _ _ => 0) no_displace (fun _ _ => 0) (fun _ _ _ => 0) (cfg "mean" 0 1 1 2) None data (Some z)
               = (Some z, Ok (Scalar (Fin v)))) /\
    forward_pre R loss (fun _ _ => 0) no_displace (fun _ _ => 0) (fun _ _ _ => 0) (cfg "mean" 0 1 1 2) (Some z) data None
    = (Some z, Raise AssertionError).
Proof.
  exists (fun x => x), (2%nat, [[1; 2]]), [(0, 0)]. split.
  - eexists. apply zero_radius_pre; [reflexivity|reflexivity|discriminate|reflexivity].
  - apply zero_radius_pre_reuse. reflexivity.
Qed.

Lemma unknown_reduction_witness :
  exists s d (rows : list (row R)),
    dual_init (Fin 1) 1 2 (Some s) false = Ok d /\ batch_ok 2 rows /\
    compute_dual R (fun x => x) (fun _ _ => 0) no_displace (fun _ _ => 0) (fun _ _ _ => 0) d 2 rows = Raise NotImplementedError.
Proof.
  destruct (unknown_reduction R (fun x => x) (fun _ _ => 0) no_displace (fun _ _ => 0) (fun _ _ _ => 0) 1 1 2 "max"%string 2
              [mkrow 0 [1; 2]]) as [d [H1 H2]]; try discriminate; [lra|].
  exists "max"%string, d, [mkrow 0 [1; 2]]. split; [exact H1|].
  split; [split; [lia|split; [discriminate|repeat constructor]]|exact H2].
Qed.

Lemma unbounded_witness :
  exists (rows : list (row R)) (loss : R -> R) (cost : R -> R -> R) rho eps p,
    batch_ok 2 rows /\ 0 < rho /\ 0 < eps /\
    forall M, exists lam v, 0 <= lam /\
      compute_dual R loss cost no_displace (fun _ _ => 0) (fun _ _ _ => 0) (cfg "mean" rho lam eps p) 2 rows = Ok (Scalar (Fin v)) /\
      v < M.
Proof.
  exists [mkrow 0 [2; -2]], (fun x => x), (fun x z => (x - z) * (x - z)), 1, 1, 2.
  assert (Hb : batch_ok 2 [mkrow 0 [2; -2]]) by (split; [lia|split; [discriminate|repeat constructor]]).
  split; [exact Hb|]. split; [lra|]. split; [lra|]. intros M.
  apply (unbounded_below R (fun x => x) (fun x z => (x - z) * (x - z)) no_displace (fun _ _ => 0) (fun _ _ _ => 0) 2
           [mkrow 0 [2; -2]] 1 1 2 (fun _ => 4) M Hb); try lra.
  - intros r z [<-|[]] [<-|[<-|[]]]; simpl; lra.
  - rewrite <- (ppow_pos 1 2), ppow_2 by lra. unfold rmean; simpl. lra.
Qed.
