(* C148: in the landscape of the multiplier, the vertical line is where the robust loss without regularisation is smallest, and the
   value written for it is that smallest value. *)
From Coq Require Import Reals List Lra Lia.
From Verif Require Import PyBase RList Costs_Proofs Transport_Spec DedProg_Model DedProg_Spec DedLog_Proofs Landscape_Model Landscape_Spec Attain.
Import ListNotations.
Local Open Scope R_scope.

Lemma sample_loss_lg w b xy : sample_loss w b xy = cp_logistic (- (snd xy * (dot w (fst xy) + b))).
Proof. reflexivity. Qed.

(* the tangent of the logistic loss *)
Lemma lg_tangent z t : cp_logistic z + exp z / (1 + exp z) * t <= cp_logistic (z + t).
Proof.
  set (p := exp z / (1 + exp z)). pose proof (exp_pos z) as Ez.
  assert (P : (1 - p) * (1 + exp z) = 1 /\ p * (1 + exp z) = exp z) by (unfold p; split; field; lra). destruct P as [P1 P2].
  assert (Pp : 0 < p) by (unfold p; apply Rdiv_lt_0_compat; lra).
  assert (P0 : 0 < 1 - p) by nra.
  assert (K : exp (p * t) <= (1 - p) + p * exp t).
  { assert (A : 1 <= (1 - p) * exp (- (p * t)) + p * exp ((1 - p) * t)).
    { pose proof (exp_ineq1_le (- (p * t))). pose proof (exp_ineq1_le ((1 - p) * t)). nra. }
    apply (Rmult_le_compat_l (exp (p * t))) in A; [|left; apply exp_pos].
    replace (exp (p * t) * ((1 - p) * exp (- (p * t)) + p * exp ((1 - p) * t)))
      with ((1 - p) * (exp (p * t) * exp (- (p * t))) + p * (exp (p * t) * exp ((1 - p) * t))) in A by ring.
    rewrite <- !exp_plus in A. replace (p * t + - (p * t)) with 0 in A by ring. replace (p * t + (1 - p) * t) with t in A by ring.
    rewrite exp_0 in A. lra. }
  unfold cp_logistic. rewrite <- (ln_exp (p * t)). rewrite <- (ln_mult (1 + exp z) (exp (p * t))) by (try apply exp_pos; pose proof (exp_pos z); lra).
  assert (Q : (1 + exp z) * exp (p * t) <= 1 + exp (z + t)).
  { rewrite exp_plus. apply (Rmult_le_compat_l (1 + exp z)) in K; [|lra]. replace ((1 + exp z) * (1 - p + p * exp t)) with ((1 - p) * (1 + exp z) + p * (1 + exp z) * exp t) in K by ring. rewrite P1, P2 in K. lra. }
  assert (0 < (1 + exp z) * exp (p * t)) by (apply Rmult_lt_0_compat; [lra|apply exp_pos]).
  destruct Q as [Q|Q]; [left; apply ln_increasing; assumption|rewrite Q; lra].
Qed.

Lemma vadd_diff x u : length u = length x -> vsub (vadd x u) x = u.
Proof. intros H. apply vsub_vadd_l. symmetry. exact H. Qed.
Lemma norm2_zero_vec d : norm2 (repeat 0 d) = 0.
Proof. unfold norm2, sqnorm. replace (dot (repeat 0 d) (repeat 0 d)) with 0; [apply sqrt_0|]. induction d as [|d IH]; simpl; [reflexivity|]. unfold dot in *. simpl. rewrite <- IH. ring. Qed.

Ltac same := unfold vec in *; congruence.
Section Fixed.
Variables (d : nat) (w : vec) (b : R).
Hypothesis Hw : length w = d.
Notation loss := (sample_loss w b).

Lemma dot_self : dot w w = norm2 w * norm2 w.
Proof. symmetry. apply norm2_sq. Qed.

(* moving along the weight, against the label *)
Definition pushed (c : R) (xy : vec * R) : vec * R := (vadd (fst xy) (vscal (- (c * snd xy)) w), snd xy).
Lemma pushed_ok c xy : length (fst xy) = d -> same_label d xy (pushed c xy).
Proof. intros H. split; [simpl; rewrite vadd_length; [exact H|rewrite vscal_length; same]|reflexivity]. Qed.
Lemma pushed_dist c xy : length (fst xy) = d -> feature_dist xy (pushed c xy) = Rabs (c * snd xy) * norm2 w.
Proof. intros H. unfold feature_dist, pushed. simpl fst. rewrite vadd_diff by (rewrite vscal_length; same). rewrite norm2_vscal, Rabs_Ropp. reflexivity. Qed.
Lemma pushed_loss c xy : length (fst xy) = d ->
  loss (pushed c xy) = cp_logistic (- (snd xy * (dot w (fst xy) + b)) + c * (snd xy * snd xy) * (norm2 w * norm2 w)).
Proof.
  intros H. rewrite sample_loss_lg. unfold pushed. simpl fst. simpl snd. rewrite dot_vadd_r by (rewrite ?vscal_length; same).
  rewrite dot_vscal_r, dot_self. unfold vec in *. f_equal. ring.
Qed.

(* the loss grows by at most the norm of the weight times the distance *)
Lemma loss_lip xy z : length (fst xy) = d -> Rabs (snd xy) <= 1 -> same_label d xy z -> loss z <= loss xy + norm2 w * feature_dist xy z.
Proof.
  intros H Y [Lz Sz]. rewrite !sample_loss_lg, Sz. eapply Rle_trans; [apply lg_lip|]. apply Rplus_le_compat_l. unfold vec in *.
  replace (- (snd xy * (dot w (fst z) + b)) - - (snd xy * (dot w (fst xy) + b))) with (- (snd xy * dot w (vsub (fst z) (fst xy))))
    by (rewrite dot_vsub_r by same; ring).
  rewrite Rabs_Ropp, Rabs_mult.
  assert (A : Rabs (dot w (vsub (fst z) (fst xy))) <= norm2 w * feature_dist xy z) by (apply abs_dot_le; rewrite vsub_length; same).
  pose proof (Rabs_pos (snd xy)). pose proof (Rabs_pos (dot w (vsub (fst z) (fst xy)))). nra.
Qed.
Lemma stay xy : length (fst xy) = d -> same_label d xy xy /\ feature_dist xy xy = 0.
Proof. intros H. split; [split; auto|]. apply norm2_self. Qed.

Lemma sup_first lam xy : length (fst xy) = d -> Rabs (snd xy) <= 1 -> norm2 w <= lam -> is_lub (gains feature_dist (same_label d) loss lam xy) (loss xy).
Proof.
  intros H Y L. destruct (stay xy H) as [S D]. split.
  - intros r (z & Az & ->). pose proof (loss_lip xy z H Y Az). assert (N : 0 <= feature_dist xy z) by apply norm2_nonneg.
    assert (M : norm2 w * feature_dist xy z <= lam * feature_dist xy z) by (apply Rmult_le_compat_r; lra). lra.
  - intros u U. apply U. exists xy. split; [exact S|]. rewrite D. ring.
Qed.

Lemma sups {A} (P : A -> R -> Prop) (f : A -> R) data : Forall (fun x => P x (f x)) data -> Forall2 P data (map f data).
Proof. induction 1; simpl; constructor; auto. Qed.

Lemma unbounded_first lam xy : length (fst xy) = d -> Rabs (snd xy) = 1 -> 0 <= lam < norm2 w -> ~ bound (gains feature_dist (same_label d) loss lam xy).
Proof.
  intros H Y L [M B]. set (N := norm2 w) in *.
  assert (S : snd xy * snd xy = 1) by (rewrite <- (Rabs_pos_eq (snd xy * snd xy)) by nra; rewrite Rabs_mult, Y; ring).
  set (m := - (snd xy * (dot w (fst xy) + b))).
  set (c := (Rabs M + Rabs m + 1) / (N * (N - lam))). assert (C : 0 < c).
  { unfold c. apply Rdiv_lt_0_compat; [pose proof (Rabs_pos M); pose proof (Rabs_pos m); lra|nra]. }
  assert (B' := B _ (ex_intro _ (pushed c xy) (conj (pushed_ok c xy H) eq_refl))). clear B.
  rewrite pushed_loss, pushed_dist in B' by exact H. fold N m in B'. rewrite S, Rabs_mult, Y, (Rabs_pos_eq c) in B' by lra.
  pose proof (lg_ge (m + c * 1 * (N * N))) as G.
  assert (E : c * (N * (N - lam)) = Rabs M + Rabs m + 1) by (unfold c; field; split; lra).
  pose proof (Rle_abs M). pose proof (Rle_abs (- m)) as A. rewrite Rabs_Ropp in A. nra.
Qed.

Lemma unbounded_second lam xy : length (fst xy) = d -> snd xy <> 0 -> 0 < norm2 w -> lam <= 0 -> ~ bound (gains feature_dist2 (same_label d) loss lam xy).
Proof.
  intros H Y NP L [M B]. set (N := norm2 w) in *. assert (S : 0 < snd xy * snd xy) by (destruct (Rtotal_order (snd xy) 0) as [T|[T|T]]; [nra|contradiction|nra]).
  set (m := - (snd xy * (dot w (fst xy) + b))). set (q := snd xy * snd xy * (N * N)). assert (Q : 0 < q) by (unfold q; apply Rmult_lt_0_compat; [exact S|apply Rmult_lt_0_compat; exact NP]).
  set (c := (Rabs M + Rabs m + 1) / q). assert (B' := B _ (ex_intro _ (pushed c xy) (conj (pushed_ok c xy H) eq_refl))). clear B.
  rewrite pushed_loss in B' by exact H. unfold feature_dist2 in B'. fold (feature_dist xy (pushed c xy)) in B'. rewrite pushed_dist in B' by exact H. fold N m in B'.
  replace (c * (snd xy * snd xy) * (N * N)) with (c * q) in B' by (unfold q; ring). replace (c * q) with (Rabs M + Rabs m + 1) in B' by (unfold c; field; lra).
  pose proof (lg_ge (m + (Rabs M + Rabs m + 1))) as G. set (X := Rabs (c * snd xy) * N) in *. assert (0 <= X * X) by nra.
  pose proof (Rle_abs M). pose proof (Rle_abs (- m)) as A. rewrite Rabs_Ropp in A. nra.
Qed.

Lemma slope_lg xy : slope w b xy = snd xy * (exp (- (snd xy * (dot w (fst xy) + b))) / (1 + exp (- (snd xy * (dot w (fst xy) + b))))).
Proof.
  unfold slope. set (m := snd xy * (dot w (fst xy) + b)). pose proof (exp_pos m). pose proof (exp_pos (- m)).
  assert (E : exp m * exp (- m) = 1) by (rewrite <- exp_plus; replace (m + - m) with 0 by ring; apply exp_0).
  f_equal. apply (Rmult_eq_reg_l ((1 + exp m) * (1 + exp (- m)))); [|nra]. field_simplify; [|lra|lra]. nra.
Qed.

(* every gain at a point is seen by the supremum: moving by slope / (2 lam) *)
Lemma lower_second lam xy s : length (fst xy) = d -> 0 < lam -> is_lub (gains feature_dist2 (same_label d) loss lam xy) s ->
  loss xy + norm2 w * norm2 w * (slope w b xy * slope w b xy) / (4 * lam) <= s.
Proof.
  intros H L [U _]. set (m := - (snd xy * (dot w (fst xy) + b))). set (p := exp m / (1 + exp m)). set (c := p / (2 * lam)).
  eapply Rle_trans; [|apply U; exists (pushed c xy); split; [apply pushed_ok; exact H|reflexivity]].
  unfold feature_dist2. fold (feature_dist xy (pushed c xy)). rewrite pushed_dist, pushed_loss by exact H. fold m.
  pose proof (lg_tangent m (c * (snd xy * snd xy) * (norm2 w * norm2 w))) as T. fold p in T. rewrite sample_loss_lg. fold m. rewrite slope_lg. fold m p.
  assert (Q : Rabs (c * snd xy) * norm2 w * (Rabs (c * snd xy) * norm2 w) = c * c * (snd xy * snd xy) * (norm2 w * norm2 w)).
  { replace (Rabs (c * snd xy) * norm2 w * (Rabs (c * snd xy) * norm2 w)) with (Rabs (c * snd xy) * Rabs (c * snd xy) * (norm2 w * norm2 w)) by ring.
    rewrite <- Rabs_mult, Rabs_pos_eq by nra. ring. }
  rewrite Q. unfold vec in *. fold m. fold p. set (y2 := snd xy * snd xy) in *. set (n2 := norm2 w * norm2 w) in *.
  replace (n2 * (snd xy * p * (snd xy * p)) / (4 * lam)) with (p * (c * y2 * n2) - lam * (c * c * y2 * n2)) by (unfold c, y2; field; lra). lra.
Qed.

Lemma upper_second lam xy : length (fst xy) = d -> Rabs (snd xy) <= 1 -> 0 < lam ->
  exists s, is_lub (gains feature_dist2 (same_label d) loss lam xy) s /\ s <= loss xy + norm2 w * norm2 w / (4 * lam).
Proof.
  intros H Y L. set (top := loss xy + norm2 w * norm2 w / (4 * lam)).
  assert (B : is_upper_bound (gains feature_dist2 (same_label d) loss lam xy) top).
  { intros r (z & Az & ->). pose proof (loss_lip xy z H Y Az) as A. unfold feature_dist2, top. fold (feature_dist xy z).
    set (t := feature_dist xy z) in *. set (N := norm2 w) in *.
    assert (E : N * N / (4 * lam) - N * t + lam * (t * t) = lam * ((t - N / (2 * lam)) * (t - N / (2 * lam)))) by (field; lra).
    pose proof (Rle_0_sqr (t - N / (2 * lam))) as Q. unfold Rsqr in Q. nra. }
  destruct (stay xy H) as [St D].
  destruct (completeness (gains feature_dist2 (same_label d) loss lam xy)) as [s Hs].
  - exists top. exact B.
  - exists (loss xy - lam * feature_dist2 xy xy). exists xy. auto.
  - exists s. split; [exact Hs|]. apply Hs. exact B.
Qed.
End Fixed.

(* ---- the first power, for which the formula of the comment is written ---- *)
(* From the norm of the weight on, the robust loss is the mean plus the multiplier times the radius; below it is infinite as soon as one
   label is -1 or 1. *)
Theorem C148_first_power :
  forall d w b data rho, length w = d -> points d data ->
    (forall lam, norm2 w <= lam -> dual_at feature_dist (same_label d) data (sample_loss w b) rho lam (lam * rho + rmean (map (sample_loss w b) data))) /\
    (Exists (fun xy => Rabs (snd xy) = 1) data -> forall lam, 0 <= lam < norm2 w -> dual_infinite feature_dist (same_label d) data (sample_loss w b) lam).
Proof.
  intros d w b data rho Hw [Ne Hp]. split.
  - intros lam L. exists (map (sample_loss w b) data). split; [|reflexivity]. apply sups. eapply Forall_impl; [|exact Hp]. intros xy [H Y]. apply sup_first; assumption.
  - intros E lam L. apply Exists_exists in E. destruct E as (xy & I & Y). exists xy. split; [exact I|].
    apply unbounded_first; auto. exact (proj1 (proj1 (Forall_forall _ _) Hp xy I)).
Qed.
Print Assumptions C148_first_power.

Lemma lub_same E s s' : is_lub E s -> is_lub E s' -> s = s'.
Proof. intros [A B] [C D]. apply Rle_antisym; auto. Qed.
Lemma dual_infinite_no_value {A} (cost : A -> A -> R) allowed data f budget lam v : dual_infinite cost allowed data f lam -> ~ dual_at cost allowed data f budget lam v.
Proof.
  intros (x & I & U) (ss & F & _). apply U. clear U. induction F as [|y s data ss [H _] F IH]; [destruct I|]. destruct I as [->|I]; [exists s; exact H|auto].
Qed.

(* So the value of the comment is the smallest, and it is taken at the norm of the weight, not at the line. *)
Theorem C148_first_power_best :
  forall d w b data rho, length w = d -> points d data -> 0 <= rho -> Exists (fun xy => Rabs (snd xy) = 1) data ->
    dual_at feature_dist (same_label d) data (sample_loss w b) rho (norm2 w) (wdro_loss w b data rho) /\
    (forall lam v, 0 <= lam -> dual_at feature_dist (same_label d) data (sample_loss w b) rho lam v -> wdro_loss w b data rho <= v) /\
    (rho < 1 -> 0 < norm2 w -> dual_infinite feature_dist (same_label d) data (sample_loss w b) (drawn_at rho w)).
Proof.
  intros d w b data rho Hw Hp Hr E. destruct (C148_first_power d w b data rho Hw Hp) as [A B]. specialize (B E). split; [|split].
  - replace (wdro_loss w b data rho) with (norm2 w * rho + rmean (map (sample_loss w b) data)) by (unfold wdro_loss; ring). apply A. lra.
  - intros lam v L Dv. destruct (Rlt_or_le lam (norm2 w)) as [Lt|Ge].
    + exfalso. exact (dual_infinite_no_value _ _ _ _ rho lam v (B lam (conj L Lt)) Dv).
    + destruct (A lam Ge) as (ss & F & Ev). destruct Dv as (ss' & F' & ->). assert (Es : ss' = map (sample_loss w b) data).
      { destruct Hp as [_ Hp]. clear -F' Hp Ge Hw. induction F' as [|xy s l ss' Hs F' IH]; [reflexivity|]. inversion Hp as [|? ? [H Y] Hp']; subst.
        simpl. f_equal; [|apply IH; assumption]. eapply lub_same; [exact Hs|]. apply sup_first; auto. }
      rewrite Es. unfold wdro_loss. nra.
  - intros R1 N. apply B. unfold drawn_at. nra.
Qed.
Print Assumptions C148_first_power_best.

(* ---- the second power, the cost the script uses, with budget rho^2 ---- *)
Lemma mean_lower (f g : vec * R -> R) data ss : data <> [] -> Forall2 (fun x s => f x + g x <= s) data ss -> rmean (map f data) + rmean (map g data) <= rmean ss.
Proof.
  intros Ne F. rewrite <- rmean_map_plus. apply rmean_le.
  - rewrite map_length. clear Ne. induction F; simpl; auto.
  - clear Ne. induction F; simpl; lra.
Qed.
Definition mean_sq_slope (w : vec) (b : R) (data : list (vec * R)) : R := rmean (map (fun xy => slope w b xy * slope w b xy) data).

Theorem C148_second_power :
  forall d w b data rho, length w = d -> points d data ->
    (forall lam, 0 < lam -> exists v, dual_at feature_dist2 (same_label d) data (sample_loss w b) (rho * rho) lam v) /\
    (forall lam v, 0 < lam -> dual_at feature_dist2 (same_label d) data (sample_loss w b) (rho * rho) lam v ->
       lam * (rho * rho) + rmean (map (sample_loss w b) data) + norm2 w * norm2 w * mean_sq_slope w b data / (4 * lam) <= v
       <= lam * (rho * rho) + rmean (map (sample_loss w b) data) + norm2 w * norm2 w / (4 * lam)) /\
    (0 < norm2 w -> Exists (fun xy => snd xy <> 0) data -> forall lam, lam <= 0 -> dual_infinite feature_dist2 (same_label d) data (sample_loss w b) lam).
Proof.
  intros d w b data rho Hw [Ne Hp]. split; [|split].
  - intros lam L. enough (X : exists ss, Forall2 (fun x s => is_lub (gains feature_dist2 (same_label d) (sample_loss w b) lam x) s) data ss) by (destruct X as [ss F]; eexists; exists ss; split; [exact F|reflexivity]).
    clear Ne. induction Hp as [|xy l [H Y] Hp [ss F]]; [exists []; constructor|]. destruct (upper_second d w b Hw lam xy H Y L) as (s & Hs & _). exists (s :: ss). constructor; assumption.
  - intros lam v L (ss & F & ->). split.
    + rewrite Rplus_assoc. apply Rplus_le_compat_l. unfold mean_sq_slope.
      replace (norm2 w * norm2 w * rmean (map (fun xy => slope w b xy * slope w b xy) data) / (4 * lam))
        with (rmean (map (fun xy => norm2 w * norm2 w / (4 * lam) * (slope w b xy * slope w b xy)) data)) by (rewrite rmean_map_scal; field; lra).
      apply mean_lower; [exact Ne|]. clear Ne. induction F as [|xy s l ss Hs F IH]; [constructor|]. inversion Hp as [|? ? [H Y] Hp']; subst. constructor; [|apply IH; assumption].
      pose proof (lower_second (length w) w b eq_refl lam xy s H L Hs) as Q.
      replace (norm2 w * norm2 w / (4 * lam) * (slope w b xy * slope w b xy)) with (norm2 w * norm2 w * (slope w b xy * slope w b xy) / (4 * lam)) by (field; lra). exact Q.
    + rewrite Rplus_assoc. apply Rplus_le_compat_l. rewrite <- (rmean_map_const (norm2 w * norm2 w / (4 * lam)) data Ne), <- rmean_map_plus. apply rmean_le.
      * rewrite map_length. clear -F. induction F; simpl; auto.
      * clear Ne. induction F as [|xy s l ss Hs F IH]; [simpl; lra|]. inversion Hp as [|? ? [H Y] Hp']; subst. specialize (IH Hp').
        destruct (upper_second (length w) w b eq_refl lam xy H Y L) as (s' & Hs' & Q). rewrite (lub_same _ _ _ Hs Hs'). cbn [map rsum fold_right]. unfold rsum in *. simpl. lra.
  - intros N E lam L. apply Exists_exists in E. destruct E as (xy & I & Y). exists xy. split; [exact I|].
    apply unbounded_second; auto. exact (proj1 (proj1 (Forall_forall _ _) Hp xy I)).
Qed.
Print Assumptions C148_second_power.

(* The value of the comment is reached at the norm over 2 rho; every multiplier that does at least as well, so every best one, is between the
   norm times the mean squared slope over 4 rho and the norm over rho: above the line as soon as the mean squared slope is more than
   4 rho^2 (4e-6 in the script). *)
Theorem C148_second_power_best :
  forall d w b data rho, length w = d -> points d data -> 0 < rho -> 0 < norm2 w ->
    (exists v, dual_at feature_dist2 (same_label d) data (sample_loss w b) (rho * rho) (norm2 w / (2 * rho)) v /\ v <= wdro_loss w b data rho) /\
    forall lam v, 0 < lam -> dual_at feature_dist2 (same_label d) data (sample_loss w b) (rho * rho) lam v -> v <= wdro_loss w b data rho ->
      norm2 w * mean_sq_slope w b data / (4 * rho) <= lam <= norm2 w / rho /\
      (4 * (rho * rho) < mean_sq_slope w b data -> drawn_at rho w < lam).
Proof.
  intros d w b data rho Hw Hp Hr N. destruct (C148_second_power d w b data rho Hw Hp) as (Ex & Bd & _). set (W := norm2 w) in *.
  set (mp := mean_sq_slope w b data) in *. set (ml := rmean (map (sample_loss w b) data)) in *. split.
  { assert (L0 : 0 < W / (2 * rho)) by (apply Rdiv_lt_0_compat; lra). destruct (Ex _ L0) as [v0 D0]. exists v0. split; [exact D0|].
    destruct (Bd _ _ L0 D0) as [_ U0].
    replace (W / (2 * rho) * (rho * rho) + ml + W * W / (4 * (W / (2 * rho)))) with (ml + rho * W) in U0 by (field; split; lra). exact U0. }
  intros lam v L Dv V. destruct (Bd _ _ L Dv) as [Lv _]. unfold wdro_loss in V. fold W ml in V.
  assert (K : lam * (rho * rho) + W * W * mp / (4 * lam) <= rho * W) by lra.
  assert (Mp : 0 <= mp).
  { unfold mp, mean_sq_slope. rewrite <- (rmean_map_const 0 data (proj1 Hp)). apply rmean_map_le. intros xy _. nra. }
  assert (P1 : 0 <= W * W * mp / (4 * lam)) by (apply Rmult_le_pos; [nra|left; apply Rinv_0_lt_compat; lra]).
  assert (Q1 : W * mp / (4 * rho) <= lam).
  { assert (X : W * W * mp / (4 * lam) <= rho * W) by nra.
    apply (Rmult_le_compat_r (4 * lam)) in X; [|lra]. replace (W * W * mp / (4 * lam) * (4 * lam)) with (W * W * mp) in X by (field; lra).
    apply (Rmult_le_reg_r (4 * rho)); [lra|]. replace (W * mp / (4 * rho) * (4 * rho)) with (W * mp) by (field; lra). nra. }
  split; [split; [exact Q1|]|].
  - apply (Rmult_le_reg_r rho); [lra|]. replace (W / rho * rho) with W by (field; lra). nra.
  - intros Big. eapply Rlt_le_trans; [|exact Q1]. unfold drawn_at. fold W. apply (Rmult_lt_reg_r (4 * rho)); [lra|].
    replace (W * mp / (4 * rho) * (4 * rho)) with (W * mp) by (field; lra). nra.
Qed.
Print Assumptions C148_second_power_best.

(* The value at the line is above the one the comment gives, by a lot when the radius is small. *)
Theorem C148_second_power_line :
  forall d w b data rho v, length w = d -> points d data -> 0 < rho -> 0 < norm2 w ->
    dual_at feature_dist2 (same_label d) data (sample_loss w b) (rho * rho) (drawn_at rho w) v ->
    rmean (map (sample_loss w b) data) + norm2 w * mean_sq_slope w b data / (4 * rho) < v.
Proof.
  intros d w b data rho v Hw Hp Hr N Dv. destruct (C148_second_power d w b data rho Hw Hp) as (_ & Bd & _).
  assert (L : 0 < drawn_at rho w) by (unfold drawn_at; nra). destruct (Bd _ _ L Dv) as [Lv _].
  replace (norm2 w * norm2 w * mean_sq_slope w b data / (4 * drawn_at rho w)) with (norm2 w * mean_sq_slope w b data / (4 * rho)) in Lv by (unfold drawn_at; field; lra).
  assert (0 < drawn_at rho w * (rho * rho)) by (apply Rmult_lt_0_compat; [exact L|nra]). lra.
Qed.
Print Assumptions C148_second_power_line.

(* the radius of the script, one sample of each label it passes *)
Definition two_points : list (vec * R) := [([1], 1); ([0], 0)].
Lemma two_points_ok : points 1 two_points.
Proof. split; [discriminate|]. constructor; [split; [reflexivity|]|constructor; [split; [reflexivity|]|constructor]]; simpl; [rewrite Rabs_R1|rewrite Rabs_R0]; lra. Qed.
Lemma norm2_1 : norm2 [1] = 1.
Proof. unfold norm2, sqnorm, dot. simpl. replace (1 * 1 + 0) with 1 by ring. apply sqrt_1. Qed.
Lemma two_points_slope : mean_sq_slope [1] (-1) two_points = / 8.
Proof.
  unfold mean_sq_slope, two_points, slope, rmean, rsum, dot. simpl. replace (1 * (1 * 1 + 0 + -1)) with 0 by ring. replace (0 * (1 * 0 + 0 + -1)) with 0 by ring. rewrite exp_0. field.
Qed.
Theorem C148_line_refuted :
  exists d w b data rho, length w = d /\ points d data /\ rho = 1 / 1000 /\ 0 < norm2 w /\
    dual_infinite feature_dist (same_label d) data (sample_loss w b) (drawn_at rho w) /\
    (forall lam v, 0 < lam -> dual_at feature_dist2 (same_label d) data (sample_loss w b) (rho * rho) lam v -> v <= wdro_loss w b data rho -> 30000 * drawn_at rho w < lam) /\
    (forall v, dual_at feature_dist2 (same_label d) data (sample_loss w b) (rho * rho) (drawn_at rho w) v -> wdro_loss w b data rho + 30 < v) /\
    exists lam v, 0 < lam /\ dual_at feature_dist2 (same_label d) data (sample_loss w b) (rho * rho) lam v /\ v <= wdro_loss w b data rho.
Proof.
  exists 1%nat, [1], (-1), two_points, (1 / 1000). pose proof two_points_ok as Hp. pose proof norm2_1 as N. pose proof two_points_slope as S.
  split; [reflexivity|]. split; [exact Hp|]. split; [reflexivity|]. split; [rewrite N; lra|]. split; [|split; [|split]].
  - apply (C148_first_power_best 1 [1] (-1) two_points (1 / 1000) eq_refl Hp); [lra| |lra|rewrite N; lra]. constructor. simpl. apply Rabs_R1.
  - intros lam v L Dv Best. destruct (proj2 (C148_second_power_best 1 [1] (-1) two_points (1 / 1000) eq_refl Hp ltac:(lra) ltac:(rewrite N; lra)) lam v L Dv Best) as ([Q _] & _).
    rewrite N, S in Q. unfold drawn_at. rewrite N. lra.
  - intros v Dv. pose proof (C148_second_power_line 1 [1] (-1) two_points (1 / 1000) v eq_refl Hp ltac:(lra) ltac:(rewrite N; lra) Dv) as Q.
    rewrite N, S in Q. unfold wdro_loss. rewrite N. lra.
  - destruct (proj1 (C148_second_power_best 1 [1] (-1) two_points (1 / 1000) eq_refl Hp ltac:(lra) ltac:(rewrite N; lra))) as (v & Dv & V).
    exists (norm2 [1] / (2 * (1 / 1000))), v. split; [rewrite N; lra|]. split; assumption.
Qed.
Print Assumptions C148_line_refuted.
Example C148_first_power_case : length [1] = 1%nat /\ points 1 two_points /\ Exists (fun xy => Rabs (snd xy) = 1) two_points.
Proof. split; [reflexivity|]. split; [exact two_points_ok|]. constructor. simpl. apply Rabs_R1. Qed.
Example C148_second_power_case : 0 < norm2 [1] /\ 4 * (1 / 1000 * (1 / 1000)) < mean_sq_slope [1] (-1) two_points /\
  exists v, dual_at feature_dist2 (same_label 1) two_points (sample_loss [1] (-1)) (1 / 1000 * (1 / 1000)) 3 v.
Proof.
  split; [rewrite norm2_1; lra|]. split; [rewrite two_points_slope; lra|].
  apply (proj1 (C148_second_power 1 [1] (-1) two_points (1 / 1000) eq_refl two_points_ok)). lra.
Qed.

(* ---- a best multiplier exists ---- *)
Lemma Forall2_first {A B} (P : A -> B -> Prop) x l s : Forall2 P (x :: l) s -> exists u us, s = u :: us /\ P x u /\ Forall2 P l us.
Proof. intros F. inversion F; subst. eauto. Qed.
Section BestMultiplier.
Variables (d : nat) (w : vec) (b : R).
Hypothesis Hw : length w = d.
Notation loss := (sample_loss w b).
Notation lub := (fun lam xy s => is_lub (gains feature_dist2 (same_label d) loss lam xy) s).

(* a displacement of more than norm / lam gains nothing, so the supremum is Lipschitz in the multiplier away from 0 *)
Lemma lub_close a l1 l2 xy s1 s2 : length (fst xy) = d -> Rabs (snd xy) <= 1 -> 0 < a -> a <= l1 -> l1 <= l2 -> lub l1 xy s1 -> lub l2 xy s2 ->
  s2 <= s1 <= s2 + norm2 w / a * (norm2 w / a) * (l2 - l1).
Proof.
  intros H Y A A1 L12 [U1 M1] [U2 M2]. destruct (stay d xy H) as [St D0].
  assert (N : 0 <= norm2 w) by apply norm2_nonneg.
  assert (Na : 0 <= norm2 w / a) by (apply Rmult_le_pos; [exact N|left; apply Rinv_0_lt_compat; exact A]).
  assert (Here : loss xy <= s2).
  { apply U2. exists xy. split; [exact St|]. unfold feature_dist2. fold (feature_dist xy xy). rewrite D0. ring. }
  split.
  - apply M2. intros r (z & Az & ->). eapply Rle_trans; [|apply U1; exists z; split; [exact Az|reflexivity]].
    assert (0 <= feature_dist2 xy z) by (unfold feature_dist2; apply Rle_0_sqr). nra.
  - apply M1. intros r (z & Az & ->). set (t := feature_dist xy z). assert (T : 0 <= t) by apply norm2_nonneg.
    change (feature_dist2 xy z) with (t * t). destruct (Rle_or_lt t (norm2 w / a)) as [C|C].
    + assert (Q : loss z - l2 * (t * t) <= s2) by (apply U2; exists z; split; [exact Az|reflexivity]).
      assert (S : t * t <= norm2 w / a * (norm2 w / a)) by (apply Rmult_le_compat; assumption). nra.
    + pose proof (loss_lip d w b Hw xy z H Y Az) as G. fold t in G.
      assert (P : norm2 w <= l1 * t).
      { apply Rle_trans with (a * t); [|nra]. apply (Rmult_lt_compat_r a) in C; [|exact A]. replace (norm2 w / a * a) with (norm2 w) in C by (field; lra). lra. }
      assert (0 <= norm2 w / a * (norm2 w / a) * (l2 - l1)) by (apply Rmult_le_pos; [apply Rmult_le_pos; exact Na|lra]). nra.
Qed.

Lemma sup_of lam xy : length (fst xy) = d -> Rabs (snd xy) <= 1 -> 0 < lam -> {s | lub lam xy s}.
Proof.
  intros H Y L. apply completeness.
  - destruct (upper_second d w b Hw lam xy H Y L) as (s & [U _] & _). exists s. exact U.
  - exists (loss xy - lam * feature_dist2 xy xy). exists xy. split; [apply stay; exact H|reflexivity].
Qed.
Lemma curve_of lam data : Forall (fun xy => length (fst xy) = d /\ Rabs (snd xy) <= 1) data -> 0 < lam -> {ss | Forall2 (lub lam) data ss}.
Proof.
  intros Hp L. induction data as [|xy data IH]; [exists []; constructor|].
  destruct (sup_of lam xy (proj1 (Forall_inv Hp)) (proj2 (Forall_inv Hp)) L) as [s Hs]. destruct (IH (Forall_inv_tail Hp)) as [ss F].
  exists (s :: ss). constructor; assumption.
Qed.
Lemma lubs_close a l1 l2 data : Forall (fun xy => length (fst xy) = d /\ Rabs (snd xy) <= 1) data -> 0 < a -> a <= l1 -> l1 <= l2 ->
  forall s1 s2, Forall2 (lub l1) data s1 -> Forall2 (lub l2) data s2 ->
  length s1 = length data /\ length s2 = length data /\ rsum s2 <= rsum s1 <= rsum s2 + INR (length data) * (norm2 w / a * (norm2 w / a) * (l2 - l1)).
Proof.
  intros Hp A A1 L. induction data as [|xy data IH]; intros s1 s2 F1 F2.
  { inversion F1. inversion F2. cbn. repeat split; lra. }
  apply Forall2_first in F1. destruct F1 as (u & us & -> & Q1 & R1). apply Forall2_first in F2. destruct F2 as (v & vs & -> & Q2 & R2).
  pose proof (lub_close a l1 l2 xy u v (proj1 (Forall_inv Hp)) (proj2 (Forall_inv Hp)) A A1 L Q1 Q2) as C.
  destruct (IH (Forall_inv_tail Hp) us vs R1 R2) as (E1 & E2 & B).
  split; [cbn; f_equal; exact E1|]. split; [cbn; f_equal; exact E2|].
  cbn [length]. rewrite S_INR. unfold rsum in *. cbn [fold_right]. lra.
Qed.
End BestMultiplier.

(* With the squared distance a best multiplier exists, and it is in the bracket of C148_second_power_best. *)
Theorem C148_best_exists :
  forall d w b data rho, length w = d -> points d data -> 0 < rho -> 0 < norm2 w -> Exists (fun xy => snd xy <> 0) data ->
    exists lam v, dual_at feature_dist2 (same_label d) data (sample_loss w b) (rho * rho) lam v /\
      (forall lam' v', dual_at feature_dist2 (same_label d) data (sample_loss w b) (rho * rho) lam' v' -> v <= v') /\
      v <= wdro_loss w b data rho /\ 0 < norm2 w * mean_sq_slope w b data / (4 * rho) <= lam /\ lam <= norm2 w / rho.
Proof.
  intros d w b data rho Hw Hp Hr N Ex. destruct (C148_second_power d w b data rho Hw Hp) as (_ & _ & Inf). specialize (Inf N Ex).
  destruct (C148_second_power_best d w b data rho Hw Hp Hr N) as [(v0 & D0 & V0) Br]. destruct Hp as [Ne Hp].
  set (W := norm2 w) in *. set (a := W * mean_sq_slope w b data / (4 * rho)) in *.
  assert (A : 0 < a).
  { unfold a. apply Rdiv_lt_0_compat; [|lra]. apply Rmult_lt_0_compat; [exact N|]. unfold mean_sq_slope, rmean. apply Rdiv_lt_0_compat.
    - clear -Ex. set (g := fun xy : vec * R => slope w b xy * slope w b xy).
      assert (G : forall l, 0 <= rsum (map g l)) by (induction l as [|q l IH]; [cbn; lra|]; change (0 <= slope w b q * slope w b q + rsum (map g l)); pose proof (Rle_0_sqr (slope w b q)) as S; unfold Rsqr in S; lra).
      induction Ex as [xy l Y|xy l Ex IH]; change (0 < slope w b xy * slope w b xy + rsum (map g l)).
      + specialize (G l).
        assert (S : slope w b xy <> 0) by (unfold slope; apply Rmult_integral_contrapositive_currified; [exact Y|]; apply Rinv_neq_0_compat; pose proof (exp_pos (snd xy * (dot w (fst xy) + b))); lra).
        pose proof (Rsqr_pos_lt _ S) as P. unfold Rsqr in P. lra.
      + pose proof (Rle_0_sqr (slope w b xy)) as S. unfold Rsqr in S. lra.
    - rewrite map_length. apply lt_0_INR. destruct data; [congruence|cbn; lia]. }
  set (top := W / rho) in *. set (l0 := W / (2 * rho)) in *. assert (L0 : 0 < l0) by (apply Rdiv_lt_0_compat; lra).
  destruct (Br l0 v0 L0 D0 V0) as [[Ba Bb] _].
  assert (Pos : forall lam, 0 < Rmax a lam) by (intros lam; pose proof (Rmax_l a lam); lra).
  set (F := fun lam => Rmax a lam * (rho * rho) + rmean (proj1_sig (curve_of d w b Hw (Rmax a lam) data Hp (Pos lam)))).
  assert (FD : forall lam, dual_at feature_dist2 (same_label d) data (sample_loss w b) (rho * rho) (Rmax a lam) (F lam)).
  { intros lam. exists (proj1_sig (curve_of d w b Hw (Rmax a lam) data Hp (Pos lam))). split; [apply (proj2_sig (curve_of d w b Hw (Rmax a lam) data Hp (Pos lam)))|reflexivity]. }
  set (K := rho * rho + W / a * (W / a)).
  assert (N0 : 0 < INR (length data)) by (apply lt_0_INR; destruct data; [congruence|cbn; lia]).
  assert (One : forall l1 l2 v1 v2, a <= l1 -> l1 <= l2 -> dual_at feature_dist2 (same_label d) data (sample_loss w b) (rho * rho) l1 v1 ->
    dual_at feature_dist2 (same_label d) data (sample_loss w b) (rho * rho) l2 v2 -> Rabs (v1 - v2) <= K * (l2 - l1)).
  { intros l1 l2 v1 v2 A1 L (s1 & F1 & ->) (s2 & F2 & ->). destruct (lubs_close d w b Hw a l1 l2 data Hp A A1 L s1 s2 F1 F2) as (E1 & E2 & B1 & B2).
    unfold rmean. rewrite E1, E2. fold W in B2. set (n := INR (length data)) in *. set (q := W / a * (W / a)) in *.
    assert (G : 0 <= rsum s1 / n - rsum s2 / n <= q * (l2 - l1)).
    { replace (rsum s1 / n - rsum s2 / n) with ((rsum s1 - rsum s2) / n) by (field; lra). split.
      - apply Rmult_le_pos; [lra|left; apply Rinv_0_lt_compat; exact N0].
      - apply (Rmult_le_reg_r n); [exact N0|]. replace ((rsum s1 - rsum s2) / n * n) with (rsum s1 - rsum s2) by (field; lra). change (INR (length data)) with n in B2. lra. }
    unfold K. fold q. assert (0 <= rho * rho * (l2 - l1)) by (apply Rmult_le_pos; [nra|lra]). assert (0 <= q * (l2 - l1)) by lra.
    match goal with |- Rabs ?e <= _ => replace e with (rsum s1 / n - rsum s2 / n - rho * rho * (l2 - l1)) by (change (INR (length data)) with n; ring) end.
    apply Rabs_le. split; lra. }
  assert (K0 : 0 <= K) by (unfold K; pose proof (Rle_0_sqr (W / a)) as S; unfold Rsqr in S; nra).
  assert (Lip : forall s t, Rabs (F s - F t) <= K * Rabs (s - t)).
  { assert (Lip' : forall s t, s <= t -> Rabs (F s - F t) <= K * Rabs (s - t)).
    { intros s t H. eapply Rle_trans; [apply (One (Rmax a s) (Rmax a t)); [apply Rmax_l|apply Rle_max_compat_l; exact H|apply FD|apply FD]|].
      apply Rmult_le_compat_l; [exact K0|]. rewrite Rabs_minus_sym, Rabs_pos_eq by lra. unfold Rmax. destruct (Rle_dec a s), (Rle_dec a t); lra. }
    intros s t. destruct (Rle_or_lt s t) as [H|H]; [apply Lip'; exact H|]. rewrite (Rabs_minus_sym (F s)), (Rabs_minus_sym s). apply Lip'. lra. }
  destruct (continuity_ab_min F a top) as (lam & Best & I1); [lra|intros c _; apply (lip_continuous F K K0 Lip)|].
  assert (At : forall l, a <= l -> dual_at feature_dist2 (same_label d) data (sample_loss w b) (rho * rho) l (F l)).
  { intros l H. pose proof (FD l) as Q. rewrite (Rmax_right a l H) in Q. exact Q. }
  assert (Same : forall l v, a <= l -> dual_at feature_dist2 (same_label d) data (sample_loss w b) (rho * rho) l v -> v = F l).
  { intros l v H Dv. pose proof (One l l v (F l) H (Rle_refl l) Dv (At l H)) as Q. replace (K * (l - l)) with 0 in Q by ring.
    pose proof (Rabs_pos (v - F l)). apply Rminus_diag_uniq. destruct (Req_dec (v - F l) 0) as [Z|Z]; [exact Z|]. apply Rabs_pos_lt in Z. lra. }
  exists lam, (F lam). assert (Low : F lam <= wdro_loss w b data rho).
  { eapply Rle_trans; [apply (Best l0); split; assumption|]. rewrite <- (Same l0 v0 Ba D0). exact V0. }
  split; [apply At; lra|]. split; [|split; [exact Low|split; [split; [exact A|apply I1]|apply I1]]].
  intros lam' v' Dv. destruct (Rle_or_lt lam' 0) as [Z|Z].
  { exfalso. exact (dual_infinite_no_value _ _ _ _ (rho * rho) lam' v' (Inf lam' Z) Dv). }
  destruct (Rle_or_lt v' (wdro_loss w b data rho)) as [V|V]; [|lra].
  destruct (Br lam' v' Z Dv V) as [[Ca Cb] _]. rewrite (Same lam' v' Ca Dv). apply Best. split; assumption.
Qed.
Print Assumptions C148_best_exists.
Example C148_best_exists_case : exists lam v, dual_at feature_dist2 (same_label 1) two_points (sample_loss [1] (-1)) (1 / 1000 * (1 / 1000)) lam v /\
  (forall lam' v', dual_at feature_dist2 (same_label 1) two_points (sample_loss [1] (-1)) (1 / 1000 * (1 / 1000)) lam' v' -> v <= v') /\ 30 < lam <= 1000.
Proof.
  destruct (C148_best_exists 1 [1] (-1) two_points (1 / 1000) eq_refl two_points_ok) as (lam & v & D & B & _ & [_ L] & U); [lra|rewrite norm2_1; lra|constructor; cbn; lra|].
  exists lam, v. split; [exact D|]. split; [exact B|]. rewrite norm2_1, two_points_slope in *. lra.
Qed.

(* ---- the marks on the curves ---- *)
Lemma argmin_spec pts : forall best, let r := argmin_from best pts in In r (best :: pts) /\ snd r <= snd best /\ Forall (fun p => snd r <= snd p) pts.
Proof.
  induction pts as [|p pts IH]; intros best; cbv zeta; simpl; [repeat split; auto; lra|].
  destruct (Rlt_dec (snd p) (snd best)) as [L|L].
  - destruct (IH p) as (I & A & F). split; [right; exact I|]. split; [lra|]. constructor; assumption.
  - destruct (IH best) as (I & A & F). split; [destruct I as [<-|I]; auto|]. split; [exact A|]. constructor; [lra|exact F].
Qed.
Lemma test_ls_range l : In l test_ls -> / 100000 <= l <= 1000.
Proof.
  unfold test_ls. rewrite in_map_iff. intros (k & <- & I). apply in_seq in I. assert (K : 0 <= INR k <= 99).
  { split; [apply pos_INR|]. replace 99 with (INR 99) by (simpl; lra). apply le_INR. lia. }
  assert (P5 : Rpower 10 (-5) = / 100000).
  { replace (-5) with (- (5)) by lra. rewrite Rpower_Ropp. f_equal. replace 5 with (INR 5) by (simpl; lra). rewrite Rpower_pow by lra. simpl. lra. }
  assert (P3 : Rpower 10 3 = 1000).
  { replace 3 with (INR 3) by (simpl; lra). rewrite Rpower_pow by lra. simpl. lra. }
  rewrite <- P5, <- P3. split; apply Rle_Rpower; lra.
Qed.
(* The mark is the best point of the grid, which goes from 1e-5 to 1e3. *)
Theorem C148_marked :
  forall f, exists l, marked f = Some l /\ In l test_ls /\ (forall l', In l' test_ls -> f l <= f l') /\ / 100000 <= l <= 1000.
Proof.
  intros f. unfold marked. destruct test_ls as [|a r] eqn:T; [discriminate|]. cbn [map].
  pose proof (argmin_spec (map (fun l => (l, f l)) r) (a, f a)) as (I & A & F). set (q := argmin_from (a, f a) _) in *.
  exists (fst q). split; [reflexivity|].
  assert (E : snd q = f (fst q) /\ In (fst q) (a :: r)).
  { destruct I as [<-|I]; [split; [reflexivity|left; reflexivity]|]. apply in_map_iff in I. destruct I as (x & <- & I). split; [reflexivity|right; exact I]. }
  destruct E as [E1 E2]. split; [exact E2|]. split.
  - intros l' [<-|I']; [rewrite <- E1; exact A|]. rewrite <- E1. rewrite Forall_map in F. exact (proj1 (Forall_forall _ _) F l' I').
  - apply test_ls_range. rewrite T. exact E2.
Qed.
Print Assumptions C148_marked.

(* So with the radius of the script the best multiplier of the robust loss without regularisation is outside of the grid when the norm of the
   weight times the mean squared slope is above 4. *)
Theorem C148_off_grid :
  forall d w b data lam v, length w = d -> points d data -> 4 < norm2 w * mean_sq_slope w b data -> 0 < norm2 w ->
    0 < lam -> dual_at feature_dist2 (same_label d) data (sample_loss w b) (1 / 1000 * (1 / 1000)) lam v -> v <= wdro_loss w b data (1 / 1000) ->
    ~ In lam test_ls.
Proof.
  intros d w b data lam v Hw Hp Big N L Dv V I. apply test_ls_range in I.
  destruct (proj2 (C148_second_power_best d w b data (1 / 1000) Hw Hp ltac:(lra) N) lam v L Dv V) as ([Q _] & _). lra.
Qed.
Print Assumptions C148_off_grid.
Example C148_off_grid_case : points 1 [([1], 1)] /\ 4 < norm2 [20] * mean_sq_slope [20] (-20) [([1], 1)].
Proof.
  split; [split; [discriminate|]; constructor; [split; [reflexivity|simpl; rewrite Rabs_R1; lra]|constructor]|].
  replace (norm2 [20]) with 20.
  - unfold mean_sq_slope, slope, rmean, rsum, dot. simpl. replace (1 * (20 * 1 + 0 + -20)) with 0 by ring. rewrite exp_0. lra.
  - unfold norm2, sqnorm, dot. simpl. replace (20 * 20 + 0) with (20 * 20) by ring. symmetry. apply sqrt_square. lra.
Qed.
