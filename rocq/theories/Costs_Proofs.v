From Coq Require Import Reals List Lra Lia Bool.
From Verif Require Import PyBase RList XReal Costs_Model Costs_Spec.
Import ListNotations.
Local Open Scope R_scope.

(* ---------- vector identities ---------- *)
Lemma vsub_swap x z : vsub z x = vscal (-1) (vsub x z).
Proof.
  unfold vsub, vscal. revert z; induction x as [|a x IH]; intros [|b z]; simpl; auto.
  rewrite IH. f_equal. ring.
Qed.

Lemma vsub_translate x z t : length x = length z -> length t = length x ->
  vsub (map2 Rplus x t) (map2 Rplus z t) = vsub x z.
Proof.
  unfold vsub. revert z t; induction x as [|a x IH]; intros [|b z] [|c t]; simpl; intros H1 H2; try discriminate; auto.
  rewrite IH by congruence. f_equal. ring.
Qed.

Lemma vsub_vscal t x z : vsub (map (Rmult t) x) (map (Rmult t) z) = vscal t (vsub x z).
Proof.
  unfold vsub, vscal. revert z; induction x as [|a x IH]; intros [|b z]; simpl; auto.
  rewrite IH. f_equal. ring.
Qed.

Lemma vsub_zero x z : length x = length z -> (Forall (fun a => a = 0) (vsub x z) <-> x = z).
Proof.
  unfold vsub. revert z; induction x as [|a x IH]; intros [|b z]; simpl; intros H; try discriminate.
  - split; auto.
  - injection H as H. specialize (IH z H). split.
    + intros HF. inversion HF; subst. f_equal; [lra|]. apply IH; assumption.
    + intros E. injection E as -> ->. constructor; [ring|]. apply IH; reflexivity.
Qed.

Lemma vsub_split x y z : length x = length y -> length y = length z -> vsub x z = vadd (vsub x y) (vsub y z).
Proof.
  unfold vsub, vadd. revert y z; induction x as [|a x IH]; intros [|b y] [|c z]; simpl; intros H1 H2; try discriminate; auto.
  rewrite (IH y z) by congruence. f_equal. ring.
Qed.

Lemma vsub_self x : Forall (fun a => a = 0) (vsub x x).
Proof. apply vsub_zero; reflexivity. Qed.

(* ---------- p-norms ---------- *)
Lemma pnorm_nonneg p x : 0 <= pnorm p x.
Proof. destruct p; simpl; [apply ppow_nonneg | apply rmax0_nonneg]. Qed.

Lemma powsum_nonneg q x : 0 <= rsum (map (fun a => ppow (Rabs a) q) x).
Proof. apply rsum_map_nonneg. intros; apply ppow_nonneg. Qed.

Lemma pnorm_all0 p x : Forall (fun a => a = 0) x -> pnorm p x = 0.
Proof.
  intros H. destruct p as [q|]; simpl.
  - assert (E : rsum (map (fun a => ppow (Rabs a) q) x) = 0).
    { induction H as [|a x Ha Hx IH]; simpl; auto. rewrite IH, Ha, Rabs_R0, ppow_0. ring. }
    rewrite E. apply ppow_0.
  - induction H as [|a x Ha Hx IH]; simpl; auto. rewrite IH, Ha, Rabs_R0. apply Rmax_left; lra.
Qed.

Lemma pnorm_eq0 p x : pnorm p x = 0 -> Forall (fun a => a = 0) x.
Proof.
  destruct p as [q|]; simpl; intros H.
  - apply ppow_eq0 in H; [|apply powsum_nonneg].
    apply rsum_zero_nonneg in H.
    + rewrite Forall_map in H. eapply Forall_impl; [|exact H]. simpl. intros a Ha.
      apply ppow_eq0 in Ha; [|apply Rabs_pos]. destruct (Req_dec a 0) as [|Hn]; auto.
      exfalso. apply (Rabs_no_R0 a Hn). exact Ha.
    + rewrite Forall_map. apply Forall_forall. intros; apply ppow_nonneg.
  - apply Forall_forall. intros a Ha.
    assert (Rabs a <= 0). { rewrite <- H. apply rmax0_ge. apply in_map; exact Ha. }
    pose proof (Rabs_pos a). destruct (Req_dec a 0) as [|Hn]; auto.
    exfalso. apply (Rabs_no_R0 a Hn). lra.
Qed.

Lemma pnorm_vscal p c x : valid_exp p -> pnorm p (vscal c x) = Rabs c * pnorm p x.
Proof.
  intros Hp. destruct p as [q|]; simpl in *; unfold vscal; rewrite map_map.
  - assert (E : rsum (map (fun a => ppow (Rabs (c * a)) q) x)
                = ppow (Rabs c) q * rsum (map (fun a => ppow (Rabs a) q) x)).
    { rewrite <- rsum_map_scal. f_equal. apply map_ext. intros a.
      rewrite Rabs_mult. apply ppow_mult; apply Rabs_pos. }
    rewrite E, ppow_mult by (apply ppow_nonneg || apply powsum_nonneg).
    rewrite ppow_ppow, Rinv_r, ppow_1 by (try apply Rabs_pos; lra). reflexivity.
  - induction x as [|a x IH]; simpl; [ring|].
    rewrite IH, Rabs_mult. apply RmaxRmult. apply Rabs_pos.
Qed.

Lemma pnorm_finite_pow q x : 1 <= q -> ppow (pnorm (PFin q) x) q = rsum (map (fun a => ppow (Rabs a) q) x).
Proof.
  intros Hq. simpl. rewrite ppow_ppow. rewrite Rinv_l by lra. apply ppow_1. apply powsum_nonneg.
Qed.

Lemma vadd_0_l x y : length x = length y -> Forall (fun a => a = 0) x -> vadd x y = y.
Proof.
  unfold vadd. intros Hl H. revert y Hl; induction H as [|a x Ha Hx IH]; intros [|b y]; simpl; intros Hl; try discriminate; auto.
  rewrite IH by congruence. subst. f_equal. ring.
Qed.

Lemma vadd_comm x y : vadd x y = vadd y x.
Proof. unfold vadd. revert y; induction x as [|a x IH]; intros [|b y]; simpl; auto. rewrite IH. f_equal; ring. Qed.

Lemma pnorm_triangle p x y : valid_exp p -> length x = length y ->
  pnorm p (vadd x y) <= pnorm p x + pnorm p y.
Proof.
  intros Hp Hl. destruct p as [q|].
  - simpl in Hp. set (a := pnorm (PFin q) x). set (b := pnorm (PFin q) y).
    pose proof (pnorm_nonneg (PFin q) x) as Ha. fold a in Ha.
    pose proof (pnorm_nonneg (PFin q) y) as Hb. fold b in Hb.
    destruct (Req_dec a 0) as [Ea|Ea].
    { rewrite (vadd_0_l x y Hl (pnorm_eq0 _ _ Ea)). fold b. lra. }
    destruct (Req_dec b 0) as [Eb|Eb].
    { rewrite vadd_comm, (vadd_0_l y x (eq_sym Hl) (pnorm_eq0 _ _ Eb)). fold a. lra. }
    assert (Ha1 : 0 < a) by lra. assert (Hb1 : 0 < b) by lra.
    assert (Hab : 0 < a + b) by lra.
    set (t := a / (a + b)).
    assert (Ht : 0 <= t <= 1).
    { unfold t. split; [apply Rmult_le_pos; [lra|apply Rlt_le, Rinv_0_lt_compat; lra]|].
      apply (Rmult_le_reg_r (a + b)); [lra|]. replace (a / (a + b) * (a + b)) with a by (field; lra). lra. }
    assert (Hpt : forall u v, ppow (Rabs (u + v)) q
              <= ppow (a + b) q * (t * (ppow (Rabs u) q * / ppow a q) + (1 - t) * (ppow (Rabs v) q * / ppow b q))).
    { intros u v.
      assert (Hu : 0 <= Rabs u * / a) by (apply Rmult_le_pos; [apply Rabs_pos|apply Rlt_le, Rinv_0_lt_compat; lra]).
      assert (Hv : 0 <= Rabs v * / b) by (apply Rmult_le_pos; [apply Rabs_pos|apply Rlt_le, Rinv_0_lt_compat; lra]).
      apply Rle_trans with (ppow (Rabs u + Rabs v) q).
      { apply ppow_le; [lra|apply Rabs_pos|apply Rabs_triang]. }
      replace (Rabs u + Rabs v) with ((a + b) * (t * (Rabs u * / a) + (1 - t) * (Rabs v * / b)))
        by (unfold t; field; lra).
      rewrite ppow_mult; [|lra|].
      2:{ assert (0 <= t * (Rabs u * / a)) by (apply Rmult_le_pos; lra).
          assert (0 <= (1 - t) * (Rabs v * / b)) by (apply Rmult_le_pos; lra). lra. }
      apply Rmult_le_compat_l; [apply ppow_nonneg|].
      eapply Rle_trans; [apply ppow_convex; assumption|].
      rewrite !ppow_mult by (try apply Rabs_pos; apply Rlt_le, Rinv_0_lt_compat; lra).
      rewrite !ppow_inv by assumption. lra. }
    assert (HS : rsum (map (fun c => ppow (Rabs c) q) (vadd x y)) <= ppow (a + b) q).
    { unfold vadd. rewrite map_map2, map2_map_combine.
      eapply Rle_trans.
      { apply rsum_map_le. intros uv _. apply Hpt. }
      rewrite rsum_map_scal.
      rewrite (rsum_map_plus (fun uv => t * (ppow (Rabs (fst uv)) q * / ppow a q)) (fun uv => (1 - t) * (ppow (Rabs (snd uv)) q * / ppow b q))).
      rewrite !rsum_map_scal.
      assert (E1 : rsum (map (fun uv : R * R => ppow (Rabs (fst uv)) q * / ppow a q) (combine x y)) = 1).
      { rewrite (map_ext _ (fun uv : R * R => / ppow a q * ppow (Rabs (fst uv)) q)) by (intros; ring).
        rewrite rsum_map_scal.
        replace (map (fun uv : R * R => ppow (Rabs (fst uv)) q) (combine x y)) with (map (fun c => ppow (Rabs c) q) x).
        - rewrite <- pnorm_finite_pow by exact Hp. fold a. field.
          apply Rgt_not_eq, ppow_gt0; exact Ha1.
        - clear - Hl. revert y Hl; induction x as [|u x IH]; intros [|v y]; simpl; intros Hl; try discriminate; auto.
          rewrite (IH y) by congruence. reflexivity. }
      assert (E2 : rsum (map (fun uv : R * R => ppow (Rabs (snd uv)) q * / ppow b q) (combine x y)) = 1).
      { rewrite (map_ext _ (fun uv : R * R => / ppow b q * ppow (Rabs (snd uv)) q)) by (intros; ring).
        rewrite rsum_map_scal.
        replace (map (fun uv : R * R => ppow (Rabs (snd uv)) q) (combine x y)) with (map (fun c => ppow (Rabs c) q) y).
        - rewrite <- pnorm_finite_pow by exact Hp. fold b. field.
          apply Rgt_not_eq, ppow_gt0; exact Hb1.
        - clear - Hl. revert y Hl; induction x as [|u x IH]; intros [|v y]; simpl; intros Hl; try discriminate; auto.
          rewrite (IH y) by congruence. reflexivity. }
      rewrite E1, E2. lra. }
    apply (ppow_le _ _ (/ q)) in HS; [|apply Rinv_0_lt_compat; lra|apply powsum_nonneg].
    rewrite ppow_ppow, Rinv_r, ppow_1 in HS by lra. exact HS.
  - simpl. apply rmax0_le.
    { pose proof (rmax0_nonneg (map Rabs x)); pose proof (rmax0_nonneg (map Rabs y)); lra. }
    intros z Hz. apply in_map_iff in Hz. destruct Hz as (c & <- & Hc).
    unfold vadd in Hc. rewrite map2_map_combine in Hc. apply in_map_iff in Hc.
    destruct Hc as ((u & v) & <- & Huv). simpl.
    pose proof (in_combine_l _ _ _ _ Huv) as Hu. pose proof (in_combine_r _ _ _ _ Huv) as Hv.
    pose proof (rmax0_ge _ _ (in_map Rabs _ _ Hu)). pose proof (rmax0_ge _ _ (in_map Rabs _ _ Hv)).
    pose proof (Rabs_triang u v). lra.
Qed.

Lemma pnorm_2 x : pnorm (PFin 2) x = norm2 x.
Proof.
  simpl. rewrite ppow_half by apply powsum_nonneg. unfold norm2, sqnorm, dot. rewrite map2_same.
  f_equal. f_equal. apply map_ext. intros a. rewrite ppow_2 by apply Rabs_pos.
  rewrite <- Rabs_mult. apply Rabs_right. apply Rle_ge, Rle_0_sqr.
Qed.

Lemma pnorm_1 x : pnorm (PFin 1) x = rsum (map Rabs x).
Proof.
  simpl. rewrite Rinv_1, ppow_1 by apply powsum_nonneg.
  f_equal. apply map_ext. intros a. apply ppow_1, Rabs_pos.
Qed.

Lemma tpow_pos d pw : 0 < pw -> tpow d pw = ppow d pw.
Proof. intros H. unfold tpow. destruct (Reqb pw 0) eqn:E; auto. apply Reqb_true in E. lra. Qed.

(* ---------- C06, C07 ---------- *)
Lemma nc_transport_cost p power : valid_exp p -> 0 < power -> transport_cost power (nc_value p power).
Proof.
  intros Hp Hpw. constructor; unfold nc_value; intros; rewrite ?(tpow_pos _ _ Hpw).
  - apply ppow_nonneg.
  - rewrite <- vsub_zero by assumption. split; intros H0.
    + apply ppow_eq0 in H0; [|apply pnorm_nonneg]. eapply pnorm_eq0; exact H0.
    + rewrite (pnorm_all0 p _ H0). apply ppow_0.
  - rewrite (vsub_swap x z), pnorm_vscal by exact Hp.
    rewrite Rabs_left by lra. f_equal. ring.
  - rewrite vsub_translate by assumption. reflexivity.
  - rewrite vsub_vscal, pnorm_vscal by exact Hp.
    rewrite ppow_mult by (apply Rabs_pos || apply pnorm_nonneg).
    f_equal. apply ppow_pos. apply Rabs_pos_lt; assumption.
Qed.

Lemma nc_triangle p : valid_exp p -> triangle (nc_value p 1).
Proof.
  intros Hp x y z H1 H2. unfold nc_value. rewrite !tpow_pos by lra.
  rewrite !ppow_1 by apply pnorm_nonneg.
  rewrite (vsub_split x y z H1 H2). apply pnorm_triangle; [exact Hp|].
  rewrite !vsub_length; congruence.
Qed.

(* quasi-triangle for powers >= 1 *)
Lemma nc_quasi_triangle p power x y z :
  valid_exp p -> 1 <= power -> length x = length y -> length y = length z ->
  nc_value p power x z <= Rpower 2 (power - 1) * (nc_value p power x y + nc_value p power y z).
Proof.
  intros Hp Hpw H1 H2. unfold nc_value. rewrite !tpow_pos by lra.
  set (a := pnorm p (vsub x y)). set (b := pnorm p (vsub y z)).
  assert (Ha : 0 <= a) by apply pnorm_nonneg. assert (Hb : 0 <= b) by apply pnorm_nonneg.
  assert (Hc : pnorm p (vsub x z) <= a + b).
  { rewrite (vsub_split x y z H1 H2). apply pnorm_triangle; [exact Hp|]. rewrite !vsub_length; congruence. }
  eapply Rle_trans; [apply ppow_le; [lra|apply pnorm_nonneg|exact Hc]|].
  replace (a + b) with (2 * (/ 2 * a + (1 - / 2) * b)) by field.
  rewrite ppow_mult by lra.
  assert (Hcv : ppow (/ 2 * a + (1 - / 2) * b) power <= / 2 * ppow a power + (1 - / 2) * ppow b power)
    by (apply ppow_convex; lra).
  rewrite (ppow_pos 2) by lra.
  replace (Rpower 2 (power - 1)) with (Rpower 2 power * / 2).
  2:{ unfold Rminus. rewrite Rpower_plus, Rpower_Ropp, Rpower_1 by lra. reflexivity. }
  apply (Rmult_le_compat_l (Rpower 2 power)) in Hcv; [|apply Rlt_le, exp_pos].
  eapply Rle_trans; [exact Hcv|]. right. field.
Qed.

Lemma nc_square_no_triangle : ~ triangle (nc_value (PFin 2) 2).
Proof.
  intros H. specialize (H [0] [1] [2] eq_refl eq_refl).
  unfold nc_value in H. rewrite !tpow_pos in H by lra. rewrite !pnorm_2 in H.
  rewrite !ppow_2 in H by apply norm2_nonneg. rewrite !norm2_sq in H.
  unfold sqnorm, dot, vsub in H. simpl in H. lra.
Qed.

(* ---------- C08 : the labelled cost ---------- *)
Section Label.
  Variables (p : nexp) (power : R) (xi zeta y y' : vec).
  Hypothesis Hpw : 0 < power.
  Let dx := pnorm p (vsub xi zeta).
  Let dy := pnorm p (vsub y y').
  Let Hdx : 0 <= dx := pnorm_nonneg p (vsub xi zeta).
  Let Hdy : 0 <= dy := pnorm_nonneg p (vsub y y').

  Definition nlc_finite (k : R) : R := ppow ((dx + k * dy) / (1 + k)) power.

  Lemma nlc_value_finite k : 0 < k ->
    nlc_value p power (KFin k) xi zeta (Some y) (Some y') = Ok (nlc_finite k).
  Proof.
    intros Hk. simpl. destruct (Reqb k 0) eqn:E; [apply Reqb_true in E; lra|].
    rewrite (tpow_pos _ _ Hpw). reflexivity.
  Qed.

  Lemma avg_bounds k : 0 < k -> Rmin dx dy <= (dx + k * dy) / (1 + k) <= Rmax dx dy.
  Proof.
    intros Hk. pose proof (Rmin_l dx dy); pose proof (Rmin_r dx dy); pose proof (Rmax_l dx dy); pose proof (Rmax_r dx dy).
    split; apply (Rmult_le_reg_r (1 + k)); try lra;
      replace ((dx + k * dy) / (1 + k) * (1 + k)) with (dx + k * dy) by (field; lra); nra.
  Qed.

  Lemma nlc_between k : 0 < k ->
    Rmin (ppow dx power) (ppow dy power) <= nlc_finite k <= Rmax (ppow dx power) (ppow dy power).
  Proof.
    intros Hk. destruct (avg_bounds k Hk) as [H1 H2]. unfold nlc_finite.
    assert (Hmin : 0 <= Rmin dx dy) by (apply Rmin_glb; assumption).
    split.
    - apply Rle_trans with (ppow (Rmin dx dy) power); [|apply ppow_le; assumption].
      unfold Rmin at 2. destruct (Rle_dec dx dy); [apply Rmin_l|apply Rmin_r].
    - apply Rle_trans with (ppow (Rmax dx dy) power); [apply ppow_le; [exact Hpw|lra|assumption]|].
      unfold Rmax at 1. destruct (Rle_dec dx dy); [apply Rmax_r|apply Rmax_l].
  Qed.
End Label.

(* continuity of x^p on [0, inf) *)
Lemma ppow_continuous p a eps : 0 < p -> 0 <= a -> 0 < eps ->
  exists d, 0 < d /\ forall x, 0 <= x -> Rabs (x - a) < d -> Rabs (ppow x p - ppow a p) < eps.
Proof.
  intros Hp Ha He0.
  assert (Hip : 0 < / p) by (apply Rinv_0_lt_compat; exact Hp).
  assert (Hroot : forall v, 0 <= v -> ppow (ppow v (/ p)) p = v).
  { intros v Hv. rewrite ppow_ppow, Rinv_l, ppow_1 by lra. reflexivity. }
  assert (Hroot' : forall v, 0 <= v -> ppow (ppow v p) (/ p) = v).
  { intros v Hv. rewrite ppow_ppow, Rinv_r, ppow_1 by lra. reflexivity. }
  destruct (Req_dec a 0) as [->|Ha0].
  - exists (ppow eps (/ p)). split; [apply ppow_gt0; exact He0|].
    intros x Hx Hd. rewrite ppow_0, Rminus_0_r in *.
    rewrite Rabs_right in Hd by lra. rewrite Rabs_right by (apply Rle_ge, ppow_nonneg).
    rewrite <- (Hroot eps) by lra. apply ppow_lt; assumption.
  - assert (Hap : 0 < ppow a p) by (apply ppow_gt0; lra).
    set (e := Rmin eps (ppow a p / 2)).
    assert (He : 0 < e) by (apply Rmin_glb_lt; lra).
    assert (He1 : e <= eps) by apply Rmin_l.
    assert (He2 : e <= ppow a p / 2) by apply Rmin_r.
    set (hi := ppow (ppow a p + e) (/ p)). set (lo := ppow (ppow a p - e) (/ p)).
    assert (Hhi : a < hi). { unfold hi. rewrite <- (Hroot' a Ha) at 1. apply ppow_lt; lra. }
    assert (Hlt : lo < a). { unfold lo. rewrite <- (Hroot' a Ha) at 2. apply ppow_lt; lra. }
    assert (Hlo0 : 0 <= lo) by apply ppow_nonneg.
    exists (Rmin (hi - a) (a - lo)). split; [apply Rmin_glb_lt; lra|].
    intros x Hx Hd. pose proof (Rmin_l (hi - a) (a - lo)) as M1; pose proof (Rmin_r (hi - a) (a - lo)) as M2.
    apply Rabs_def2 in Hd. apply Rabs_def1.
    + assert (H1 : ppow x p < ppow hi p) by (apply ppow_lt; lra). unfold hi in H1. rewrite Hroot in H1 by lra. lra.
    + assert (H1 : ppow lo p < ppow x p) by (apply ppow_lt; lra). unfold lo in H1. rewrite Hroot in H1 by lra. lra.
Qed.

Lemma nlc_at_infinity p power xi zeta y y' : 0 < power ->
  tends_at_infinity (nlc_finite p power xi zeta y y') (ppow (pnorm p (vsub y y')) power).
Proof.
  intros Hpw eps He.
  set (dx := pnorm p (vsub xi zeta)). set (dy := pnorm p (vsub y y')).
  assert (Hdx : 0 <= dx) by apply pnorm_nonneg. assert (Hdy : 0 <= dy) by apply pnorm_nonneg.
  destruct (ppow_continuous power dy eps Hpw Hdy He) as (d & Hd & Hc).
  exists ((dx + dy + 1) / d). split.
  { apply Rmult_lt_0_compat; [lra|apply Rinv_0_lt_compat; exact Hd]. }
  intros k Hk.
  assert (Hkd : dx + dy + 1 <= k * d).
  { apply (Rmult_le_compat_r d) in Hk; [|lra]. replace ((dx + dy + 1) / d * d) with (dx + dy + 1) in Hk by (field; lra). lra. }
  assert (Hk0 : 0 < k) by nra.
  unfold nlc_finite. fold dx dy. apply Hc.
  { apply Rmult_le_pos; [nra|apply Rlt_le, Rinv_0_lt_compat; lra]. }
  replace ((dx + k * dy) / (1 + k) - dy) with ((dx - dy) / (1 + k)) by (field; lra).
  unfold Rdiv. rewrite Rabs_mult, (Rabs_right (/ (1 + k))) by (apply Rle_ge, Rlt_le, Rinv_0_lt_compat; lra).
  apply (Rmult_lt_reg_r (1 + k)); [lra|]. rewrite Rmult_assoc, Rinv_l, Rmult_1_r by lra.
  assert (Rabs (dx - dy) <= dx + dy) by (apply Rabs_le; lra). nra.
Qed.

Lemma nlc_at_zero p power xi zeta y y' : 0 < power ->
  tends_at_zero (nlc_finite p power xi zeta y y') (ppow (pnorm p (vsub xi zeta)) power).
Proof.
  intros Hpw eps He.
  set (dx := pnorm p (vsub xi zeta)). set (dy := pnorm p (vsub y y')).
  assert (Hdx : 0 <= dx) by apply pnorm_nonneg. assert (Hdy : 0 <= dy) by apply pnorm_nonneg.
  destruct (ppow_continuous power dx eps Hpw Hdx He) as (d & Hd & Hc).
  exists (d / (dx + dy + 1)). split.
  { apply Rmult_lt_0_compat; [exact Hd|apply Rinv_0_lt_compat; lra]. }
  intros k [Hk0 Hk].
  assert (Hkd : k * (dx + dy + 1) < d).
  { apply (Rmult_lt_compat_r (dx + dy + 1)) in Hk; [|lra]. replace (d / (dx + dy + 1) * (dx + dy + 1)) with d in Hk by (field; lra). lra. }
  unfold nlc_finite. fold dx dy. apply Hc.
  { apply Rmult_le_pos; [nra|apply Rlt_le, Rinv_0_lt_compat; lra]. }
  replace ((dx + k * dy) / (1 + k) - dx) with (k * (dy - dx) / (1 + k)) by (field; lra).
  unfold Rdiv. rewrite Rabs_mult, (Rabs_right (/ (1 + k))) by (apply Rle_ge, Rlt_le, Rinv_0_lt_compat; lra).
  apply (Rmult_lt_reg_r (1 + k)); [lra|]. rewrite Rmult_assoc, Rinv_l, Rmult_1_r by lra.
  rewrite Rabs_mult, (Rabs_right k) by lra.
  assert (Rabs (dy - dx) <= dx + dy) by (apply Rabs_le; lra). nra.
Qed.

(* the labelled cost of power 1 is a metric on (feature, label) pairs *)
Lemma nlc_triangle p k x1 x2 x3 y1 y2 y3 c12 c23 c13 :
  valid_exp p -> 0 < k ->
  length x1 = length x2 -> length x2 = length x3 -> length y1 = length y2 -> length y2 = length y3 ->
  nlc_value p 1 (KFin k) x1 x2 (Some y1) (Some y2) = Ok c12 ->
  nlc_value p 1 (KFin k) x2 x3 (Some y2) (Some y3) = Ok c23 ->
  nlc_value p 1 (KFin k) x1 x3 (Some y1) (Some y3) = Ok c13 ->
  c13 <= c12 + c23.
Proof.
  intros Hp Hk Hx1 Hx2 Hy1 Hy2. rewrite !nlc_value_finite by lra. unfold nlc_finite.
  assert (Hn : forall a b, 0 <= (pnorm p a + k * pnorm p b) / (1 + k)).
  { intros a b. pose proof (pnorm_nonneg p a); pose proof (pnorm_nonneg p b).
    apply Rmult_le_pos; [nra|apply Rlt_le, Rinv_0_lt_compat; lra]. }
  rewrite !ppow_1 by apply Hn.
  intros E1 E2 E3. injection E1 as <-. injection E2 as <-. injection E3 as <-.
  pose proof (pnorm_triangle p (vsub x1 x2) (vsub x2 x3) Hp ltac:(rewrite !vsub_length; congruence)) as Tx.
  pose proof (pnorm_triangle p (vsub y1 y2) (vsub y2 y3) Hp ltac:(rewrite !vsub_length; congruence)) as Ty.
  rewrite <- vsub_split in Tx by assumption. rewrite <- vsub_split in Ty by assumption.
  apply (Rmult_le_reg_r (1 + k)); [lra|].
  match goal with |- ?l * _ <= (?a + ?b) * _ => 
    replace (l * (1 + k)) with (pnorm p (vsub x1 x3) + k * pnorm p (vsub y1 y3)) by (field; lra);
    replace ((a + b) * (1 + k)) with (pnorm p (vsub x1 x2) + pnorm p (vsub x2 x3) + k * (pnorm p (vsub y1 y2) + pnorm p (vsub y2 y3))) by (field; lra) end.
  assert (k * pnorm p (vsub y1 y3) <= k * (pnorm p (vsub y1 y2) + pnorm p (vsub y2 y3))) by (apply Rmult_le_compat_l; lra).
  lra.
Qed.

(* ---------- C10 ---------- *)
Lemma nlc_same_labels p power k xi zeta y :
  0 < power -> 0 < k ->
  nlc_value p power (KFin k) xi zeta (Some y) (Some y) = Ok (nc_value p power xi zeta * Rpower (/ (1 + k)) power).
Proof.
  intros Hpw Hk. rewrite nlc_value_finite by assumption. unfold nlc_finite, nc_value.
  rewrite (pnorm_all0 p (vsub y y) (vsub_self y)), (tpow_pos _ _ Hpw).
  replace ((pnorm p (vsub xi zeta) + k * 0) / (1 + k)) with (pnorm p (vsub xi zeta) * / (1 + k)) by (field; lra).
  assert (Hi : 0 < / (1 + k)) by (apply Rinv_0_lt_compat; lra).
  rewrite ppow_mult by (try apply pnorm_nonneg; lra).
  rewrite (ppow_pos (/ (1 + k))) by exact Hi. reflexivity.
Qed.

(* ---------- C11 ---------- *)
Lemma vsub_vadd_l x d : length x = length d -> vsub (vadd x d) x = d.
Proof.
  unfold vsub, vadd. revert d; induction x as [|a x IH]; intros [|b d]; simpl; intros H; try discriminate; auto.
  rewrite IH by congruence. f_equal. ring.
Qed.

Lemma vadd_vsub x z : length x = length z -> vadd x (vsub z x) = z.
Proof.
  unfold vsub, vadd. revert z; induction x as [|a x IH]; intros [|b z]; simpl; intros H; try discriminate; auto.
  rewrite IH by congruence. f_equal. ring.
Qed.

Lemma square_gap g d : length g = length d ->
  dot g d - sqnorm d = / 4 * sqnorm g - sqnorm (vsub d (vscal (/ 2) g)).
Proof.
  intros H. rewrite sqnorm_vsub by (rewrite vscal_length; congruence).
  rewrite sqnorm_vscal, dot_vscal_r, (dot_comm d g). field.
Qed.

Lemma nc_value_22 xi zeta : nc_value (PFin 2) 2 xi zeta = sqnorm (vsub xi zeta).
Proof.
  unfold nc_value. rewrite tpow_pos by lra. rewrite pnorm_2, ppow_2 by apply norm2_nonneg. apply norm2_sq.
Qed.

Lemma sqnorm_vsub_sym x z : sqnorm (vsub x z) = sqnorm (vsub z x).
Proof. rewrite (vsub_swap x z), sqnorm_vscal. ring. Qed.

Lemma argmax_scaled xi g lam : 0 < lam -> length g = length xi ->
  unique_argmax (length xi) (fun z => dot g (vsub z xi) - lam * nc_value (PFin 2) 2 xi z)
                (vadd xi (vscal (/ 2) (vscal (/ lam) g))).
Proof.
  intros Hlam Hg. set (h := vscal (/ lam) g).
  assert (Hh : length h = length xi) by (unfold h; rewrite vscal_length; exact Hg).
  assert (Hd : forall z, length z = length xi ->
     dot g (vsub z xi) - lam * nc_value (PFin 2) 2 xi z
     = lam * (/ 4 * sqnorm h - sqnorm (vsub (vsub z xi) (vscal (/ 2) h)))).
  { intros z Hz. rewrite nc_value_22, sqnorm_vsub_sym.
    rewrite <- square_gap by (rewrite vsub_length; congruence).
    unfold h. rewrite dot_vscal_l. field. lra. }
  assert (Hl : length (vadd xi (vscal (/ 2) h)) = length xi)
    by (rewrite vadd_length; rewrite ?vscal_length; congruence).
  split; [exact Hl|].
  intros w Hw. rewrite (Hd w Hw), (Hd _ Hl).
  rewrite vsub_vadd_l by (rewrite vscal_length; congruence).
  assert (E0 : sqnorm (vsub (vscal (/ 2) h) (vscal (/ 2) h)) = 0).
  { rewrite sqnorm_vsub by reflexivity. fold (sqnorm (vscal (/ 2) h)). unfold sqnorm. ring. }
  rewrite E0. pose proof (sqnorm_nonneg (vsub (vsub w xi) (vscal (/ 2) h))) as Hn. split.
  - apply Rmult_le_compat_l; lra.
  - intros E. apply Rmult_eq_reg_l in E; [|lra].
    assert (Ez : sqnorm (vsub (vsub w xi) (vscal (/ 2) h)) = 0) by lra.
    apply sqnorm_zero in Ez. apply vsub_zero in Ez; [|rewrite vsub_length, vscal_length; congruence].
    rewrite <- Ez. symmetry. apply vadd_vsub. congruence.
Qed.

Lemma nexp_is_2_true p : nexp_is_2 p = true <-> p = PFin 2.
Proof.
  destruct p as [q|]; simpl; [|split; discriminate]. rewrite Reqb_true.
  split; [intros ->; reflexivity | intros H; injection H; auto].
Qed.

Lemma nc_solve_max_ok xi y rhs ry :
  nc_solve_max (PFin 2) 2 xi y rhs ry = Ok (vadd xi (vscal (/ 2) rhs), y).
Proof.
  unfold nc_solve_max. simpl. replace (Reqb 2 2) with true; [reflexivity|].
  symmetry. apply Reqb_true. reflexivity.
Qed.

Lemma nc_solve_max_other p power xi y rhs ry :
  ~ (p = PFin 2 /\ power = 2) -> nc_solve_max p power xi y rhs ry = Raise NotImplementedError.
Proof.
  intros H. unfold nc_solve_max. destruct (nexp_is_2 p && Reqb 2 power) eqn:E; auto.
  apply andb_prop in E. destruct E as [E1 E2]. apply nexp_is_2_true in E1. apply Reqb_true in E2.
  exfalso. apply H. auto.
Qed.

Lemma nc_solve_max_optimal xi y g ry lam :
  0 < lam -> length g = length xi ->
  exists z, nc_solve_max (PFin 2) 2 xi y (vscal (/ lam) g) ry = Ok (z, y) /\
            unique_argmax (length xi) (fun w => dot g (vsub w xi) - lam * nc_value (PFin 2) 2 xi w) z.
Proof.
  intros Hlam Hg. eexists. split; [apply nc_solve_max_ok|]. apply argmax_scaled; assumption.
Qed.

(* ---------- C12 ---------- *)
Lemma nlc_value_1d k x y dx dy : 0 < k ->
  nlc_value (PFin 2) 2 (KFin k) [x] [x + dx] (Some [y]) (Some [y + dy])
  = Ok (((Rabs dx + k * Rabs dy) / (1 + k)) * ((Rabs dx + k * Rabs dy) / (1 + k))).
Proof.
  intros Hk. rewrite nlc_value_finite by lra. unfold nlc_finite. rewrite !pnorm_2.
  assert (H1 : forall a d, norm2 (vsub [a] [a + d]) = Rabs d).
  { intros a d. unfold norm2, sqnorm, dot, vsub. simpl.
    replace ((a - (a + d)) * (a - (a + d)) + 0) with (Rsqr d) by (unfold Rsqr; ring). apply sqrt_Rsqr_abs. }
  rewrite !H1, ppow_2; [reflexivity|].
  pose proof (Rabs_pos dx); pose proof (Rabs_pos dy).
  apply Rmult_le_pos; [nra|apply Rlt_le, Rinv_0_lt_compat; lra].
Qed.

Lemma label_shift_finite k y r : 0 < k -> label_shift (KFin k) y r = Fin (y + / 2 * r / k).
Proof.
  intros Hk. unfold label_shift. simpl. destruct (Reqb k 0) eqn:E; [apply Reqb_true in E; lra|]. reflexivity.
Qed.

Lemma nlc_solve_max_refuted :
  exists (k lam g h x y : R), 0 < k /\ 0 < lam /\
  exists x1 y1 c1 x2 y2 c2,
    (* the code's answer *)
    nlc_solve_max (PFin 2) 2 (KFin k) [x] (Some [y]) [g / lam] (Some [h / lam]) = Ok ([x1], Some [Fin y1]) /\
    nlc_value (PFin 2) 2 (KFin k) [x] [x1] (Some [y]) (Some [y1]) = Ok c1 /\
    (* a strictly better point *)
    nlc_value (PFin 2) 2 (KFin k) [x] [x2] (Some [y]) (Some [y2]) = Ok c2 /\
    g * (x1 - x) + h * (y1 - y) - lam * c1 < g * (x2 - x) + h * (y2 - y) - lam * c2.
Proof.
  exists 1, 1, 1, 0, 0, 0. split; [lra|]. split; [lra|].
  exists (0 + / 2), (0 + 0),
    (((Rabs (/ 2) + 1 * Rabs 0) / (1 + 1)) * ((Rabs (/ 2) + 1 * Rabs 0) / (1 + 1))),
    (0 + 2), (0 + 0),
    (((Rabs 2 + 1 * Rabs 0) / (1 + 1)) * ((Rabs 2 + 1 * Rabs 0) / (1 + 1))).
  split.
  { unfold nlc_solve_max. simpl nexp_is_2. replace (Reqb 2 2) with true by (symmetry; apply Reqb_true; reflexivity).
    simpl. rewrite label_shift_finite by lra. unfold vadd, vscal; simpl. repeat f_equal; field. }
  split; [apply nlc_value_1d; lra|]. split; [apply nlc_value_1d; lra|].
  rewrite Rabs_R0, !Rabs_right by lra. lra.
Qed.

(* What the formula does maximise: the cost ||dx||^2 + kappa ||dy||^2 (first formula of doc/tutos/costs.rst with p=2). *)
Lemma nlc_solve_max_additive xi y g h lam k :
  0 < lam -> 0 < k -> length g = length xi -> length h = length y ->
  exists zx zy,
    nlc_solve_max (PFin 2) 2 (KFin k) xi (Some y) (vscal (/ lam) g) (Some (vscal (/ lam) h)) = Ok (zx, Some (map Fin zy)) /\
    forall wx wy, length wx = length xi -> length wy = length y ->
      dot g (vsub wx xi) + dot h (vsub wy y) - lam * (sqnorm (vsub xi wx) + k * sqnorm (vsub y wy))
      <= dot g (vsub zx xi) + dot h (vsub zy y) - lam * (sqnorm (vsub xi zx) + k * sqnorm (vsub y zy)).
Proof.
  intros Hlam Hk Hg Hh.
  exists (vadd xi (vscal (/ 2) (vscal (/ lam) g))), (vadd y (vscal (/ 2) (vscal (/ (lam * k)) h))).
  split.
  - unfold nlc_solve_max. simpl nexp_is_2. replace (Reqb 2 2) with true by (symmetry; apply Reqb_true; reflexivity).
    simpl. f_equal. f_equal. f_equal. clear Hg. revert h Hh. induction y as [|a y IH]; intros [|b h]; simpl; intros Hh; try discriminate; auto.
    rewrite IH by congruence. rewrite label_shift_finite by exact Hk. f_equal. f_equal. field; lra.
  - intros wx wy Hwx Hwy.
    pose proof (proj2 (argmax_scaled xi g lam Hlam Hg) wx Hwx) as [H1 _].
    assert (Hlk : 0 < lam * k) by (apply Rmult_lt_0_compat; assumption).
    pose proof (proj2 (argmax_scaled y h (lam * k) Hlk Hh) wy Hwy) as [H2 _].
    rewrite !nc_value_22 in H1, H2. lra.
Qed.

(* kappa = 0: the label displacement is never finite *)
Lemma label_shift_zero y r : isfinite (label_shift (KFin 0) y r) = false.
Proof.
  unfold label_shift. simpl. replace (Reqb 0 0) with true by (symmetry; apply Reqb_true; reflexivity).
  destruct (Reqb (/ 2 * r) 0); [reflexivity|]. destruct (Rltb (/ 2 * r) 0); reflexivity.
Qed.

(* ---------- C09 ---------- *)
Lemma kinf_ignores_features p power xi zeta zeta' y y' :
  nlc_value p power KInf xi zeta (Some y) (Some y') = nlc_value p power KInf xi zeta' (Some y) (Some y').
Proof. reflexivity. Qed.

Lemma kinf_not_nc :
  exists xi zeta y, nlc_value (PFin 2) 2 KInf xi zeta (Some y) (Some y) = Ok 0 /\ nc_value (PFin 2) 2 xi zeta = 1.
Proof.
  exists [0], [1], [0]. split.
  - unfold nlc_value. rewrite (pnorm_all0 _ _ (vsub_self _)), tpow_pos, ppow_0 by lra. reflexivity.
  - rewrite nc_value_22. unfold sqnorm, dot, vsub; simpl. ring.
Qed.

(* ---------- statements in the form used by the property file ---------- *)
Lemma nc_as_ppow p power a b : 0 < power -> nc_value p power a b = ppow (pnorm p (vsub a b)) power.
Proof. intros H. unfold nc_value. apply tpow_pos; exact H. Qed.

Lemma label_between p power k xi zeta y y' :
  0 < power -> 0 < k ->
  exists v, nlc_value p power (KFin k) xi zeta (Some y) (Some y') = Ok v /\
            Rmin (nc_value p power xi zeta) (nc_value p power y y') <= v
            <= Rmax (nc_value p power xi zeta) (nc_value p power y y').
Proof.
  intros Hpw Hk. eexists. split; [apply nlc_value_finite; assumption|].
  rewrite !(nc_as_ppow p power) by exact Hpw. apply nlc_between; assumption.
Qed.

Lemma label_limits p power xi zeta y y' :
  0 < power ->
  (exists f, (forall k, 0 < k -> nlc_value p power (KFin k) xi zeta (Some y) (Some y') = Ok (f k)) /\
             tends_at_infinity f (nc_value p power y y') /\ tends_at_zero f (nc_value p power xi zeta)) /\
  nlc_value p power KInf xi zeta (Some y) (Some y') = Ok (nc_value p power y y') /\
  nlc_value p power (KFin 0) xi zeta (Some y) (Some y') = Ok (nc_value p power xi zeta).
Proof.
  intros Hpw. split; [|split].
  - exists (nlc_finite p power xi zeta y y'). split; [|split].
    + intros k Hk. apply nlc_value_finite; assumption.
    + rewrite nc_as_ppow by exact Hpw. apply nlc_at_infinity; exact Hpw.
    + rewrite nc_as_ppow by exact Hpw. apply nlc_at_zero; exact Hpw.
  - reflexivity.
  - simpl. replace (Reqb 0 0) with true by (symmetry; apply Reqb_true; reflexivity). reflexivity.
Qed.

Lemma label_errors p power k xi zeta y y' :
  (y = None \/ y' = None -> nlc_value p power k xi zeta y y' = Raise AssertionError) /\
  (forall r, r < 0 -> nlc_init_ok (KFin r) = false) /\
  (forall r, 0 <= r -> nlc_init_ok (KFin r) = true) /\ nlc_init_ok KInf = true.
Proof.
  repeat split.
  - intros [-> | ->]; simpl; auto. destruct y; reflexivity.
  - intros r Hr. simpl. apply Rleb_false. exact Hr.
  - intros r Hr. simpl. apply Rleb_true. exact Hr.
Qed.

Lemma default_kappa_shrinks p power k xi zeta y :
  valid_exp p -> 0 < power -> 0 < k -> length xi = length zeta -> xi <> zeta ->
  exists v, nlc_value p power (KFin k) xi zeta (Some y) (Some y) = Ok v /\ 0 < v < nc_value p power xi zeta.
Proof.
  intros Hp Hpw Hk Hl Hne. eexists. split; [apply nlc_same_labels; assumption|].
  pose proof (nc_transport_cost p power Hp Hpw) as T.
  assert (Hpos : 0 < nc_value p power xi zeta).
  { destruct (Rle_lt_or_eq_dec _ _ (tc_nonneg _ _ T xi zeta Hl)) as [|E]; auto.
    exfalso. apply Hne. apply (tc_zero _ _ T); auto. }
  assert (Hi : 0 < / (1 + k) < 1).
  { split; [apply Rinv_0_lt_compat; lra|]. rewrite <- Rinv_1. apply Rinv_lt_contravar; lra. }
  assert (Hr : 0 < Rpower (/ (1 + k)) power < 1).
  { split; [apply exp_pos|]. unfold Rpower.
    assert (Hln : ln (/ (1 + k)) < ln 1) by (apply ln_increasing; lra). rewrite ln_1 in Hln.
    assert (Hneg : power * ln (/ (1 + k)) < 0) by nra.
    apply exp_increasing in Hneg. rewrite exp_0 in Hneg. exact Hneg. }
  split; [apply Rmult_lt_0_compat; lra|]. nra.
Qed.

Lemma square_relaxed p x y z : valid_exp p -> length x = length y -> length y = length z ->
  nc_value p 2 x z <= 2 * (nc_value p 2 x y + nc_value p 2 y z).
Proof.
  intros Hp H1 H2. pose proof (nc_quasi_triangle p 2 x y z Hp ltac:(lra) H1 H2) as H.
  replace (2 - 1) with 1 in H by ring. rewrite Rpower_1 in H by lra. exact H.
Qed.

Lemma pnorm_cases x :
  pnorm (PFin 1) x = rsum (map Rabs x) /\
  pnorm (PFin 2) x = sqrt (rsum (map (fun a => a * a) x)) /\
  (forall a, In a x -> Rabs a <= pnorm PInfty x) /\
  (x <> [] -> exists a, In a x /\ pnorm PInfty x = Rabs a).
Proof.
  split; [apply pnorm_1|]. split.
  { rewrite pnorm_2. unfold norm2, sqnorm, dot. rewrite map2_same. reflexivity. }
  split.
  { intros a Ha. simpl. apply rmax0_ge. apply in_map. exact Ha. }
  intros Hne. simpl. induction x as [|a x IH]; [contradiction|].
  destruct x as [|b x].
  - exists a. split; [left; reflexivity|]. simpl. apply Rmax_left. apply Rabs_pos.
  - destruct IH as (c & Hc & E); [discriminate|]. change (rmax0 (map Rabs (a :: b :: x))) with (Rmax (Rabs a) (rmax0 (map Rabs (b :: x)))).
    rewrite E. unfold Rmax. destruct (Rle_dec (Rabs a) (Rabs c)).
    + exists c. split; [right; exact Hc|reflexivity].
    + exists a. split; [left; reflexivity|reflexivity].
Qed.

Lemma label_solve_max_zero_kappa xi y g h : y <> [] -> length h = length y ->
  exists zx zy, nlc_solve_max (PFin 2) 2 (KFin 0) xi (Some y) g (Some h) = Ok (zx, Some zy) /\
                zy <> [] /\ Forall (fun v => isfinite v = false) zy.
Proof.
  intros Hne Hl. eexists _, _. split; [|split].
  - unfold nlc_solve_max. simpl nexp_is_2. replace (Reqb 2 2) with true by (symmetry; apply Reqb_true; reflexivity).
    reflexivity.
  - destruct y; [contradiction|]. destruct h; discriminate.
  - clear Hne. revert h Hl; induction y as [|a y IH]; intros [|b h]; simpl; intros Hl; try discriminate; constructor.
    + apply label_shift_zero.
    + apply IH; congruence.
Qed.
