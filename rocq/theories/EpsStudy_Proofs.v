(* Lemmas about the search for the multiplier. *)
From Coq Require Import Reals Bool String List Lra Lia Psatz.
From Verif Require Import PyBase RList XReal LogMeanExp Dual_Model Dual_Spec Dual_Proofs DualMinimax_Proofs Dual2_Proofs EpsStudy_Model EpsStudy_Spec.
Import ListNotations.
Local Open Scope R_scope.

(* ---------- the loop ---------- *)
Lemma project x : (if extra_condition x then x else x * 0) = Rmax 0 x.
Proof.
  unfold extra_condition. destruct (Rleb 0 x) eqn:E.
  - apply Rleb_true in E. rewrite Rmax_right by exact E. reflexivity.
  - apply Rleb_false in E. rewrite Rmax_left by lra. ring.
Qed.

Lemma line_loop_spec obj grad old : forall m k,
  (small_changes obj grad old k < 10)%nat ->
  exists n, (k <= n <= k + m)%nat /\
    line_loop obj grad m k (small_changes obj grad old k) (iterate grad k) (match k with O => old | S j => read obj grad j end)
    = (iterate grad n, match n with O => old | S j => read obj grad j end) /\
    (n = (k + m)%nat \/ (k < n)%nat /\ small_changes obj grad old n = 10%nat) /\ (forall j, (k <= j < n)%nat -> (small_changes obj grad old j < 10)%nat).
Proof.
  induction m as [|m IH]; intros k Hk.
  - exists k. rewrite Nat.add_0_r. repeat split; auto; lia.
  - cbn [line_loop]. rewrite project.
    replace (iterate grad k - / 100 * grad k (iterate grad k)) with (iterate grad k - grad k (iterate grad k) / 100) by (unfold Rdiv; ring).
    change (Rmax 0 (iterate grad k - grad k (iterate grad k) / 100)) with (iterate grad (S k)).
    change (obj k (iterate grad k)) with (read obj grad k).
    change (Rabs (read obj grad k - match k with O => old | S j => read obj grad j end)) with (change obj grad old k).
    assert (ES : small_changes obj grad old (S k) = ((if Rlt_dec (change obj grad old k) (/ 100000) then 1 else 0) + small_changes obj grad old k)%nat) by reflexivity.
    destruct (Rlt_dec (change obj grad old k) (/ 100000)) as [L|L].
    + rewrite (proj2 (Rltb_true _ _) L). cbn [plus] in ES. destruct (Nat.eqb_spec (S (small_changes obj grad old k)) 10) as [E|E].
      * exists (S k). split; [lia|]. split; [reflexivity|]. split; [right; split; [lia|congruence]|]. intros j Hj. replace j with k by lia. exact Hk.
      * destruct (IH (S k) ltac:(lia)) as (n & Hn & En & Sn & An). exists n. split; [lia|]. rewrite <- ES. split; [exact En|]. split.
        -- destruct Sn as [Sn|Sn]; [left; lia|right; lia].
        -- intros j Hj. destruct (Nat.eq_dec j k) as [->|Nj]; [exact Hk|apply An; lia].
    + rewrite (proj2 (Rltb_false _ _) (Rnot_lt_le _ _ L)). cbn [plus] in ES. destruct (IH (S k) ltac:(lia)) as (n & Hn & En & Sn & An). exists n. split; [lia|].
      rewrite <- ES. split; [exact En|]. split.
      * destruct Sn as [Sn|Sn]; [left; lia|right; lia].
      * intros j Hj. destruct (Nat.eq_dec j k) as [->|Nj]; [exact Hk|apply An; lia].
Qed.

Lemma line_optim_spec obj grad old : exists n, (n <= 99)%nat /\
  line_optim obj grad old = (iterate grad (S n), read obj grad n) /\
  (n = 99%nat \/ small_changes obj grad old (S n) = 10%nat) /\ (forall j, (j <= n)%nat -> (small_changes obj grad old j < 10)%nat).
Proof.
  unfold line_optim. assert (N100 : N_LAMBDA_OPTIM_STEPS = 100%nat) by reflexivity. revert N100. generalize N_LAMBDA_OPTIM_STEPS. intros N N100.
  destruct (line_loop_spec obj grad old N 0 ltac:(cbn; lia)) as (n & Hn & En & Sn & An). cbn [small_changes iterate] in En.
  destruct n as [|n]; [destruct Sn as [Sn|[Sn _]]; lia|]. exists n. split; [lia|]. split; [exact En|]. split.
  - destruct Sn as [Sn|[_ Sn]]; [left; lia|right; exact Sn].
  - intros j Hj. apply An. lia.
Qed.

Lemma iterate_nonneg grad k : 0 <= iterate grad k.
Proof. destruct k; cbn [iterate]; [lra|apply Rmax_l]. Qed.

Lemma iterate_travel grad G : 0 <= G -> (forall k l, 0 <= l -> - G <= grad k l) -> forall k, iterate grad k <= INR k * G / 100.
Proof.
  intros HG H. induction k as [|k IH]; [cbn; lra|]. rewrite S_INR. cbn [iterate]. pose proof (H k _ (iterate_nonneg grad k)) as Q.
  assert (0 <= INR k) by apply pos_INR. apply Rmax_lub; [|unfold Rdiv in *; lra]. assert (0 <= INR k * G) by (apply Rmult_le_pos; lra). lra.
Qed.

Lemma iterate_stays grad : (forall k, 0 <= grad k 0) -> forall k, iterate grad k = 0.
Proof. intros H. induction k as [|k IH]; [reflexivity|]. cbn [iterate]. rewrite IH. apply Rmax_left. specialize (H k). lra. Qed.

(* ---------- convex functions with a Lipschitz derivative ---------- *)
Section Convex.
Variables f g : R -> R.
Hypothesis Hd : forall x, derivable_pt_lim f x (g x).
Hypothesis Hm : forall a b, a <= b -> g a <= g b.

Lemma above_tangent a b : f a + g a * (b - a) <= f b.
Proof.
  destruct (Rtotal_order a b) as [L|[->|L]]; [|lra|].
  - destruct (MVT_cor2 f g a b L ltac:(intros; apply Hd)) as [c [E [C1 C2]]]. pose proof (Hm a c ltac:(lra)).
    assert (g a * (b - a) <= g c * (b - a)) by (apply Rmult_le_compat_r; lra). lra.
  - destruct (MVT_cor2 f g b a L ltac:(intros; apply Hd)) as [c [E [C1 C2]]]. pose proof (Hm c a ltac:(lra)).
    assert (g c * (a - b) <= g a * (a - b)) by (apply Rmult_le_compat_r; lra). lra.
Qed.

Hypothesis HL : forall a b, a <= b -> g b - g a <= 100 * (b - a).
Variable ls : R.
Hypothesis Hls : 0 <= ls.
Hypothesis Hmin : forall l, 0 <= l -> f ls <= f l.

Lemma min_slope : 0 <= g ls /\ (0 < ls -> g ls = 0).
Proof.
  assert (A : 0 <= g ls). { apply (right_min_deriv f ls _ (Hd ls)). intros x Hx. apply Hmin. lra. }
  split; [exact A|]. intros Hp. assert (g ls <= 0); [|lra]. apply (left_min_deriv f ls _ 0 Hp (Hd ls)). intros x Hx. apply Hmin. lra.
Qed.

Notation it := (iterate (fun _ => g)).
Lemma iterate_below k : 0 <= it k <= ls.
Proof.
  destruct min_slope as [S0 S1]. induction k as [|k IH]; [cbn; lra|]. cbn [iterate]. split; [apply Rmax_l|].
  apply Rmax_lub; [lra|]. pose proof (HL (it k) ls ltac:(lra)). lra.
Qed.
Lemma iterate_step k : it (S k) = it k + Rmax 0 (- g (it k)) / 100.
Proof.
  destruct min_slope as [S0 S1]. cbn [iterate]. pose proof (iterate_below k) as [B0 B1]. destruct (Rle_lt_dec (g (it k)) 0) as [L|L].
  - rewrite !Rmax_right by lra. lra.
  - rewrite (Rmax_left 0 (- g (it k))) by lra. pose proof (Hm _ _ B1). destruct (Rle_lt_dec ls 0) as [Z|Z]; [|specialize (S1 Z); lra].
    assert (E : it k = 0) by lra. rewrite E in *. rewrite Rmax_left by lra. lra.
Qed.
Lemma iterate_rate k : INR k * - g (it k) <= 100 * it k.
Proof.
  induction k as [|k IH]; [cbn; lra|]. pose proof (iterate_step k) as E. rewrite S_INR. pose proof (iterate_nonneg (fun _ => g) k) as N. assert (I : 0 <= INR k) by apply pos_INR.
  assert (M0 : 0 <= Rmax 0 (- g (it k))) by apply Rmax_l. pose proof (Hm (it k) (it (S k)) ltac:(lra)) as M.
  assert (A : (INR k + 1) * - g (it (S k)) <= (INR k + 1) * - g (it k)) by (apply Rmult_le_compat_l; lra).
  pose proof (Rmax_r 0 (- g (it k))). lra.
Qed.
Lemma value_rate k : f ls <= f (it k) /\ INR k * (f (it k) - f ls) <= 25 * (ls * ls).
Proof.
  pose proof (iterate_below k) as [B0 B1]. split; [apply Hmin, B0|]. pose proof (above_tangent (it k) ls) as T. pose proof (iterate_rate k) as Q. assert (I : 0 <= INR k) by apply pos_INR.
  assert (A : INR k * (f (it k) - f ls) <= INR k * (- g (it k) * (ls - it k))) by (apply Rmult_le_compat_l; lra).
  assert (B : INR k * - g (it k) * (ls - it k) <= 100 * it k * (ls - it k)) by (apply Rmult_le_compat_r; lra).
  pose proof (Rle_0_sqr (ls - 2 * it k)) as SQ. unfold Rsqr in SQ. nra.
Qed.
Lemma values_decrease k : f (it (S k)) <= f (it k).
Proof.
  pose proof (iterate_step k) as E. pose proof (above_tangent (it (S k)) (it k)) as T. destruct min_slope as [S0 S1].
  pose proof (iterate_below (S k)) as [B0 B1]. assert (M0 : 0 <= Rmax 0 (- g (it k))) by apply Rmax_l.
  destruct (Rle_lt_dec (g (it (S k))) 0) as [L|L]; [nra|]. pose proof (Hm _ _ B1). destruct (Rle_lt_dec ls 0) as [Z|Z]; [|specialize (S1 Z); lra].
  pose proof (iterate_below k) as [C0 C1]. replace (it (S k)) with (it k) by lra. lra.
Qed.
End Convex.

(* ---------- the derivative of the dual objective ---------- *)
Section DualSlope.
Variable P : Type.
Variable loss : P -> R.
Variable cost : P -> P -> R.

(* mean cost of the samples of a row under the Gibbs weights *)
Definition gmean eps lam (r : row P) : R := rsum (map2 (fun w z => w * cost (r_xi r) z) (gibbs P loss cost eps lam r) (r_zeta r)).

Lemma gmean_eq eps lam r : gmean eps lam r =
  rsum (map (fun z => cost (r_xi r) z * exp ((loss z - lam * cost (r_xi r) z) / eps)) (r_zeta r)) / rsum (map (fun z => exp ((loss z - lam * cost (r_xi r) z) / eps)) (r_zeta r)).
Proof.
  unfold gmean, gibbs. rewrite map2_map_l, map2_same. set (S := rsum (map (fun z => exp _) _)).
  rewrite (map_ext _ (fun z => / S * (cost (r_xi r) z * exp ((loss z - lam * cost (r_xi r) z) / eps)))) by (intros; unfold Rdiv; ring).
  rewrite rsum_map_scal. unfold Rdiv. ring.
Qed.

(* minus the variance of the cost under those weights, over eps *)
Definition gslope eps lam (r : row P) : R :=
  let e := fun z => exp ((loss z - lam * cost (r_xi r) z) / eps) in let S := rsum (map (fun z => e z) (r_zeta r)) in
  let N := rsum (map (fun z => cost (r_xi r) z * e z) (r_zeta r)) in
  (- rsum (map (fun z => cost (r_xi r) z * cost (r_xi r) z * e z) (r_zeta r)) / eps * S - (- N / eps) * N) / Rsqr S.

Lemma gmean_deriv eps lam r C : 0 < eps -> r_zeta r <> [] -> (forall z, In z (r_zeta r) -> 0 <= cost (r_xi r) z <= C) ->
  derivable_pt_lim (fun l => gmean eps l r) lam (gslope eps lam r) /\ - (C * C) / (4 * eps) <= gslope eps lam r <= 0.
Proof.
  intros He Hne HC. set (c := cost (r_xi r)) in *. set (e := fun l z => exp ((loss z - l * c z) / eps)).
  set (S := fun l => rsum (map (fun z => e l z) (r_zeta r))). set (N := fun l => rsum (map (fun z => c z * e l z) (r_zeta r))).
  set (M := rsum (map (fun z => c z * c z * e lam z) (r_zeta r))).
  assert (Sp : forall l, 0 < S l). { intros l. unfold S. apply rsum_pos; [apply map_neq_nil, Hne|]. apply Forall_map, Forall_forall. intros; apply exp_pos. }
  assert (De : forall z, derivable_pt_lim (fun l => e l z) lam (- (c z / eps) * e lam z)).
  { intros z. unfold e. rewrite Rmult_comm. apply (derivable_pt_lim_comp (fun t => (loss z - t * c z) / eps) exp lam); [|apply derivable_pt_lim_exp].
    apply (derivable_ext (fun t => loss z / eps + t * - (c z / eps))); [intros; field; lra|]. apply derivable_affine. }
  assert (DS : derivable_pt_lim S lam (- (N lam) / eps)).
  { eapply derivable_eq; [apply (derivable_rsum (fun z t => e t z) (fun z => - (c z / eps) * e lam z)); intros z _; apply De|].
    unfold N. rewrite (map_ext _ (fun z => - / eps * (c z * e lam z))) by (intros; unfold Rdiv; ring). rewrite rsum_map_scal. unfold Rdiv. ring. }
  assert (DN : derivable_pt_lim N lam (- M / eps)).
  { eapply derivable_eq.
    - apply (derivable_rsum (fun z t => c z * e t z) (fun z => c z * (- (c z / eps) * e lam z))). intros z _. eapply derivable_scal_eq; [apply De|reflexivity].
    - unfold M. rewrite (map_ext _ (fun z => - / eps * (c z * c z * e lam z))) by (intros; unfold Rdiv; ring). rewrite rsum_map_scal. unfold Rdiv. ring. }
  change (gslope eps lam r) with ((- M / eps * S lam - (- N lam / eps) * N lam) / Rsqr (S lam)). split.
  - apply (derivable_ext (fun l => N l / S l)); [intros l; symmetry; apply gmean_eq|].
    apply (derivable_pt_lim_div N S lam _ _ DN DS). specialize (Sp lam). lra.
  - specialize (Sp lam). set (s := S lam) in *. set (nn := N lam) in *.
    assert (H1 : nn * nn <= M * s).
    { (* Cauchy-Schwarz: sum of e (c - nn/s)^2 *)
      assert (Q : 0 <= rsum (map (fun z => (c z - nn / s) * (c z - nn / s) * e lam z) (r_zeta r))).
      { apply rsum_nonneg. apply Forall_map, Forall_forall. intros z _. apply Rmult_le_pos; [|left; apply exp_pos]. pose proof (Rle_0_sqr (c z - nn / s)) as Z. exact Z. }
      rewrite (map_ext _ (fun z => c z * c z * e lam z + (-2 * (nn / s) * (c z * e lam z) + nn / s * (nn / s) * e lam z))) in Q by (intros; ring).
      rewrite rsum_map_plus, rsum_map_plus, !rsum_map_scal in Q. fold M s nn in Q.
      change (rsum (map (e lam) (r_zeta r))) with s in Q. change (rsum (map (fun a => c a * e lam a) (r_zeta r))) with nn in Q.
      apply (Rmult_le_compat_r s) in Q; [|lra]. rewrite Rmult_0_l in Q. replace ((M + (-2 * (nn / s) * nn + nn / s * (nn / s) * s)) * s) with (M * s - nn * nn) in Q by (field; lra).
      revert Q. generalize (M * s) (nn * nn). intros; lra. }
    assert (H2 : M <= C * nn).
    { unfold M, nn, N. rewrite <- rsum_map_scal. apply rsum_map_le. intros z Hz. specialize (HC z Hz). assert (0 < e lam z) by apply exp_pos.
      assert (0 <= (C - c z) * c z * e lam z) by (apply Rmult_le_pos; [apply Rmult_le_pos|]; lra).
      replace (C * (c z * e lam z)) with (c z * c z * e lam z + (C - c z) * c z * e lam z) by ring. lra. }
    assert (Sq : 0 < s * s) by (apply Rmult_lt_0_compat; exact Sp). assert (M2 : M * s <= C * nn * s) by (apply Rmult_le_compat_r; lra).
    assert (Es : 0 < eps * (s * s)) by (apply Rmult_lt_0_compat; assumption). unfold Rsqr. split.
    + apply (Rmult_le_reg_r (4 * eps * (s * s))); [lra|].
      replace (- (C * C) / (4 * eps) * (4 * eps * (s * s))) with (- (C * C) * (s * s)) by (field; lra).
      replace ((- M / eps * s - - nn / eps * nn) / (s * s) * (4 * eps * (s * s))) with (4 * (nn * nn - M * s)) by (field; lra).
      pose proof (Rle_0_sqr (C * s - 2 * nn)) as Z. unfold Rsqr in Z. clear -Z M2. lra.
    + apply (Rmult_le_reg_r (eps * (s * s))); [exact Es|]. rewrite Rmult_0_l.
      replace ((- M / eps * s - - nn / eps * nn) / (s * s) * (eps * (s * s))) with (nn * nn - M * s) by (field; lra). lra.
Qed.

Lemma gmean_lipschitz eps r C a b : 0 < eps -> r_zeta r <> [] -> (forall z, In z (r_zeta r) -> 0 <= cost (r_xi r) z <= C) -> a <= b ->
  0 <= gmean eps a r - gmean eps b r <= C * C / (4 * eps) * (b - a).
Proof.
  intros He Hne HC [L|E0]; [|subst b; replace (a - a) with 0 by ring; lra].
  destruct (MVT_cor2 (fun l => gmean eps l r) (fun l => gslope eps l r) a b L) as [c [E _]]; [intros c _; apply (gmean_deriv eps c r C He Hne HC)|].
  destruct (gmean_deriv eps c r C He Hne HC) as [_ [D1 D2]].
  replace (- (C * C) / (4 * eps)) with (- (C * C / (4 * eps))) in D1 by (field; lra). nra.
Qed.

Lemma slope_lipschitz n rows rho p eps C a b : batch_ok n rows -> 0 < eps -> (forall r z, In r rows -> In z (r_zeta r) -> 0 <= cost (r_xi r) z <= C) -> a <= b ->
  0 <= (Rpower rho p - adv_mean cost (map (gibbs P loss cost eps b) rows) rows) - (Rpower rho p - adv_mean cost (map (gibbs P loss cost eps a) rows) rows)
    <= C * C / (4 * eps) * (b - a).
Proof.
  intros Hb He HC Hab.
  assert (E : forall l, adv_mean cost (map (gibbs P loss cost eps l) rows) rows = rmean (map (gmean eps l) rows)).
  { intros l. unfold adv_mean. rewrite map2_map_l, map2_same. reflexivity. }
  rewrite !E.
  assert (Hrow : forall r, In r rows -> 0 <= gmean eps a r - gmean eps b r <= C * C / (4 * eps) * (b - a)).
  { intros r Hr. apply gmean_lipschitz; auto. exact (batch_nonempty P n rows Hb r Hr). }
  assert (Q : rmean (map (fun r => gmean eps a r - gmean eps b r) rows) = rmean (map (gmean eps a) rows) - rmean (map (gmean eps b) rows)) by apply rmean_map_minus.
  pose proof (rmean_map_le (fun _ => 0) (fun r => gmean eps a r - gmean eps b r) rows ltac:(intros; apply Hrow; assumption)) as L1.
  pose proof (rmean_map_le (fun r => gmean eps a r - gmean eps b r) (fun _ => C * C / (4 * eps) * (b - a)) rows ltac:(intros; apply Hrow; assumption)) as L2.
  rewrite rmean_map_const in L1 by apply Hb. rewrite rmean_map_const in L2 by apply Hb. lra.
Qed.

Lemma gmean_bound eps lam r C : r_zeta r <> [] -> (forall z, In z (r_zeta r) -> cost (r_xi r) z <= C) -> gmean eps lam r <= C.
Proof.
  intros Hne HC. rewrite gmean_eq. set (S := rsum (map (fun z => exp _) _)). assert (Sp : 0 < S).
  { unfold S. apply rsum_pos; [apply map_neq_nil, Hne|]. apply Forall_map, Forall_forall. intros; apply exp_pos. }
  apply (Rmult_le_reg_r S); [exact Sp|]. unfold Rdiv. rewrite Rmult_assoc, Rinv_l, Rmult_1_r by lra. unfold S. rewrite <- rsum_map_scal.
  apply rsum_map_le. intros z Hz. apply Rmult_le_compat_r; [left; apply exp_pos|apply HC, Hz].
Qed.
Lemma slope_bound n rows eps lam C : batch_ok n rows -> (forall r z, In r rows -> In z (r_zeta r) -> cost (r_xi r) z <= C) ->
  adv_mean cost (map (gibbs P loss cost eps lam) rows) rows <= C.
Proof.
  intros Hb HC. unfold adv_mean. rewrite map2_map_l, map2_same.
  pose proof (rmean_map_le (gmean eps lam) (fun _ => C) rows) as L. rewrite rmean_map_const in L by apply Hb. apply L.
  intros r Hr. apply gmean_bound; [exact (batch_nonempty P n rows Hb r Hr)|]. intros z Hz. apply HC; assumption.
Qed.
End DualSlope.
