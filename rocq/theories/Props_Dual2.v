(* C106 - C109: more about the robust objective. *)
From Coq Require Import Reals Bool String List Lra Lia Permutation Psatz.
From Verif Require Import PyBase RList XReal LogMeanExp Dual_Model Dual_Spec Dual_Proofs DualMinimax_Proofs Dual2_Proofs.
Import ListNotations.
Local Open Scope R_scope.

(* the robust objective as a function of its arguments: the value of compute_dual with the mean reduction *)
Definition is_value {P} (loss : P -> R) cost displace lp lpr n (rows : list (row P)) rho lam eps p (v : R) : Prop :=
  compute_dual P loss cost displace lp lpr (cfg "mean" rho lam eps p) n rows = Ok (Scalar (Fin v)).

Lemma value_iff {P} (loss : P -> R) cost displace lp lpr n rows rho lam eps p v :
  batch_ok n rows -> 0 < rho -> 0 < eps ->
  (is_value loss cost displace lp lpr n rows rho lam eps p v <-> v = objective P loss cost rho lam eps p rows).
Proof.
  intros Hb Hr He. unfold is_value. rewrite cd_mean by assumption. split; intros H; [inversion H; reflexivity|rewrite H; reflexivity].
Qed.

(* the largest penalised loss among the samples of each point *)
Definition worst {P} (loss : P -> R) (cost : P -> P -> R) lam (rows : list (row P)) (W : row P -> R) : Prop :=
  forall r, In r rows ->
    (forall z, In z (r_zeta r) -> loss z - lam * cost (r_xi r) z <= W r) /\
    (exists z, In z (r_zeta r) /\ loss z - lam * cost (r_xi r) z = W r).

(* ---------- C106 ---------- *)
Lemma soft_worst {P} (loss : P -> R) cost n rows eps lam W r : batch_ok n rows -> 0 < eps -> worst loss cost lam rows W -> In r rows ->
  W r - eps * ln (INR n) <= soft P loss cost eps lam r <= W r.
Proof.
  intros Hb He HW Hr. destruct (HW r Hr) as [Hle [z [Hz Ez]]].
  rewrite <- (pen_length P loss cost n rows lam r Hb Hr). unfold soft. apply softmaximum_near_max; [exact He| |].
  - unfold pen. apply in_map_iff. exists z. auto.
  - intros a Ha. unfold pen in Ha. apply in_map_iff in Ha. destruct Ha as [y [<- Hy]]. apply Hle; exact Hy.
Qed.

(* C106: the entropic objective is below the worst case over the samples by at most eps * log n *)
Theorem C106_gap : forall P (loss : P -> R) cost displace lp lpr n (rows : list (row P)) rho lam eps p W v,
  batch_ok n rows -> 0 < rho -> 0 < eps -> worst loss cost lam rows W ->
  is_value loss cost displace lp lpr n rows rho lam eps p v ->
  lam * Rpower rho p + rmean (map W rows) - eps * ln (INR n) <= v <= lam * Rpower rho p + rmean (map W rows).
Proof.
  intros P loss cost displace lp lpr n rows rho lam eps p W v Hb Hr He HW Hv. rewrite value_iff in Hv by assumption. subst v.
  assert (Hne : rows <> []) by apply Hb. unfold objective. split.
  - assert (Q : rmean (map (fun r => W r - eps * ln (INR n)) rows) <= rmean (map (soft P loss cost eps lam) rows)).
    { apply rmean_map_le. intros r Hin. apply (soft_worst loss cost n rows eps lam W r Hb He HW Hin). }
    rewrite rmean_map_minus, rmean_map_const in Q by exact Hne. lra.
  - assert (Q : rmean (map (soft P loss cost eps lam) rows) <= rmean (map W rows)).
    { apply rmean_map_le. intros r Hin. apply (soft_worst loss cost n rows eps lam W r Hb He HW Hin). }
    lra.
Qed.

(* C106 (limit): it tends to the worst case as eps vanishes *)
Theorem C106_small_eps : forall P (loss : P -> R) cost displace lp lpr n (rows : list (row P)) rho lam p W delta,
  batch_ok n rows -> 0 < rho -> worst loss cost lam rows W -> 0 < delta ->
  exists e0, 0 < e0 /\ forall eps v, 0 < eps < e0 -> is_value loss cost displace lp lpr n rows rho lam eps p v ->
    Rabs (v - (lam * Rpower rho p + rmean (map W rows))) < delta.
Proof.
  intros P loss cost displace lp lpr n rows rho lam p W delta Hb Hr HW Hd.
  assert (L : 0 <= ln (INR n)).
  { destruct Hb as [Hn _]. rewrite <- ln_1. destruct (Nat.eq_dec n 1) as [->|Hn1]; [right; reflexivity|].
    left. apply ln_increasing; [lra|]. replace 1 with (INR 1) by reflexivity. apply lt_INR. lia. }
  exists (delta / (1 + ln (INR n))). split; [apply Rdiv_lt_0_compat; lra|].
  intros eps v [He1 He2] Hv. pose proof (C106_gap P loss cost displace lp lpr n rows rho lam eps p W v Hb Hr He1 HW Hv) as G.
  assert (E : eps * (1 + ln (INR n)) < delta).
  { apply (Rmult_lt_compat_r (1 + ln (INR n))) in He2; [|lra]. replace (delta / (1 + ln (INR n)) * (1 + ln (INR n))) with delta in He2 by (field; lra). exact He2. }
  assert (0 <= eps * ln (INR n)) by nra. apply Rabs_def1; nra.
Qed.

(* C106 (large eps): it exceeds the average over the samples by at most twice the average variance over eps *)
Theorem C106_large_eps : forall P (loss : P -> R) cost displace lp lpr n (rows : list (row P)) rho lam eps p v,
  let f r z := loss z - lam * cost (r_xi r) z in
  let avg r := rmean (map (f r) (r_zeta r)) in
  batch_ok n rows -> 0 < rho -> 0 < eps ->
  (forall r z, In r rows -> In z (r_zeta r) -> 2 * (f r z - avg r) <= eps) ->
  is_value loss cost displace lp lpr n rows rho lam eps p v ->
  lam * Rpower rho p + rmean (map avg rows) <= v /\
  v <= lam * Rpower rho p + rmean (map avg rows) +
       2 * rmean (map (fun r => rmean (map (fun z => (f r z - avg r) * (f r z - avg r)) (r_zeta r))) rows) / eps.
Proof.
  intros P loss cost displace lp lpr n rows rho lam eps p v f avg Hb Hr He Hsp Hv.
  split.
  - destruct (objective_bounds P loss cost displace lp lpr n rows rho lam eps p Hb Hr He) as (v' & V & L & _).
    unfold is_value in Hv. rewrite Hv in V. inversion V; subst v'. exact L.
  - rewrite value_iff in Hv by assumption. subst v. unfold objective.
    assert (Q : rmean (map (soft P loss cost eps lam) rows) <=
                rmean (map (fun r => avg r + 2 / eps * rmean (map (fun z => (f r z - avg r) * (f r z - avg r)) (r_zeta r))) rows)).
    { apply rmean_map_le. intros r Hin.
      pose proof (softmaximum_quad eps (pen P loss cost lam r) He (pen_ne P loss cost n rows lam r Hb Hin)) as S.
      assert (A : rmean (pen P loss cost lam r) = avg r) by reflexivity. rewrite A in S. unfold pen in S at 3. rewrite map_map in S.
      unfold soft. eapply Rle_trans; [apply S|].
      - intros a Ha. unfold pen in Ha. apply in_map_iff in Ha. destruct Ha as [z [<- Hz]]. apply Hsp; assumption.
      - right. change (fun x => (loss x - lam * cost (r_xi r) x - avg r) * (loss x - lam * cost (r_xi r) x - avg r))
          with (fun z => (f r z - avg r) * (f r z - avg r)). generalize (rmean (map (fun z => (f r z - avg r) * (f r z - avg r)) (r_zeta r))).
        intros q. field. lra. }
    rewrite rmean_map_plus, rmean_map_scal in Q. unfold Rdiv in *. lra.
Qed.

(* ---------- C107 ---------- *)
(* C107: jointly convex in the loss (hence in the parameters of a convex loss) and the multiplier *)
Theorem C107_jointly_convex : forall P (l1 l2 l : P -> R) cost displace lp lpr n (rows : list (row P)) rho lam1 lam2 t eps p v1 v2 v,
  batch_ok n rows -> 0 < rho -> 0 < eps -> 0 <= t <= 1 ->
  (forall r z, In r rows -> In z (r_zeta r) -> l z <= t * l1 z + (1 - t) * l2 z) ->
  is_value l1 cost displace lp lpr n rows rho lam1 eps p v1 ->
  is_value l2 cost displace lp lpr n rows rho lam2 eps p v2 ->
  is_value l cost displace lp lpr n rows rho (t * lam1 + (1 - t) * lam2) eps p v ->
  v <= t * v1 + (1 - t) * v2.
Proof.
  intros P l1 l2 l cost displace lp lpr n rows rho lam1 lam2 t eps p v1 v2 v Hb Hr He Ht Hc H1 H2 H.
  rewrite value_iff in H1, H2, H by assumption. subst v1 v2 v. unfold objective.
  assert (Q : rmean (map (soft P l cost eps (t * lam1 + (1 - t) * lam2)) rows) <=
              rmean (map (fun r => t * soft P l1 cost eps lam1 r + (1 - t) * soft P l2 cost eps lam2 r) rows)).
  { apply rmean_map_le. intros r Hin. unfold soft.
    eapply Rle_trans; [|apply softmaximum_convex; [exact He|exact Ht|exact (pen_ne P l1 cost n rows lam1 r Hb Hin)|unfold pen; rewrite !map_length; reflexivity]].
    apply softmaximum_mono; [exact He|exact (pen_ne P l cost n rows _ r Hb Hin)|].
    unfold pen. rewrite map2_map_l, map2_map_r, map2_same. clear -Hc Hin. specialize (Hc r). revert Hc.
    induction (r_zeta r) as [|z zs IH]; intros Hc; cbn; constructor.
    - specialize (Hc z Hin (or_introl eq_refl)). lra.
    - apply IH. intros y _ Hy. apply Hc; [exact Hin|right; exact Hy]. }
  rewrite rmean_map_plus, (rmean_map_scal t), (rmean_map_scal (1 - t)) in Q. nra.
Qed.

(* C107 (stability): moving the loss by at most delta on the samples moves the objective by at most delta *)
Theorem C107_stable : forall P (l1 l2 : P -> R) cost displace lp lpr n (rows : list (row P)) rho lam eps p delta v1 v2,
  batch_ok n rows -> 0 < rho -> 0 < eps ->
  (forall r z, In r rows -> In z (r_zeta r) -> Rabs (l1 z - l2 z) <= delta) ->
  is_value l1 cost displace lp lpr n rows rho lam eps p v1 ->
  is_value l2 cost displace lp lpr n rows rho lam eps p v2 -> Rabs (v1 - v2) <= delta.
Proof.
  intros P l1 l2 cost displace lp lpr n rows rho lam eps p delta v1 v2 Hb Hr He Hd H1 H2.
  rewrite value_iff in H1, H2 by assumption. subst v1 v2.
  assert (Half : forall a b : P -> R, (forall r z, In r rows -> In z (r_zeta r) -> a z - b z <= delta) ->
                 objective P a cost rho lam eps p rows <= objective P b cost rho lam eps p rows + delta).
  { intros a b Hab. unfold objective.
    assert (Q : rmean (map (soft P a cost eps lam) rows) <= rmean (map (fun r => soft P b cost eps lam r + delta) rows)).
    { apply rmean_map_le. intros r Hin. unfold soft.
      rewrite <- (softmaximum_shift eps delta _ He (pen_ne P b cost n rows lam r Hb Hin)).
      apply softmaximum_mono; [exact He|exact (pen_ne P a cost n rows _ r Hb Hin)|]. unfold pen. rewrite map_map. clear -Hab Hin.
      specialize (Hab r). revert Hab. induction (r_zeta r) as [|z zs IH]; intros Hab; cbn; constructor.
      - specialize (Hab z Hin (or_introl eq_refl)). lra.
      - apply IH. intros y _ Hy. apply Hab; [exact Hin|right; exact Hy]. }
    rewrite rmean_map_plus, rmean_map_const in Q by apply Hb. lra. }
  pose proof (Half l1 l2) as A. pose proof (Half l2 l1) as B.
  assert (objective P l1 cost rho lam eps p rows <= objective P l2 cost rho lam eps p rows + delta).
  { apply A. intros r z Hin Hz. specialize (Hd r z Hin Hz). unfold Rabs in Hd; destruct (Rcase_abs _); lra. }
  assert (objective P l2 cost rho lam eps p rows <= objective P l1 cost rho lam eps p rows + delta).
  { apply B. intros r z Hin Hz. specialize (Hd r z Hin Hz). unfold Rabs in Hd; destruct (Rcase_abs _); lra. }
  apply Rabs_le. lra.
Qed.

(* ---------- C108 ---------- *)
(* C108 (order of the data): the order of the data points plays no role *)
Theorem C108_rows_order : forall P (loss : P -> R) cost displace lp lpr n (rows rows' : list (row P)) rho lam eps p v,
  batch_ok n rows -> 0 < rho -> 0 < eps -> Permutation rows rows' ->
  is_value loss cost displace lp lpr n rows rho lam eps p v -> is_value loss cost displace lp lpr n rows' rho lam eps p v.
Proof.
  intros P loss cost displace lp lpr n rows rows' rho lam eps p v Hb Hr He Hp Hv.
  assert (Hb' : batch_ok n rows').
  { destruct Hb as (H1 & H2 & H3). split; [exact H1|]. split.
    - intros E. subst rows'. apply Permutation_sym, Permutation_nil in Hp. contradiction.
    - rewrite Forall_forall in *. intros r Hin. apply H3. apply Permutation_in with rows'; [apply Permutation_sym; exact Hp|exact Hin]. }
  rewrite value_iff in * by assumption. rewrite Hv. unfold objective. f_equal. apply rmean_perm, Permutation_map, Hp.
Qed.

(* C108 (order of the samples): nor does the order of the samples of each point *)
Theorem C108_samples_order : forall P (loss : P -> R) cost displace lp lpr n (rows rows' : list (row P)) rho lam eps p v,
  batch_ok n rows -> 0 < rho -> 0 < eps ->
  Forall2 (fun r r' => r_xi r = r_xi r' /\ Permutation (r_zeta r) (r_zeta r')) rows rows' ->
  is_value loss cost displace lp lpr n rows rho lam eps p v -> is_value loss cost displace lp lpr n rows' rho lam eps p v.
Proof.
  intros P loss cost displace lp lpr n rows rows' rho lam eps p v Hb Hr He Hp Hv.
  assert (Hb' : batch_ok n rows').
  { destruct Hb as (H1 & H2 & H3). split; [exact H1|]. split.
    - intros E. subst rows'. inversion Hp; subst. contradiction.
    - clear -H3 Hp. induction Hp as [|r r' l l' [_ Q] _ IH]; [constructor|]. constructor; [|apply IH; exact (Forall_inv_tail H3)].
      rewrite <- (Permutation_length Q). exact (Forall_inv H3). }
  rewrite value_iff in * by assumption. rewrite Hv. unfold objective. f_equal. f_equal. clear -Hp.
  induction Hp as [|r r' l l' [Ex Q] _ IH]; [reflexivity|]. cbn [map]. f_equal; [|exact IH].
  unfold soft. apply softmaximum_perm. unfold pen. rewrite Ex. apply Permutation_map, Q.
Qed.

(* C108 (more data): over two batches the objective is the average weighted by their sizes *)
Theorem C108_two_batches : forall P (loss : P -> R) cost displace lp lpr n (r1 r2 : list (row P)) rho lam eps p v1 v2 v,
  batch_ok n r1 -> batch_ok n r2 -> 0 < rho -> 0 < eps ->
  is_value loss cost displace lp lpr n r1 rho lam eps p v1 -> is_value loss cost displace lp lpr n r2 rho lam eps p v2 ->
  is_value loss cost displace lp lpr n (r1 ++ r2) rho lam eps p v ->
  v * (INR (length r1) + INR (length r2)) = v1 * INR (length r1) + v2 * INR (length r2).
Proof.
  intros P loss cost displace lp lpr n r1 r2 rho lam eps p v1 v2 v B1 B2 Hr He H1 H2 H.
  assert (B : batch_ok n (r1 ++ r2)).
  { destruct B1 as (A1 & A2 & A3). destruct B2 as (_ & _ & C3). split; [exact A1|]. split; [destruct r1; [contradiction|discriminate]|apply Forall_app; auto]. }
  rewrite value_iff in H1, H2, H by assumption. subst. unfold objective. rewrite map_app, rmean_app by (apply map_neq_nil; (apply B1 || apply B2)).
  rewrite !map_length. pose proof (INR_length_pos r1 (proj1 (proj2 B1))). pose proof (INR_length_pos r2 (proj1 (proj2 B2))). field. lra.
Qed.

(* C108 (repeated samples): drawing every sample twice changes nothing *)
Theorem C108_samples_twice : forall P (loss : P -> R) cost displace lp lpr n (rows : list (row P)) rho lam eps p v,
  batch_ok n rows -> 0 < rho -> 0 < eps ->
  is_value loss cost displace lp lpr n rows rho lam eps p v ->
  is_value loss cost displace lp lpr (n + n) (map (fun r => {| r_mean := r_mean r; r_xi := r_xi r; r_zeta := r_zeta r ++ r_zeta r |}) rows) rho lam eps p v.
Proof.
  intros P loss cost displace lp lpr n rows rho lam eps p v Hb Hr He Hv.
  set (tw := fun r : row P => {| r_mean := r_mean r; r_xi := r_xi r; r_zeta := r_zeta r ++ r_zeta r |}).
  assert (Hb' : batch_ok (n + n) (map tw rows)).
  { destruct Hb as (H1 & H2 & H3). split; [lia|]. split; [apply map_neq_nil; exact H2|]. apply Forall_map.
    eapply Forall_impl; [|exact H3]. intros r E. cbn beta in *. cbn [tw r_zeta]. rewrite app_length. lia. }
  rewrite value_iff in * by assumption. rewrite Hv. unfold objective. f_equal. rewrite map_map. apply rmean_map_ext. intros r Hin.
  unfold soft. unfold pen at 2. cbn [tw r_xi r_zeta]. rewrite map_app. symmetry. apply softmaximum_double; [exact He|].
  exact (pen_ne P loss cost n rows lam r Hb Hin).
Qed.

(* ---------- C109 ---------- *)
(* the adversary whose weights are proportional to exp((loss - lam * cost) / eps) *)
Definition gibbs_adversary {P} (loss : P -> R) (cost : P -> P -> R) eps lam (rows : list (row P)) (A : list (list R)) : Prop :=
  Forall2 (fun q r => exists Z, 0 < Z /\ q = map (fun z => exp ((loss z - lam * cost (r_xi r) z) / eps) / Z) (r_zeta r) /\ rsum q = 1) A rows.

Lemma gibbs_is {P} (loss : P -> R) cost eps lam n rows : batch_ok n rows -> gibbs_adversary loss cost eps lam rows (map (gibbs P loss cost eps lam) rows).
Proof.
  intros Hb. pose proof (best_adversary P loss cost n eps lam rows Hb) as [_ W]. pose proof (batch_nonempty P n rows Hb) as Hne. clear Hb.
  unfold gibbs_adversary. induction rows as [|r rows IH]; cbn; constructor.
  - exists (rsum (map (fun z' => exp ((loss z' - lam * cost (r_xi r) z') / eps)) (r_zeta r))). split; [|split; [reflexivity|]].
    + apply rsum_pos; [apply map_neq_nil, Hne; left; reflexivity|]. apply Forall_forall. intros y Hy. apply in_map_iff in Hy. destruct Hy as [z [<- _]]. apply exp_pos.
    + cbn in W. inversion W as [|? ? Q _]; subst. rewrite gibbs_best. apply Q.
  - apply IH; [inversion W; assumption|]. intros x Hx. apply Hne. right; exact Hx.
Qed.
Lemma gibbs_unique {P} (loss : P -> R) cost eps lam rows A B : gibbs_adversary loss cost eps lam rows A -> gibbs_adversary loss cost eps lam rows B -> A = B.
Proof.
  unfold gibbs_adversary. revert A B. induction rows as [|r rows IH]; intros A B HA HB.
  { inversion HA; inversion HB; reflexivity. }
  inversion HA as [|q ? A' ? GA TA]; inversion HB as [|q' ? B' ? GB TB]; subst. f_equal; [|apply IH; assumption].
  destruct GA as (Z & HZ & EZ & SZ). destruct GB as (Y & HY & EY & SY).
  assert (G : forall W q, 0 < W -> q = map (fun z => exp ((loss z - lam * cost (r_xi r) z) / eps) / W) (r_zeta r) -> rsum q = 1 ->
              rsum (map (fun z => exp ((loss z - lam * cost (r_xi r) z) / eps)) (r_zeta r)) = W).
  { intros W u HW E S. rewrite E in S. rewrite (map_ext _ (fun z => / W * exp ((loss z - lam * cost (r_xi r) z) / eps))) in S by (intros; unfold Rdiv; ring).
    rewrite rsum_map_scal in S. apply (Rmult_eq_compat_l W) in S. rewrite <- Rmult_assoc, Rinv_r in S by lra. lra. }
  pose proof (G Z _ HZ EZ SZ) as GZ. pose proof (G Y _ HY EY SY) as GY. rewrite EZ, EY, <- GZ, <- GY. reflexivity.
Qed.

(* C109: the derivative of the objective in the multiplier is the budget left by the Gibbs adversary *)
Theorem C109_derivative : forall P (loss : P -> R) cost displace lp lpr n (rows : list (row P)) rho lam eps p A (f : R -> R),
  batch_ok n rows -> 0 < rho -> 0 < eps ->
  (forall l, is_value loss cost displace lp lpr n rows rho l eps p (f l)) ->
  gibbs_adversary loss cost eps lam rows A ->
  derivable_pt_lim f lam (Rpower rho p - adv_mean cost A rows).
Proof.
  intros P loss cost displace lp lpr n rows rho lam eps p A f Hb Hr He Hf HA.
  rewrite (gibbs_unique loss cost eps lam rows A _ HA (gibbs_is loss cost eps lam n rows Hb)).
  assert (E : forall l, f l = objective P loss cost rho l eps p rows).
  { intros l. apply (value_iff loss cost displace lp lpr n rows rho l eps p (f l) Hb Hr He). apply Hf. }
  pose proof (objective_deriv P loss cost n rows rho lam eps p Hb He) as D.
  intros e Hp. destruct (D e Hp) as [d Hd]. exists d. intros h H1 H2. rewrite !E. apply Hd; assumption.
Qed.

(* C109 (optimality): at an interior best multiplier the Gibbs adversary spends exactly the budget; at zero it spends at most it *)
Theorem C109_best : forall P (loss : P -> R) cost displace lp lpr n (rows : list (row P)) rho lam eps p A (f : R -> R),
  batch_ok n rows -> 0 < rho -> 0 < eps -> 0 <= lam ->
  (forall l, is_value loss cost displace lp lpr n rows rho l eps p (f l)) ->
  (forall l, 0 <= l -> f lam <= f l) ->
  gibbs_adversary loss cost eps lam rows A ->
  adv_mean cost A rows <= Rpower rho p /\ (0 < lam -> adv_mean cost A rows = Rpower rho p).
Proof.
  intros P loss cost displace lp lpr n rows rho lam eps p A f Hb Hr He Hl Hf Hm HA.
  pose proof (C109_derivative P loss cost displace lp lpr n rows rho lam eps p A f Hb Hr He Hf HA) as D.
  set (g := Rpower rho p - adv_mean cost A rows) in *.
  assert (G1 : 0 <= g).
  { apply Rnot_lt_le. intros Hn. destruct (D (- g) ltac:(lra)) as [d Hd]. pose proof (cond_pos d) as Pd.
    specialize (Hd (d / 2) ltac:(lra)). rewrite Rabs_right in Hd by lra. specialize (Hd ltac:(lra)).
    specialize (Hm (lam + d / 2) ltac:(lra)).
    assert (0 <= (f (lam + d / 2) - f lam) / (d / 2)) by (apply Rmult_le_pos; [lra|left; apply Rinv_0_lt_compat; lra]).
    apply Rabs_def2 in Hd. lra. }
  split; [unfold g in G1; lra|]. intros Hpos. assert (G2 : g <= 0); [|unfold g in *; lra].
  apply Rnot_lt_le. intros Hn. destruct (D g Hn) as [d Hd]. pose proof (cond_pos d) as Pd.
  set (h := Rmin (d / 2) (lam / 2)). assert (Hh : 0 < h /\ h <= d / 2 /\ h <= lam / 2).
  { unfold h. split; [apply Rmin_pos; lra|]. split; [apply Rmin_l|apply Rmin_r]. }
  specialize (Hd (- h) ltac:(lra)). rewrite Rabs_Ropp, Rabs_right in Hd by lra. specialize (Hd ltac:(lra)).
  specialize (Hm (lam + - h) ltac:(lra)).
  assert ((f (lam + - h) - f lam) / - h <= 0).
  { replace ((f (lam + - h) - f lam) / - h) with (- ((f (lam + - h) - f lam) * / h)) by (field; lra).
    assert (0 <= (f (lam + - h) - f lam) * / h) by (apply Rmult_le_pos; [lra|left; apply Rinv_0_lt_compat; lra]). lra. }
  apply Rabs_def2 in Hd. lra.
Qed.

(* two points with two samples each *)
Definition two_rows : list (row R) := [{| r_mean := 0; r_xi := 0; r_zeta := [1; -1] |}; {| r_mean := 2; r_xi := 2; r_zeta := [2; 5] |}].
Example C106_case : batch_ok 2 two_rows /\ worst (fun z => z * z) (fun x z => (x - z) * (x - z)) 1 two_rows (fun r => if Rltb (r_xi r) 1 then 0 else 16) /\
  (forall r z, In r two_rows -> In z (r_zeta r) -> 2 * ((z * z - 1 * ((r_xi r - z) * (r_xi r - z))) - rmean (map (fun z => z * z - 1 * ((r_xi r - z) * (r_xi r - z))) (r_zeta r))) <= 100).
Proof.
  assert (T1 : Rltb 0 1 = true) by (apply Rltb_true; lra). assert (T2 : Rltb 2 1 = false) by (apply Rltb_false; lra).
  split; [split; [lia|split; [discriminate|repeat (constructor; try reflexivity)]]|]. split.
  - intros r [<-|[<-|[]]]; cbn [r_xi r_zeta]; rewrite ?T1, ?T2; split.
    + intros z [<-|[<-|[]]]; lra.
    + exists 1. split; [left; reflexivity|lra].
    + intros z [<-|[<-|[]]]; lra.
    + exists 5. split; [right; left; reflexivity|lra].
  - intros r z [<-|[<-|[]]] [<-|[<-|[]]]; unfold rmean; cbn; lra.
Qed.
Example C107_case : batch_ok 2 two_rows /\ forall r z, In r two_rows -> In z (r_zeta r) ->
  (z - (/ 2 * 1 + (1 - / 2) * 3)) * (z - (/ 2 * 1 + (1 - / 2) * 3)) <= / 2 * ((z - 1) * (z - 1)) + (1 - / 2) * ((z - 3) * (z - 3)) /\
  Rabs ((z - 1) * (z - 1) - (z - 3) * (z - 3)) <= 12.
Proof.
  split; [split; [lia|split; [discriminate|repeat (constructor; try reflexivity)]]|]. intros r z [<-|[<-|[]]] [<-|[<-|[]]]; (split; [lra|apply Rabs_le; lra]).
Qed.
Example C108_case : batch_ok 2 two_rows /\ Permutation two_rows (rev two_rows) /\
  Forall2 (fun r r' => r_xi r = r_xi r' /\ Permutation (r_zeta r) (r_zeta r')) two_rows
    [{| r_mean := 0; r_xi := 0; r_zeta := [-1; 1] |}; {| r_mean := 2; r_xi := 2; r_zeta := [5; 2] |}].
Proof.
  split; [split; [lia|split; [discriminate|repeat (constructor; try reflexivity)]]|]. split; [apply Permutation_rev|].
  constructor; [split; [reflexivity|apply perm_swap]|]. constructor; [split; [reflexivity|apply perm_swap]|constructor].
Qed.
(* the derivative changes sign: 1 - average cost is negative at 0 and positive for a large multiplier *)
Example C109_case : batch_ok 2 two_rows /\ exists A, gibbs_adversary (fun z : R => z) (fun x z => (x - z) * (x - z)) 1 0 two_rows A /\ List.length A = 2%nat.
Proof.
  assert (B : batch_ok 2 two_rows) by (split; [lia|split; [discriminate|repeat (constructor; try reflexivity)]]).
  split; [exact B|]. exists (map (gibbs R (fun z => z) (fun x z => (x - z) * (x - z)) 1 0) two_rows). split; [exact (gibbs_is _ _ 1 0 2 two_rows B)|reflexivity].
Qed.

Print Assumptions C106_gap.
Print Assumptions C106_small_eps.
Print Assumptions C106_large_eps.
Print Assumptions C107_jointly_convex.
Print Assumptions C107_stable.
Print Assumptions C108_rows_order.
Print Assumptions C108_samples_order.
Print Assumptions C108_two_batches.
Print Assumptions C108_samples_twice.
Print Assumptions C109_derivative.
Print Assumptions C109_best.

(* ---------- concrete cases of the theorems above, one each: the rows of [two_rows], squared distance ---------- *)
Definition dsq (x z : R) : R := (x - z) * (x - z).
Definition sq (z : R) : R := z * z.
Notation val_at loss rows rho lam eps v := (is_value loss dsq no_displace (fun _ _ => 0) (fun _ _ _ => 0) 2 rows rho lam eps 2 v) (only parsing).
Lemma two_rows_ok : batch_ok 2 two_rows.
Proof. exact (proj1 C106_case). Qed.
Lemma value_exists loss rho lam eps rows : batch_ok 2 rows -> 0 < rho -> 0 < eps -> exists v, val_at loss rows rho lam eps v.
Proof. intros B Hr He. eexists. apply value_iff; try assumption. reflexivity. Qed.
(* the worst penalised losses are 0 and 16 *)
Definition worst_two (r : row R) : R := if Rltb (r_xi r) 1 then 0 else 16.
Lemma worst_two_mean : rmean (map worst_two two_rows) = 8.
Proof.
  assert (T1 : Rltb 0 1 = true) by (apply Rltb_true; lra). assert (T2 : Rltb 2 1 = false) by (apply Rltb_false; lra).
  unfold rmean, two_rows, worst_two. cbn [map r_xi]. rewrite T1, T2. simpl. lra.
Qed.
Example C106_gap_case : exists v, val_at sq two_rows 1 1 (1 / 10) v /\ 1 * Rpower 1 2 + 8 - 1 / 10 * ln (INR 2) <= v <= 1 * Rpower 1 2 + 8.
Proof.
  destruct (value_exists sq 1 1 (1 / 10) two_rows two_rows_ok) as [v V]; try lra. exists v. split; [exact V|]. rewrite <- worst_two_mean.
  refine (C106_gap _ _ _ _ _ _ _ _ _ _ _ _ _ _ two_rows_ok _ _ _ V); try lra. exact (proj1 (proj2 C106_case)).
Qed.
Example C106_small_eps_case : exists e0, 0 < e0 /\ forall eps v, 0 < eps < e0 -> val_at sq two_rows 1 1 eps v -> Rabs (v - (1 * Rpower 1 2 + 8)) < 1 / 1000.
Proof. rewrite <- worst_two_mean. apply C106_small_eps; try lra; [exact two_rows_ok|]. exact (proj1 (proj2 C106_case)). Qed.
(* penalised losses 0, 0 and 4, 16: averages 0 and 10, variances 0 and 36 *)
Example C106_large_eps_case : exists v, val_at sq two_rows 1 1 100 v /\ 1 * Rpower 1 2 + 5 <= v <= 1 * Rpower 1 2 + 5 + 2 * 18 / 100.
Proof.
  destruct (value_exists sq 1 1 100 two_rows two_rows_ok) as [v V]; try lra. exists v. split; [exact V|].
  destruct (C106_large_eps R sq dsq no_displace (fun _ _ => 0) (fun _ _ _ => 0) 2 two_rows 1 1 100 2 v two_rows_ok ltac:(lra) ltac:(lra) (proj2 (proj2 C106_case)) V) as [L U].
  unfold rmean, two_rows, sq, dsq in L, U. simpl in L, U. lra.
Qed.
Example C107_jointly_convex_case : exists v1 v2 v, val_at (fun z => (z - 1) * (z - 1)) two_rows 1 1 1 v1 /\ val_at (fun z => (z - 3) * (z - 3)) two_rows 1 5 1 v2 /\
  val_at (fun z => (z - (/ 2 * 1 + (1 - / 2) * 3)) * (z - (/ 2 * 1 + (1 - / 2) * 3))) two_rows 1 (/ 2 * 1 + (1 - / 2) * 5) 1 v /\ v <= / 2 * v1 + (1 - / 2) * v2.
Proof.
  destruct (value_exists (fun z => (z - 1) * (z - 1)) 1 1 1 two_rows two_rows_ok) as [v1 V1]; try lra.
  destruct (value_exists (fun z => (z - 3) * (z - 3)) 1 5 1 two_rows two_rows_ok) as [v2 V2]; try lra.
  destruct (value_exists (fun z => (z - (/ 2 * 1 + (1 - / 2) * 3)) * (z - (/ 2 * 1 + (1 - / 2) * 3))) 1 (/ 2 * 1 + (1 - / 2) * 5) 1 two_rows two_rows_ok) as [v V]; try lra.
  exists v1, v2, v. repeat (split; [assumption|]). refine (C107_jointly_convex _ _ _ _ _ _ _ _ _ _ _ _ _ _ _ _ _ _ _ two_rows_ok _ _ _ _ V1 V2 V); try lra.
  intros r z Hr Hz. exact (proj1 (proj2 C107_case r z Hr Hz)).
Qed.
Example C107_stable_case : exists v1 v2, val_at (fun z => (z - 1) * (z - 1)) two_rows 1 1 1 v1 /\ val_at (fun z => (z - 3) * (z - 3)) two_rows 1 1 1 v2 /\ Rabs (v1 - v2) <= 12.
Proof.
  destruct (value_exists (fun z => (z - 1) * (z - 1)) 1 1 1 two_rows two_rows_ok) as [v1 V1]; try lra.
  destruct (value_exists (fun z => (z - 3) * (z - 3)) 1 1 1 two_rows two_rows_ok) as [v2 V2]; try lra. exists v1, v2. split; [exact V1|]. split; [exact V2|].
  refine (C107_stable _ _ _ _ _ _ _ _ _ _ _ _ _ _ _ _ two_rows_ok _ _ _ V1 V2); try lra. intros r z Hr Hz. exact (proj2 (proj2 C107_case r z Hr Hz)).
Qed.
Example C108_rows_order_case : exists v, val_at sq two_rows 1 1 1 v /\ val_at sq (rev two_rows) 1 1 1 v.
Proof.
  destruct (value_exists sq 1 1 1 two_rows two_rows_ok) as [v V]; try lra. exists v. split; [exact V|]. refine (C108_rows_order _ _ _ _ _ _ _ _ _ _ _ _ _ _ two_rows_ok _ _ _ V); try lra. apply Permutation_rev.
Qed.
Example C108_samples_order_case : exists v, val_at sq two_rows 1 1 1 v /\
  val_at sq [{| r_mean := 0; r_xi := 0; r_zeta := [-1; 1] |}; {| r_mean := 2; r_xi := 2; r_zeta := [5; 2] |}] 1 1 1 v.
Proof.
  destruct (value_exists sq 1 1 1 two_rows two_rows_ok) as [v V]; try lra. exists v. split; [exact V|]. refine (C108_samples_order _ _ _ _ _ _ _ _ _ _ _ _ _ _ two_rows_ok _ _ _ V); try lra. apply C108_case.
Qed.
Example C108_two_batches_case : exists v1 v2 v, val_at sq two_rows 1 1 1 v1 /\ val_at sq [{| r_mean := 1; r_xi := 1; r_zeta := [0; 4] |}] 1 1 1 v2 /\
  val_at sq (two_rows ++ [{| r_mean := 1; r_xi := 1; r_zeta := [0; 4] |}]) 1 1 1 v /\ v * 3 = v1 * 2 + v2.
Proof.
  assert (B1 : batch_ok 2 [{| r_mean := 1; r_xi := 1; r_zeta := [0; 4] |}]) by (split; [lia|split; [discriminate|repeat (constructor; try reflexivity)]]).
  assert (B2 : batch_ok 2 (two_rows ++ [{| r_mean := 1; r_xi := 1; r_zeta := [0; 4] |}])) by (split; [lia|split; [discriminate|cbn; repeat (constructor; try reflexivity)]]).
  destruct (value_exists sq 1 1 1 two_rows two_rows_ok) as [v1 V1]; try lra. destruct (value_exists sq 1 1 1 _ B1) as [v2 V2]; try lra. destruct (value_exists sq 1 1 1 _ B2) as [v V]; try lra.
  exists v1, v2, v. repeat (split; [assumption|]). 
  assert (Q : v * (INR 2 + INR 1) = v1 * INR 2 + v2 * INR 1) by (refine (C108_two_batches _ _ _ _ _ _ _ _ _ _ _ _ _ _ _ _ two_rows_ok B1 _ _ V1 V2 V); lra). simpl in Q. lra.
Qed.
Example C108_samples_twice_case : exists v, val_at sq two_rows 1 1 1 v /\
  is_value sq dsq no_displace (fun _ _ => 0) (fun _ _ _ => 0) 4 [{| r_mean := 0; r_xi := 0; r_zeta := [1; -1; 1; -1] |}; {| r_mean := 2; r_xi := 2; r_zeta := [2; 5; 2; 5] |}] 1 1 1 2 v.
Proof.
  destruct (value_exists sq 1 1 1 two_rows two_rows_ok) as [v V]; try lra. exists v. split; [exact V|]. refine (C108_samples_twice _ _ _ _ _ _ _ _ _ _ _ _ _ two_rows_ok _ _ V); lra.
Qed.
Example C109_derivative_case : exists A f, gibbs_adversary (fun z : R => z) dsq 1 3 two_rows A /\ (forall l, val_at (fun z => z) two_rows 1 l 1 (f l)) /\
  derivable_pt_lim f 3 (Rpower 1 2 - adv_mean dsq A two_rows).
Proof.
  exists (map (gibbs R (fun z => z) dsq 1 3) two_rows), (fun l => objective R (fun z => z) dsq 1 l 1 2 two_rows).
  assert (G := gibbs_is (fun z : R => z) dsq 1 3 2 two_rows two_rows_ok).
  assert (F : forall l, val_at (fun z => z) two_rows 1 l 1 (objective R (fun z => z) dsq 1 l 1 2 two_rows)) by (intros l; apply value_iff; [exact two_rows_ok|lra|lra|reflexivity]).
  split; [exact G|]. split; [exact F|]. refine (C109_derivative _ _ _ _ _ _ _ _ _ _ _ _ _ _ two_rows_ok _ _ F G); lra.
Qed.
(* a best multiplier exists for the radius 2 (C17), and its Gibbs adversary is within the budget 4 *)
Example C109_best_case : exists lam A, 0 <= lam /\ (forall l v v', 0 <= l -> val_at sq two_rows 2 lam 1 v -> val_at sq two_rows 2 l 1 v' -> v <= v') /\
  gibbs_adversary sq dsq 1 lam two_rows A /\ adv_mean dsq A two_rows <= Rpower 2 2 /\ (0 < lam -> adv_mean dsq A two_rows = Rpower 2 2).
Proof.
  destruct (strong_duality R sq dsq no_displace (fun _ _ => 0) (fun _ _ _ => 0) 2 two_rows 2 1 2 [[1 / 2; 1 / 2]; [9 / 10; 1 / 10]]) as (lam & A0 & v & H1 & H2 & H3 & _); try lra; [exact two_rows_ok| | |].
  { split; [reflexivity|]. repeat constructor; simpl; try lra. }
  { rewrite <- (ppow_pos 2 2), ppow_2 by lra. unfold adv_mean, rmean, two_rows, dsq; simpl. lra. }
  assert (M : forall l v v', 0 <= l -> val_at sq two_rows 2 lam 1 v -> val_at sq two_rows 2 l 1 v' -> v <= v').
  { intros l u v' Hl Hu Hv'. unfold is_value in Hu. rewrite H2 in Hu. injection Hu as <-. exact (H3 l v' Hl Hv'). }
  assert (F : forall l, val_at sq two_rows 2 l 1 (objective R sq dsq 2 l 1 2 two_rows)) by (intros l; apply value_iff; [exact two_rows_ok|lra|lra|reflexivity]).
  exists lam, (map (gibbs R sq dsq 1 lam) two_rows). split; [exact H1|]. split; [exact M|]. assert (G := gibbs_is sq dsq 1 lam 2 two_rows two_rows_ok). split; [exact G|].
  refine (C109_best _ _ _ _ _ _ _ _ _ _ _ _ _ _ two_rows_ok _ _ H1 F _ G); try lra. intros l Hl. exact (M l _ _ Hl (F lam) (F l)).
Qed.
