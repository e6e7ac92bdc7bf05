(* Lemmas for the existence of a best portfolio: the closed simplex is the image of a cube, thresholds can be cut, the mean-risk loss is
   Lipschitz, and raising one raw weight moves the portfolio towards that asset. *)
From Coq Require Import Reals List Bool String Lra Lia Psatz.
From Verif Require Import PyBase RList XReal LogMeanExp Loss_Model Loss_Spec Loss_Proofs Costs_Proofs Dual_Model Dual_Spec Dual_Proofs Attain Best_Proofs.
Import ListNotations.
Local Open Scope R_scope.
Local Notation length := List.length.

(* a long-only fully invested portfolio, zero weights allowed *)
Definition invested (d : nat) (w : vec) : Prop := length w = d /\ Forall (fun a => 0 <= a) w /\ rsum w = 1.

(* ---------- the simplex as the image of a cube ---------- *)
Fixpoint stick (m : R) (ts : vec) : vec :=
  match ts with [] => [m] | t :: ts => m * t :: stick (m * (1 - t)) ts end.
Definition unit_cut (t : R) : R := Rmax 0 (Rmin 1 t).
Lemma unit_cut_in t : 0 <= unit_cut t <= 1.
Proof. unfold unit_cut, Rmax, Rmin. destruct (Rle_dec 1 t), (Rle_dec 0 _); lra. Qed.
Lemma unit_cut_id t : 0 <= t <= 1 -> unit_cut t = t.
Proof. intros H. unfold unit_cut, Rmax, Rmin. destruct (Rle_dec 1 t), (Rle_dec 0 _); lra. Qed.
Lemma unit_cut_lip s t : Rabs (unit_cut s - unit_cut t) <= Rabs (s - t).
Proof. unfold unit_cut, Rmax, Rmin, Rabs. repeat destruct (Rle_dec _ _); repeat destruct (Rcase_abs _); lra. Qed.
Lemma unit_cuts_lip : forall u v : vec, dist1 (map unit_cut u) (map unit_cut v) <= dist1 u v.
Proof.
  induction u as [|a u IH]; intros [|b v]; cbn [map]; try (unfold dist1; cbn; lra). rewrite !dist1_cons. pose proof (unit_cut_lip a b). specialize (IH v). unfold vec in *. lra.
Qed.
Lemma unit_cuts_in (u : vec) : Forall (fun t => 0 <= t <= 1) (map unit_cut u).
Proof. apply Forall_map, Forall_forall. intros t _. apply unit_cut_in. Qed.
Lemma unit_cuts_id (u : vec) : Forall (fun t => 0 <= t <= 1) u -> map unit_cut u = u.
Proof. intros F. rewrite <- (map_id u) at 2. apply map_ext_in. intros t Ht. apply unit_cut_id. rewrite Forall_forall in F. auto. Qed.

Lemma stick_spec : forall ts m, 0 <= m -> Forall (fun t => 0 <= t <= 1) ts ->
  length (stick m ts) = S (length ts) /\ Forall (fun a => 0 <= a) (stick m ts) /\ rsum (stick m ts) = m.
Proof.
  induction ts as [|t ts IH]; intros m Hm F; cbn [stick]; [split; [reflexivity|split; [constructor; [exact Hm|constructor]|cbn; ring]]|].
  pose proof (Forall_inv F) as Ht. cbv beta in Ht. destruct (IH (m * (1 - t)) ltac:(nra) (Forall_inv_tail F)) as (L & P & S).
  split; [cbn [length]; f_equal; exact L|]. split; [constructor; [nra|exact P]|]. change (m * t + rsum (stick (m * (1 - t)) ts) = m). rewrite S. ring.
Qed.
Lemma stick_onto : forall (w : vec) m k, length w = S k -> Forall (fun a => 0 <= a) w -> rsum w = m ->
  exists ts, length ts = k /\ Forall (fun t => 0 <= t <= 1) ts /\ stick m ts = w.
Proof.
  induction w as [|a w IH]; intros m k L P S; [discriminate|]. destruct w as [|b w].
  - injection L as <-. exists []. split; [reflexivity|]. split; [constructor|]. cbn [stick]. rewrite <- S. cbn. f_equal. ring.
  - destruct k as [|k]; [discriminate|]. injection L as L. pose proof (Forall_inv P) as Ha. cbv beta in Ha. pose proof (Forall_inv_tail P) as Pw. clear P.
    change (a + rsum (b :: w) = m) in S. assert (Hr : 0 <= rsum (b :: w)) by (apply rsum_nonneg; exact Pw). set (rest := rsum (b :: w)) in *.
    destruct (IH rest k) as (ts & Lt & Ft & Et); [cbn; f_equal; exact L|exact Pw|reflexivity|].
    destruct (Req_dec m 0) as [Z|N].
    + exists (0 :: ts). split; [cbn; f_equal; exact Lt|]. split; [constructor; [lra|exact Ft]|]. cbn [stick]. replace (m * 0) with a by lra. replace (m * (1 - 0)) with rest by lra. rewrite Et. reflexivity.
    + exists (a / m :: ts). split; [cbn; f_equal; exact Lt|]. split.
      * constructor; [|exact Ft]. split; [apply Rmult_le_pos; [exact Ha|left; apply Rinv_0_lt_compat; lra]|]. apply (Rmult_le_reg_r m); [lra|]. replace (a / m * m) with a by (field; exact N). lra.
      * cbn [stick]. replace (m * (a / m)) with a by (field; exact N). replace (m * (1 - a / m)) with rest by (replace (m * (1 - a / m)) with (m - a) by (field; exact N); lra). rewrite Et. reflexivity.
Qed.
Lemma prod_lip a b x y : 0 <= a <= 1 -> 0 <= y <= 1 -> Rabs (a * x - b * y) <= Rabs (a - b) + Rabs (x - y).
Proof.
  intros Ha Hy. replace (a * x - b * y) with (a * (x - y) + y * (a - b)) by ring. eapply Rle_trans; [apply Rabs_triang|]. rewrite !Rabs_mult, (Rabs_pos_eq a), (Rabs_pos_eq y) by lra.
  pose proof (Rabs_pos (x - y)). pose proof (Rabs_pos (a - b)). nra.
Qed.
Lemma stick_lip : forall ts ts' m m', length ts = length ts' -> 0 <= m <= 1 -> 0 <= m' <= 1 -> Forall (fun t => 0 <= t <= 1) ts -> Forall (fun t => 0 <= t <= 1) ts' ->
  dist1 (stick m ts) (stick m' ts') <= INR (S (length ts)) * (Rabs (m - m') + dist1 ts ts').
Proof.
  induction ts as [|t ts IH]; intros [|t' ts'] m m' L Hm Hm' F F'; try discriminate.
  - cbn [stick length]. unfold dist1. cbn. lra.
  - cbn [stick]. rewrite !dist1_cons. injection L as L. pose proof (Forall_inv F) as Ht. pose proof (Forall_inv F') as Ht'. cbv beta in Ht, Ht'.
    pose proof (IH ts' (m * (1 - t)) (m' * (1 - t')) L ltac:(nra) ltac:(nra) (Forall_inv_tail F) (Forall_inv_tail F')) as Q.
    pose proof (prod_lip m m' t t' Hm Ht') as P1. pose proof (prod_lip m m' (1 - t) (1 - t') Hm ltac:(lra)) as P2.
    replace (1 - t - (1 - t')) with (- (t - t')) in P2 by ring. rewrite Rabs_Ropp in P2.
    cbn [length]. rewrite (S_INR (S (length ts))). pose proof (pos_INR (S (length ts))) as N. set (c := INR (S (length ts))) in *.
    pose proof (dist1_nonneg ts ts'). pose proof (Rabs_pos (m - m')). pose proof (Rabs_pos (t - t')).
    assert (c * (Rabs (m * (1 - t) - m' * (1 - t')) + dist1 ts ts') <= c * (Rabs (m - m') + Rabs (t - t') + dist1 ts ts')) by (apply Rmult_le_compat_l; lra). lra.
Qed.

(* ---------- the loss ---------- *)
Lemma invested_box d w : invested d w -> box 1 d w.
Proof.
  intros (L & P & S). split; [exact L|]. clear L. assert (H : forall c, rsum w <= c -> Forall (fun a => Rabs a <= c) w).
  { clear S. induction w as [|a w IH]; intros c H; constructor; pose proof (Forall_inv P) as Ha; pose proof (Forall_inv_tail P) as Pw; cbv beta in Ha;
      change (a + rsum w <= c) in H; pose proof (rsum_nonneg w Pw).
    - rewrite Rabs_pos_eq; lra.
    - apply IH; [exact Pw|lra]. }
  apply H. rewrite S. lra.
Qed.
Lemma invested_dot d w x : invested d w -> Rabs (dot w x) <= abs_sum x.
Proof. intros H. pose proof (dot_box 1 d w x ltac:(lra) (invested_box d w H)). lra. Qed.
Lemma risk_cut eta alpha w tau x M : 0 <= eta -> 0 < alpha <= 1 -> Rabs (dot w x) <= M -> risk_loss eta alpha w (cut M tau) x <= risk_loss eta alpha w tau x.
Proof.
  intros He Ha HM. unfold risk_loss. apply Rplus_le_compat_l, Rmult_le_compat_l; [exact He|]. set (s := - dot w x). assert (B : - M <= s <= M) by (unfold s; revert HM; unfold Rabs; destruct (Rcase_abs _); lra).
  assert (I : 1 <= / alpha) by (rewrite <- Rinv_1; apply Rinv_le_contravar; lra). unfold Rdiv.
  unfold cut, Rmax, Rmin. repeat destruct (Rle_dec _ _); try nra.
Qed.
Lemma risk_lip eta alpha w w' tau tau' x : 0 <= eta -> 0 < alpha ->
  Rabs (risk_loss eta alpha w tau x - risk_loss eta alpha w' tau' x) <= (1 + eta / alpha) * Rabs (dot w x - dot w' x) + (eta + eta / alpha) * Rabs (tau - tau').
Proof.
  intros He Ha. unfold risk_loss. set (r := dot w x). set (r' := dot w' x).
  assert (M : Rabs (Rmax (- r - tau) 0 - Rmax (- r' - tau') 0) <= Rabs (r - r') + Rabs (tau - tau')).
  { unfold Rmax, Rabs. repeat destruct (Rle_dec _ _); repeat destruct (Rcase_abs _); lra. }
  replace (- r + eta * (tau + Rmax (- r - tau) 0 / alpha) - (- r' + eta * (tau' + Rmax (- r' - tau') 0 / alpha)))
    with (- (r - r') + (eta * (tau - tau') + eta / alpha * (Rmax (- r - tau) 0 - Rmax (- r' - tau') 0))) by (field; lra).
  assert (Q : 0 <= eta / alpha) by (apply Rmult_le_pos; [exact He|left; apply Rinv_0_lt_compat; exact Ha]).
  eapply Rle_trans; [apply Rabs_triang|]. rewrite Rabs_Ropp. eapply Rle_trans; [apply Rplus_le_compat_l, Rabs_triang|]. rewrite !Rabs_mult, (Rabs_pos_eq eta), (Rabs_pos_eq (eta / alpha)) by assumption.
  apply (Rmult_le_compat_l (eta / alpha)) in M; [|exact Q]. lra.
Qed.
Lemma risk_low eta alpha w tau x M : 0 <= eta -> 0 < alpha -> Rabs (dot w x) <= M -> - M <= tau -> - M - eta * M <= risk_loss eta alpha w tau x.
Proof.
  intros He Ha HM Ht. unfold risk_loss. assert (dot w x <= M) by (pose proof (Rle_abs (dot w x)); lra).
  assert (0 <= Rmax (- dot w x - tau) 0 / alpha) by (apply Rmult_le_pos; [apply Rmax_r|left; apply Rinv_0_lt_compat; exact Ha]). nra.
Qed.
Lemma risk_better eta alpha w w' tau x : 0 <= eta -> 0 < alpha -> dot w x < dot w' x -> risk_loss eta alpha w' tau x < risk_loss eta alpha w tau x.
Proof.
  intros He Ha H. unfold risk_loss. assert (Rmax (- dot w' x - tau) 0 <= Rmax (- dot w x - tau) 0) by (apply Rle_max_compat_r; lra).
  assert (Rmax (- dot w' x - tau) 0 / alpha <= Rmax (- dot w x - tau) 0 / alpha) by (apply Rmult_le_compat_r; [left; apply Rinv_0_lt_compat; exact Ha|assumption]). nra.
Qed.

(* ---------- a best portfolio exists ---------- *)
Section Exists.
Variable cost : vec -> vec -> R.
Variables (k n : nat) (rows : list (row vec)) (rho eps p eta alpha : R).
Hypothesis Hb : batch_ok n rows.
Hypothesis He : 0 < eps.
Hypothesis Heta : 0 <= eta.
Hypothesis Ha : 0 < alpha <= 1.
Hypothesis Hw : forall r z, In r rows -> In z (r_zeta r) -> length z = S k.
Definition port (lam : R) (w : vec) (tau : R) : R := objective vec (risk_loss eta alpha w tau) cost rho lam eps p rows.

Lemma port_lip : exists L, 0 <= L /\ forall s t w w' tau tau', length w = length w' ->
  Rabs (port s w tau - port t w' tau') <= L * (Rabs (s - t) + Rabs (tau - tau') + dist1 w w').
Proof.
  destruct (finite_samples vec rows (fun r z C => Rabs (cost (r_xi r) z) <= C)) as (C & HC & QC).
  { intros; lra. }
  { intros r z _ _. exists (Rabs (cost (r_xi r) z)). split; [apply Rabs_pos|lra]. }
  destruct (finite_samples vec rows (fun r z X => abs_sum z <= X)) as (X & HX & QX).
  { intros; lra. }
  { intros r z _ _. exists (abs_sum z). split; [apply abs_sum_nonneg|lra]. }
  set (rp := Rpower rho p). assert (Hrp : 0 < rp) by apply exp_pos. set (q := eta / alpha).
  assert (Q : 0 <= q) by (apply Rmult_le_pos; [exact Heta|left; apply Rinv_0_lt_compat; lra]).
  set (L := (1 + q) * X + (eta + q) + C + rp). assert (Q1 : 0 <= (1 + q) * X) by (apply Rmult_le_pos; lra). assert (HL : 0 <= L) by (unfold L; lra).
  exists L. split; [exact HL|].
  assert (Half : forall s t w w' tau tau', length w = length w' -> port s w tau <= port t w' tau' + L * (Rabs (s - t) + Rabs (tau - tau') + dist1 w w')).
  { intros s t w w' tau tau' Lw. unfold port.
    eapply Rle_trans; [apply (objective_half vec cost n rows rho eps p _ (risk_loss eta alpha w' tau') s t ((1 + q) * X * dist1 w w' + (eta + q) * Rabs (tau - tau') + C * Rabs (s - t)) Hb He)|].
    - intros r z Hr Hz. pose proof (risk_lip eta alpha w w' tau tau' z Heta ltac:(lra)) as R1. fold q in R1.
      pose proof (dot_lip w w' z Lw) as R2. pose proof (QX r z Hr Hz) as R3. pose proof (QC r z Hr Hz) as R4. pose proof (dist1_nonneg w w') as D.
      assert ((t - s) * cost (r_xi r) z <= C * Rabs (s - t)).
      { eapply Rle_trans; [apply Rle_abs|]. rewrite Rabs_mult, (Rabs_minus_sym t s), Rmult_comm. apply Rmult_le_compat_r; [apply Rabs_pos|exact R4]. }
      assert (abs_sum z * dist1 w w' <= X * dist1 w w') by (apply Rmult_le_compat_r; assumption).
      assert ((1 + q) * Rabs (dot w z - dot w' z) <= (1 + q) * (X * dist1 w w')) by (apply Rmult_le_compat_l; lra).
      pose proof (Rle_abs (risk_loss eta alpha w tau z - risk_loss eta alpha w' tau' z)). lra.
    - fold rp. pose proof (Rle_abs (s - t)). pose proof (dist1_nonneg w w'). pose proof (Rabs_pos (s - t)). pose proof (Rabs_pos (tau - tau')).
      assert ((s - t) * rp <= Rabs (s - t) * rp) by (apply Rmult_le_compat_r; lra). unfold L. set (y := (1 + q) * X) in *.
      assert (0 <= y * Rabs (s - t) /\ 0 <= y * Rabs (tau - tau') /\ 0 <= (eta + q) * Rabs (s - t) /\ 0 <= (eta + q) * dist1 w w' /\ 0 <= (C + rp) * Rabs (tau - tau') /\ 0 <= (C + rp) * dist1 w w')
        by (repeat split; apply Rmult_le_pos; lra). lra. }
  intros s t w w' tau tau' Lw. pose proof (Half s t w w' tau tau' Lw) as H1. pose proof (Half t s w' w tau' tau (eq_sym Lw)) as H2.
  assert (D : dist1 w' w = dist1 w w').
  { clear. revert w'. induction w as [|a u IH]; intros [|b v]; try reflexivity. rewrite !dist1_cons, IH, Rabs_minus_sym. reflexivity. }
  rewrite D, (Rabs_minus_sym t s), (Rabs_minus_sym tau' tau) in H2. apply Rabs_le. lra.
Qed.

Lemma port_bound : exists M, 0 <= M /\ forall r z w, In r rows -> In z (r_zeta r) -> invested (S k) w -> Rabs (dot w z) <= M.
Proof.
  destruct (finite_samples vec rows (fun r z X => abs_sum z <= X)) as (X & HX & QX).
  { intros; lra. }
  { intros r z _ _. exists (abs_sum z). split; [apply abs_sum_nonneg|lra]. }
  exists X. split; [exact HX|]. intros r z w Hr Hz W. eapply Rle_trans; [apply (invested_dot (S k) w z W)|]. apply (QX r z Hr Hz).
Qed.
Lemma port_cut M lam w tau : (forall r z, In r rows -> In z (r_zeta r) -> Rabs (dot w z) <= M) -> port lam w (cut M tau) <= port lam w tau.
Proof.
  intros HM. unfold port. pose proof (objective_half vec cost n rows rho eps p (risk_loss eta alpha w (cut M tau)) (risk_loss eta alpha w tau) lam lam 0 Hb He) as Q.
  assert (Z : (lam - lam) * Rpower rho p = 0) by ring. rewrite Z in Q. rewrite !Rplus_0_r in Q. apply Q. intros r z Hr Hz.
  pose proof (risk_cut eta alpha w tau z M Heta Ha (HM r z Hr Hz)). lra.
Qed.

Lemma cube_port (v : vec) : length v = k -> invested (S k) (stick 1 (map unit_cut v)).
Proof. intros L. destruct (stick_spec (map unit_cut v) 1 ltac:(lra) (unit_cuts_in v)) as (A & B & C). split; [rewrite A, map_length; f_equal; exact L|]. split; assumption. Qed.
Lemma cube_lip v v' : length v = k -> length v' = k -> dist1 (stick 1 (map unit_cut v)) (stick 1 (map unit_cut v')) <= INR (S k) * dist1 v v'.
Proof.
  intros Lv Lv'. eapply Rle_trans; [apply stick_lip; [rewrite !map_length; unfold vec in *; congruence|lra|lra|apply unit_cuts_in|apply unit_cuts_in]|].
  replace (1 - 1) with 0 by ring. rewrite Rabs_R0, Rplus_0_l, map_length. unfold vec in *. rewrite Lv. apply Rmult_le_compat_l; [apply pos_INR|]. apply unit_cuts_lip.
Qed.

Lemma port_fixed lam : exists w tau, invested (S k) w /\ forall w' tau', invested (S k) w' -> port lam w tau <= port lam w' tau'.
Proof.
  destruct port_lip as (L & HL & QL). destruct port_bound as (M & HM & QM).
  set (G := fun v : vec => port lam (stick 1 (map unit_cut (tl v))) (cut M (hd 0 v))). set (c := INR (S k)). assert (Hc : 1 <= c) by (unfold c; rewrite S_INR; pose proof (pos_INR k); lra).
  destruct (box_min (S k) (Rmax M 1) (L * c) G) as (u & [Lu _] & Q).
  - pose proof (Rmax_r M 1). lra.
  - nra.
  - intros u v [Lu _] [Lv _]. destruct u as [|s u]; [discriminate|]. destruct v as [|t v]; [discriminate|]. injection Lu as Lu. injection Lv as Lv.
    unfold G. cbn [hd tl]. rewrite dist1_cons. eapply Rle_trans; [apply QL; rewrite (proj1 (cube_port u Lu)), (proj1 (cube_port v Lv)); reflexivity|].
    replace (lam - lam) with 0 by ring. rewrite Rabs_R0, Rplus_0_l, Rmult_assoc. apply Rmult_le_compat_l; [exact HL|].
    pose proof (cut_lip M s t HM). pose proof (cube_lip u v Lu Lv) as D. fold c in D. pose proof (Rabs_pos (s - t)). nra.
  - destruct u as [|s u]; [discriminate|]. injection Lu as Lu. exists (stick 1 (map unit_cut u)), (cut M s). split; [apply cube_port; exact Lu|].
    intros w' tau' W. destruct W as (Lw & Pw & Sw). assert (W : invested (S k) w') by (repeat split; assumption).
    destruct (stick_onto w' 1 k Lw Pw Sw) as (ts & Lt & Ft & Et).
    eapply Rle_trans; [|apply (port_cut M lam w' tau'); intros r z Hr Hz; apply (QM r z w' Hr Hz W)].
    specialize (Q (cut M tau' :: ts)). unfold G in Q. cbn [hd tl] in Q. rewrite (unit_cuts_id ts Ft), Et in Q.
    rewrite (cut_id M (cut M tau')) in Q by (pose proof (cut_in M tau' HM) as I; revert I; unfold Rabs; destruct (Rcase_abs _); lra). apply Q.
    split; [cbn; f_equal; exact Lt|]. constructor; [eapply Rle_trans; [apply cut_in; exact HM|apply Rmax_l]|].
    eapply Forall_impl; [|exact Ft]. intros t Ht. cbv beta in Ht |- *. rewrite Rabs_pos_eq by lra. eapply Rle_trans; [|apply Rmax_r]. lra.
Qed.

Lemma port_joint A : adversary n A rows -> adv_mean cost A rows < Rpower rho p ->
  exists lam w tau, 0 <= lam /\ invested (S k) w /\ forall lam' w' tau', 0 <= lam' -> invested (S k) w' -> port lam w tau <= port lam' w' tau'.
Proof.
  intros HA Gap. destruct port_lip as (L & HL & QL). destruct port_bound as (M & HM & QM). set (gap := Rpower rho p - adv_mean cost A rows).
  set (G := fun v : vec => port (Rabs (hd 0 v)) (stick 1 (map unit_cut (tl (tl v)))) (cut M (hd 0 (tl v)))). set (c := INR (S k)). assert (Hc : 1 <= c) by (unfold c; rewrite S_INR; pose proof (pos_INR k); lra).
  set (low := - M - eta * M - eps * adv_entropy A). set (z0 := repeat 0 (S (S k)) : vec). set (K := (G z0 - low) / gap). set (B := Rmax (Rmax M 1) K).
  assert (Hg : 0 < gap) by (unfold gap; lra).
  assert (Low : forall lam w tau, invested (S k) w -> - M <= tau -> low + lam * gap <= port lam w tau).
  { intros lam w tau W T. pose proof (objective_lower vec cost n rows rho lam eps p (risk_loss eta alpha w tau) A (- M - eta * M) Hb He HA) as Q. unfold low, gap, port. apply Q.
    intros r z Hr Hz. apply risk_low; [exact Heta|lra|apply (QM r z w Hr Hz W)|exact T]. }
  assert (B0 : Rmax M 1 <= B) by apply Rmax_l. assert (B1 : 1 <= B) by (pose proof (Rmax_r M 1); lra). assert (BM : M <= B) by (pose proof (Rmax_l M 1); lra).
  destruct (box_min (S (S k)) B (L * c) G) as (u & [Lu _] & Q).
  - lra.
  - nra.
  - intros u v [Lu _] [Lv _]. destruct u as [|a [|s u]]; try discriminate. destruct v as [|b [|t v]]; try discriminate. injection Lu as Lu. injection Lv as Lv.
    unfold G. cbn [hd tl]. rewrite !dist1_cons. eapply Rle_trans; [apply QL; rewrite (proj1 (cube_port u Lu)), (proj1 (cube_port v Lv)); reflexivity|].
    rewrite Rmult_assoc. apply Rmult_le_compat_l; [exact HL|]. pose proof (Rabs_triang_inv2 a b).
    pose proof (cut_lip M s t HM). pose proof (cube_lip u v Lu Lv) as D. fold c in D. pose proof (Rabs_pos (s - t)). pose proof (Rabs_pos (a - b)). nra.
  - destruct u as [|a [|s u]]; try discriminate. injection Lu as Lu. exists (Rabs a), (stick 1 (map unit_cut u)), (cut M s). split; [apply Rabs_pos|]. split; [apply cube_port; exact Lu|].
    intros lam' w' tau' Hl W. pose proof W as (Lw & Pw & Sw). destruct (stick_onto w' 1 k Lw Pw Sw) as (ts & Lt & Ft & Et).
    eapply Rle_trans; [|apply (port_cut M lam' w' tau'); intros r z Hr Hz; apply (QM r z w' Hr Hz W)].
    assert (CI : - M <= cut M tau' <= M) by (pose proof (cut_in M tau' HM) as I; revert I; unfold Rabs; destruct (Rcase_abs _); lra).
    change (G (a :: s :: u) <= port lam' w' (cut M tau')).
    assert (Zin : box B (S (S k)) z0) by (unfold z0; apply box_repeat; lra).
    destruct (Rle_or_lt lam' B) as [I|I].
    + specialize (Q (lam' :: cut M tau' :: ts)). unfold G in Q at 2. cbn [hd tl] in Q. rewrite (unit_cuts_id ts Ft), Et, (Rabs_pos_eq lam' Hl), (cut_id M (cut M tau') CI) in Q. apply Q.
      split; [cbn; do 2 f_equal; exact Lt|]. constructor; [rewrite Rabs_pos_eq; assumption|]. constructor; [eapply Rle_trans; [apply cut_in; exact HM|exact BM]|].
      eapply Forall_impl; [|exact Ft]. intros t Ht. cbv beta in Ht |- *. rewrite Rabs_pos_eq by lra. lra.
    + eapply Rle_trans; [apply (Q z0 Zin)|]. eapply Rle_trans; [|apply (Low lam' w' (cut M tau') W); lra].
      assert (K < lam') by (eapply Rle_lt_trans; [apply Rmax_r|exact I]). unfold K in H. apply (Rmult_lt_compat_r gap) in H; [|exact Hg].
      replace ((G z0 - low) / gap * gap) with (G z0 - low) in H by (field; lra). lra.
Qed.
End Exists.

(* ---------- raising one raw weight ---------- *)
Fixpoint bump (i : nat) (t : R) (v : vec) : vec :=
  match v, i with [], _ => [] | a :: v, O => a + t :: v | a :: v, S i => a :: bump i t v end.
Lemma bump_length : forall v i t, length (bump i t v) = length v.
Proof. induction v as [|a v IH]; intros [|i] t; cbn; congruence. Qed.
Lemma bump_sum : forall v i t, (i < length v)%nat -> rsum (map exp (bump i t v)) = rsum (map exp v) + exp (nth i v 0) * (exp t - 1).
Proof.
  induction v as [|a v IH]; intros i t L; [cbn in L; lia|]. destruct i as [|i]; cbn [bump map nth].
  - change (exp (a + t) + rsum (map exp v) = exp a + rsum (map exp v) + exp a * (exp t - 1)). rewrite exp_plus. ring.
  - change (exp a + rsum (map exp (bump i t v)) = exp a + rsum (map exp v) + exp (nth i v 0) * (exp t - 1)). rewrite IH by (cbn in L; lia). ring.
Qed.
Lemma bump_dot : forall v x i t, length v = length x -> (i < length v)%nat -> dot (map exp (bump i t v)) x = dot (map exp v) x + exp (nth i v 0) * (exp t - 1) * nth i x 0.
Proof.
  induction v as [|a v IH]; intros [|b x] i t E L; try discriminate; [cbn in L; lia|]. injection E as E. destruct i as [|i]; cbn [bump map nth].
  - change (exp (a + t) * b + dot (map exp v) x = exp a * b + dot (map exp v) x + exp a * (exp t - 1) * b). rewrite exp_plus. ring.
  - change (exp a * b + dot (map exp (bump i t v)) x = exp a * b + dot (map exp v) x + exp (nth i v 0) * (exp t - 1) * nth i x 0). rewrite IH by (try exact E; cbn in L; lia). ring.
Qed.
Lemma softmax_dot v x : dot (softmax v) x = dot (map exp v) x / rsum (map exp v).
Proof.
  unfold softmax. set (S := rsum (map exp v)). replace (map (fun a => exp a / S) v) with (vscal (/ S) (map exp v)).
  - rewrite dot_vscal_l. unfold Rdiv. ring.
  - unfold vscal. rewrite map_map. apply map_ext. intros a. unfold Rdiv. ring.
Qed.
Lemma sum_exp_pos v : v <> [] -> 0 < rsum (map exp v).
Proof.
  destruct v as [|a v]; [congruence|]. intros _. change (0 < exp a + rsum (map exp v)). pose proof (exp_pos a).
  assert (0 <= rsum (map exp v)) by (apply rsum_map_nonneg; intros; left; apply exp_pos). lra.
Qed.
(* one asset does at least as well as every other, and better than some *)
Definition leads (i : nat) (x : vec) : Prop := (i < length x)%nat /\ Forall (fun a => a <= nth i x 0) x /\ Exists (fun a => a < nth i x 0) x.
Lemma exp_dot_le c : forall v x, length v = length x -> Forall (fun a => a <= c) x -> dot (map exp v) x <= c * rsum (map exp v).
Proof.
  induction v as [|a v IH]; intros [|b x] L F; try discriminate; [cbn; lra|]. injection L as L. pose proof (Forall_inv F) as H. cbv beta in H.
  change (exp a * b + dot (map exp v) x <= c * (exp a + rsum (map exp v))). pose proof (IH x L (Forall_inv_tail F)). pose proof (exp_pos a). unfold vec in *. nra.
Qed.
Lemma exp_dot_lt c : forall v x, length v = length x -> Forall (fun a => a <= c) x -> Exists (fun a => a < c) x -> dot (map exp v) x < c * rsum (map exp v).
Proof.
  induction v as [|a v IH]; intros [|b x] L F E; try discriminate; [inversion E|]. injection L as L. pose proof (Forall_inv F) as H. cbv beta in H. pose proof (exp_pos a).
  change (exp a * b + dot (map exp v) x < c * (exp a + rsum (map exp v))). pose proof (exp_dot_le c v x L (Forall_inv_tail F)) as Q. inversion E; subst.
  - unfold vec in *. nra.
  - pose proof (IH x L (Forall_inv_tail F) ltac:(assumption)). unfold vec in *. nra.
Qed.
Lemma bump_better i t raw x : length raw = length x -> leads i x -> 0 < t -> dot (softmax raw) x < dot (softmax (bump i t raw)) x.
Proof.
  intros L (I & F & E) T. rewrite !softmax_dot. rewrite bump_dot, bump_sum by (unfold vec in *; congruence || lia).
  assert (S0 : 0 < rsum (map exp raw)) by (apply sum_exp_pos; destruct raw; [unfold vec in *; cbn in L; lia|discriminate]).
  pose proof (exp_dot_lt (nth i x 0) raw x L F E) as Q. set (S := rsum (map exp raw)) in *. set (D := dot (map exp raw) x) in *. set (c := nth i x 0) in *.
  assert (H : 0 < exp (nth i raw 0) * (exp t - 1)) by (apply Rmult_lt_0_compat; [apply exp_pos|]; pose proof (exp_ineq1 t ltac:(lra)); lra).
  set (h := exp (nth i raw 0) * (exp t - 1)) in *. apply (Rmult_lt_reg_r (S * (S + h))); [nra|]. replace (D / S * (S * (S + h))) with (D * (S + h)) by (field; lra).
  replace ((D + h * c) / (S + h) * (S * (S + h))) with ((D + h * c) * S) by (field; lra). nra.
Qed.
Lemma softmax_below i raw x : length raw = length x -> leads i x -> dot (softmax raw) x < nth i x 0.
Proof.
  intros L (I & F & E). rewrite softmax_dot. assert (S0 : 0 < rsum (map exp raw)) by (apply sum_exp_pos; destruct raw; [unfold vec in *; cbn in L; lia|discriminate]).
  apply (Rmult_lt_reg_r (rsum (map exp raw))); [exact S0|]. unfold Rdiv. rewrite Rmult_assoc, Rinv_l, Rmult_1_r by lra. apply exp_dot_lt; assumption.
Qed.

(* ---------- positive portfolios are dense ---------- *)
Definition mixed (t : R) (w : vec) : vec := map (fun a => (1 - t) * a + t / INR (length w)) w.
Lemma mixed_positive d t w : invested d w -> 0 < t <= 1 -> length (mixed t w) = d /\ long_only (mixed t w).
Proof.
  intros (L & P & S) T. unfold mixed. split; [rewrite map_length; exact L|].
  assert (N : 0 < INR (length w)) by (apply lt_0_INR; destruct w; [cbn in S; lra|cbn; lia]). split.
  - apply Forall_map. eapply Forall_impl; [|exact P]. intros a Ha. cbv beta in Ha |- *. assert (0 < t / INR (length w)) by (apply Rdiv_lt_0_compat; lra). nra.
  - rewrite (rsum_map_plus (fun a => (1 - t) * a) (fun _ => t / INR (length w))), rsum_map_scal, map_id, S.
    assert (C : forall (l : vec) c, rsum (map (fun _ => c) l) = INR (length l) * c).
    { clear. induction l as [|b l IH]; intros c; [cbn; ring|]. change (c + rsum (map (fun _ => c) l) = INR (Datatypes.S (length l)) * c). rewrite IH, S_INR. ring. }
    rewrite C. field. lra.
Qed.
Lemma mixed_close d t w : invested d w -> 0 < t <= 1 -> dist1 (mixed t w) w <= 2 * t.
Proof.
  intros (L & P & S) T. unfold mixed. assert (N : 0 < INR (length w)) by (apply lt_0_INR; destruct w; [cbn in S; lra|cbn; lia]). set (c := INR (length w)) in *.
  assert (Q : forall l : vec, Forall (fun a => 0 <= a) l -> dist1 (map (fun a => (1 - t) * a + t / c) l) l <= t * (rsum l + INR (length l) / c)).
  { clear -T N. induction l as [|a l IH]; intros F; [unfold dist1; cbn; lra|]. cbn [map length]. rewrite dist1_cons, S_INR. pose proof (Forall_inv F) as Ha. cbv beta in Ha.
    specialize (IH (Forall_inv_tail F)). change (rsum (a :: l)) with (a + rsum l). assert (0 < t / c) by (apply Rdiv_lt_0_compat; lra).
    assert (Rabs ((1 - t) * a + t / c - a) <= t * a + t / c) by (apply Rabs_le; nra). replace (t * (a + rsum l + (INR (length l) + 1) / c)) with (t * a + t / c + t * (rsum l + INR (length l) / c)) by (field; lra). unfold vec in *. lra. }
  specialize (Q w P). rewrite S in Q. replace (INR (length w) / c) with 1 in Q by (unfold c; field; unfold c in N; lra). lra.
Qed.
Lemma softmax_invested raw : raw <> [] -> invested (length raw) (softmax raw).
Proof. intros N. destruct (softmax_long_only raw N) as [P S]. split; [apply softmax_length|]. split; [|exact S]. eapply Forall_impl; [|exact P]. intros a Ha. cbv beta in Ha |- *. lra. Qed.
