From Coq Require Import Reals List Bool ZArith Lra Lia String Permutation.
From Verif Require Import PyBase RList XReal Costs_Model Costs_Proofs NewsV_Model NewsV_Proofs DedProg_Model Tuner_Model Tuner_Spec.
Import ListNotations.
Local Open Scope R_scope.
Local Open Scope list_scope.

(* ---------- the grid ---------- *)
Lemma count_down_in n : forall hi i, In i (count_down hi n) <-> (hi - Z.of_nat n < i <= hi)%Z.
Proof.
  induction n as [|n IH]; intros hi i; cbn [count_down In]; [split; [tauto|lia]|].
  rewrite IH. rewrite Nat2Z.inj_succ. split; [intros [->|H]; lia|intros H]. destruct (Z.eq_dec hi i); [left; auto|right; lia].
Qed.
Lemma grid_in lo hi r : In r (rho_grid lo hi) <-> exists i, (lo < i <= hi)%Z /\ r = powerRZ 10 (- i).
Proof.
  unfold rho_grid, range_down. rewrite in_map_iff. split; intros (i & A & B); exists i.
  - apply count_down_in in B. split; [|auto]. destruct (Z_le_gt_dec 0 (hi - lo)); [rewrite Z2Nat.id in B by lia; lia|].
    replace (Z.to_nat (hi - lo)) with 0%nat in B by lia. cbn in B. lia.
  - split; [auto|]. apply count_down_in. rewrite Z2Nat.id by lia. lia.
Qed.
Lemma grid_length lo hi : Z.of_nat (List.length (rho_grid lo hi)) = Z.max 0 (hi - lo).
Proof.
  unfold rho_grid, range_down. rewrite map_length. assert (E : forall n h, List.length (count_down h n) = n) by (induction n; intros; cbn; auto).
  rewrite E. lia.
Qed.
Lemma pow10_lt a b : (a < b)%Z -> powerRZ 10 a < powerRZ 10 b.
Proof.
  intros H. replace b with (a + (b - a))%Z by lia. rewrite powerRZ_add by lra.
  assert (P : 0 < powerRZ 10 a) by (apply powerRZ_lt; lra).
  assert (Q : 1 < powerRZ 10 (b - a)).
  { destruct (b - a)%Z eqn:E; try lia. cbn. apply Rlt_pow_R1; [lra|lia]. }
  nra.
Qed.
(* strictly increasing *)
Inductive incr : list R -> Prop :=
| incr_nil : incr []
| incr_cons x l : incr l -> Forall (fun y => x < y) l -> incr (x :: l).
Lemma grid_incr lo hi : incr (rho_grid lo hi).
Proof.
  unfold rho_grid, range_down. generalize (Z.to_nat (hi - lo)) as n. intros n. revert hi. induction n as [|n IH]; intros hi; cbn; constructor; [apply IH|].
  apply Forall_forall. intros y Hy. apply in_map_iff in Hy. destruct Hy as (i & <- & Hi). apply count_down_in in Hi. apply pow10_lt. lia.
Qed.
Lemma grid_pos lo hi : Forall (fun r => 0 < r) (rho_grid lo hi).
Proof. apply Forall_forall. intros r Hr. apply grid_in in Hr. destruct Hr as (i & _ & ->). apply powerRZ_lt. lra. Qed.
Lemma grid_end lo hi : ~ In (powerRZ 10 (- lo)) (rho_grid lo hi).
Proof.
  intros H. apply grid_in in H. destruct H as (i & Hi & E). assert (powerRZ 10 (- i) < powerRZ 10 (- lo)) by (apply pow10_lt; lia). lra.
Qed.

(* ---------- the gradient ---------- *)
Lemma dot_app x y : forall u v, List.length x = List.length u -> dot (x ++ y) (u ++ v) = dot x u + dot y v.
Proof.
  unfold dot. induction x as [|a x IH]; intros [|b u] v H; try discriminate; cbn; [lra|]. rewrite (IH u v); [|cbn in H; lia]. lra.
Qed.
Lemma indicator_cases theta x tau :
  (dot theta x + tau = 0 /\ indicator theta x tau = Raise AssertionError) \/
  (dot theta x + tau < 0 /\ indicator theta x tau = Ok 1) \/
  (0 < dot theta x + tau /\ indicator theta x tau = Ok 0).
Proof.
  unfold indicator. cbn zeta. destruct (Rtotal_order (dot theta x + tau) 0) as [H|[H|H]].
  - right; left. split; [exact H|]. rewrite (proj2 (Reqb_false _ _)) by lra. cbn. rewrite (proj2 (Rltb_true _ _)) by lra. reflexivity.
  - left. split; [exact H|]. rewrite (proj2 (Reqb_true _ _)) by lra. reflexivity.
  - right; right. split; [exact H|]. rewrite (proj2 (Reqb_false _ _)) by lra. cbn. rewrite (proj2 (Rltb_false _ _)) by lra. reflexivity.
Qed.

Lemma dot_opp_l x y : dot (map Ropp x) y = - dot x y.
Proof.
  replace (map Ropp x) with (vscal (-1) x) by (unfold vscal; apply map_ext; intros; ring). rewrite dot_vscal_l. ring.
Qed.
Lemma h_dot x eta c v w : List.length v = List.length x ->
  dot (map Ropp (vadd (x ++ [- eta]) (vscal c (x ++ [1])))) (v ++ [w]) = - (dot x v - eta * w + c * (dot x v + w)).
Proof.
  intros H. rewrite dot_opp_l. rewrite dot_vadd_l; [|rewrite vscal_length, !app_length; reflexivity|rewrite vscal_length, !app_length; cbn; lia].
  rewrite dot_vscal_l, !dot_app by auto. unfold dot at 2 4. cbn. ring.
Qed.
(* a function that is linear near 0 *)
Lemma locally_linear (f : R -> R) l d : 0 < d -> (forall t, Rabs t < d -> f t = f 0 + t * l) -> derivable_pt_lim f 0 l.
Proof.
  intros Hd H e He. exists (mkposreal d Hd). cbn. intros h Hh Hhd. rewrite Rplus_0_l, (H h Hhd).
  replace ((f 0 + h * l - f 0) / h - l) with 0 by (field; exact Hh). rewrite Rabs_R0. exact He.
Qed.
Lemma mean_risk_along eta alpha theta tau x v w t : List.length theta = List.length x -> List.length v = List.length theta ->
  mean_risk eta alpha (vadd theta (vscal t v)) (tau + t * w) x
  = - (dot theta x + t * dot v x) + eta * (tau + t * w + / alpha * Rmax (- ((dot theta x + tau) + t * (dot v x + w))) 0).
Proof.
  intros H1 H2. unfold mean_risk. rewrite dot_vadd_l; [|rewrite vscal_length; congruence|rewrite vscal_length; congruence]. rewrite dot_vscal_l.
  replace (- (dot theta x + t * dot v x) - (tau + t * w)) with (- ((dot theta x + tau) + t * (dot v x + w))) by ring. reflexivity.
Qed.
Lemma sign_kept s a t : s <> 0 -> Rabs t < Rabs s / (Rabs a + 1) -> (0 < s -> 0 < s + t * a) /\ (s < 0 -> s + t * a < 0).
Proof.
  intros Hs Ht. assert (Ha : 0 <= Rabs a) by apply Rabs_pos.
  assert (X : Rabs (t * a) < Rabs s).
  { rewrite Rabs_mult. assert (Rabs t * (Rabs a + 1) < Rabs s).
    { apply (Rmult_lt_compat_r (Rabs a + 1)) in Ht; [|lra]. replace (Rabs s / (Rabs a + 1) * (Rabs a + 1)) with (Rabs s) in Ht by (field; lra). exact Ht. }
    pose proof (Rabs_pos t). nra. }
  split; intros P; [rewrite (Rabs_right s) in X by lra|rewrite (Rabs_left s) in X by lra]; apply Rabs_def2 in X; lra.
Qed.
Lemma h_is_gradient eta alpha theta tau x g : List.length theta = List.length x ->
  compute_h eta alpha tau theta x = Ok g -> is_gradient (fun th ta => mean_risk eta alpha th ta x) theta tau g.
Proof.
  intros HL H. unfold compute_h in H.
  assert (D : exists i, g = map Ropp (vadd (x ++ [- eta]) (vscal (eta / alpha * i) (x ++ [1]))) /\
              ((dot theta x + tau < 0 /\ i = 1) \/ (0 < dot theta x + tau /\ i = 0))).
  { destruct (indicator_cases theta x tau) as [[A B]|[[A B]|[A B]]]; rewrite B in H; cbn in H; try discriminate; injection H as <-; eexists; (split; [reflexivity|]); auto. }
  clear H. destruct D as (i & -> & D). split.
  { rewrite map_length, vadd_length; rewrite ?vscal_length, !app_length; cbn; lia. }
  intros v w Hv. rewrite h_dot by congruence.
  assert (Hs : dot theta x + tau <> 0) by (destruct D as [[A _]|[A _]]; lra).
  set (s := dot theta x + tau) in *. set (a := dot v x + w).
  assert (Hd : 0 < Rabs s / (Rabs a + 1)).
  { apply Rmult_lt_0_compat; [apply Rabs_pos_lt; exact Hs|]. apply Rinv_0_lt_compat. pose proof (Rabs_pos a). lra. }
  apply (locally_linear _ _ _ Hd). intros t Ht. destruct (sign_kept s a t Hs Ht) as [P N].
  pose proof (mean_risk_along eta alpha theta tau x v w t HL Hv) as E1. pose proof (mean_risk_along eta alpha theta tau x v w 0 HL Hv) as E0.
  rewrite E1, E0. fold s a. clear E1 E0. rewrite (dot_comm x v).
  destruct D as [[A ->]|[A ->]].
  - specialize (N A). rewrite !Rmax_left by lra. unfold a, Rdiv. ring.
  - specialize (P A). rewrite !Rmax_right by lra. unfold a. ring.
Qed.
(* at the kink there is no gradient, unless there is no risk term *)
Lemma no_gradient eta alpha theta tau x g : List.length theta = List.length x -> eta <> 0 -> alpha <> 0 -> dot theta x + tau = 0 ->
  ~ is_gradient (fun th ta => mean_risk eta alpha th ta x) theta tau g.
Proof.
  intros HL He Ha Hk [_ G]. specialize (G (repeat 0 (List.length theta)) 1 ltac:(apply repeat_length)).
  set (l := dot g (repeat 0 (List.length theta) ++ [1])) in *. clearbody l.
  assert (Z : dot (repeat 0 (List.length theta)) x = 0).
  { clear. unfold dot. revert x. induction (List.length theta) as [|n IH]; intros [|a x]; cbn; auto. rewrite IH. ring. }
  set (c := eta / alpha). assert (Hc : c <> 0) by (unfold c, Rdiv; apply Rmult_integral_contrapositive_currified; [exact He|apply Rinv_neq_0_compat; exact Ha]).
  assert (F : forall t, mean_risk eta alpha (vadd theta (vscal t (repeat 0 (List.length theta)))) (tau + t * 1) x
                        = mean_risk eta alpha (vadd theta (vscal 0 (repeat 0 (List.length theta)))) (tau + 0 * 1) x + eta * t + c * Rmax (- t) 0).
  { intros t. rewrite !mean_risk_along by (rewrite ?repeat_length; auto). rewrite Z, Hk. replace (- (0 + t * (0 + 1))) with (- t) by ring.
    replace (- (0 + 0 * (0 + 1))) with 0 by ring. rewrite (Rmax_right 0 0) by lra. unfold c, Rdiv. ring. }
  destruct (G (Rabs c / 2) ltac:(assert (0 < Rabs c) by (apply Rabs_pos_lt; exact Hc); lra)) as [[d Hd] X]. cbn in X.
  pose proof (X (d / 2) ltac:(lra) ltac:(rewrite Rabs_right; lra)) as X1.
  pose proof (X (- (d / 2)) ltac:(lra) ltac:(rewrite Rabs_left; lra)) as X2.
  rewrite !Rplus_0_l in X1, X2. rewrite (F (d / 2)) in X1. rewrite (F (- (d / 2))) in X2.
  rewrite Rmax_right in X1 by lra. rewrite Rmax_left in X2 by lra.
  match type of X1 with Rabs (?e - l) < _ => replace e with eta in X1 by (field; lra) end.
  match type of X2 with Rabs (?e - l) < _ => replace e with (eta - c) in X2 by (field; lra) end.
  assert (T : Rabs c <= Rabs (eta - l) + Rabs (eta - c - l)).
  { replace c with ((eta - l) + - (eta - c - l)) at 1 by ring. eapply Rle_trans; [apply Rabs_triang|]. rewrite (Rabs_Ropp (eta - c - l)). lra. }
  lra.
Qed.
Lemma h_fails_iff eta alpha theta tau x : (exists e, compute_h eta alpha tau theta x = Raise e) <-> dot theta x + tau = 0.
Proof.
  unfold compute_h. destruct (indicator_cases theta x tau) as [[A B]|[[A B]|[A B]]]; rewrite B; cbn; split; intros H; try lra; eauto; destruct H; discriminate.
Qed.

(* ---------- the conjugate, one dimension ---------- *)
Lemma phi1_conjugate hs z : hs <> [] ->
  let A := 1 / 2 * INR (List.length hs) * rsum (map (fun h => h * h) hs) in
  match phi_star_1 hs z with
  | Fin v => is_max (fun _ => True) (fun a => a * z - 1 / 2 * A * (a * a)) v
  | PInf => unbounded (fun _ => True) (fun a => a * z - 1 / 2 * A * (a * a))
  | _ => False
  end.
Proof.
  intros Hn A. unfold phi_star_1. fold A. cbn zeta. assert (HA : 0 <= A).
  { unfold A. apply Rmult_le_pos; [apply Rmult_le_pos; [lra|apply pos_INR]|]. apply rsum_map_nonneg. intros; nra. }
  clearbody A. destruct (Reqb A 0) eqn:E; cbn.
  - apply Reqb_true in E. rewrite E. destruct (Reqb z 0) eqn:Ez; cbn.
    + apply Reqb_true in Ez. subst z. split; [exists 0; split; [exact I|ring]|]. intros a _. lra.
    + apply Reqb_false in Ez. intros M. exists ((M + 1) / z). split; [exact I|].
      replace ((M + 1) / z * z - 1 / 2 * 0 * ((M + 1) / z * ((M + 1) / z))) with (M + 1) by (field; exact Ez). lra.
  - apply Reqb_false in E. split.
    + exists (z / A). split; [exact I|]. field. exact E.
    + intros a _. assert (Q : 0 <= A * ((a - z / A) * (a - z / A))) by (apply Rmult_le_pos; [exact HA|apply Rle_0_sqr]).
      replace (z / A * z - 1 / 2 * (z / A) * A * (z / A)) with (z * z / (2 * A)) by (field; exact E).
      replace (A * ((a - z / A) * (a - z / A))) with (A * (a * a) - 2 * a * z + z * z / A) in Q by (field; exact E).
      replace (z * z / (2 * A)) with (/ 2 * (z * z / A)) by (field; exact E). set (q := z * z / A) in *. clearbody q. nra.
Qed.
Lemma phi1_sum hs a : hs <> [] ->
  INR (List.length hs) * INR (List.length hs) * blanchet_phi_1 hs a = 1 / 2 * (1 / 2 * INR (List.length hs) * rsum (map (fun h => h * h) hs)) * (a * a).
Proof.
  intros Hn. unfold blanchet_phi_1, rmean. rewrite map_length.
  replace (map (fun h => h * a * (h * a)) hs) with (map (fun h => (a * a) * (h * h)) hs) by (apply map_ext; intros; ring).
  rewrite rsum_map_scal. field. apply Rgt_not_eq, INR_length_pos, Hn.
Qed.
(* what the code computes is the conjugate divided by the square of the number of samples *)
Lemma phi1_scale hs z v : hs <> [] -> phi_star_1 hs z = Fin v ->
  is_max (fun _ => True) (fun a => a * z - blanchet_phi_1 hs a) (INR (List.length hs) * INR (List.length hs) * v).
Proof.
  intros Hn E. pose proof (phi1_conjugate hs z Hn) as C. cbn zeta in C. rewrite E in C. pose proof (INR_length_pos hs Hn) as HN.
  set (n := INR (List.length hs)) in *. set (A := 1 / 2 * n * rsum (map (fun h => h * h) hs)) in *.
  assert (S : forall a, a * z - blanchet_phi_1 hs a = n * n * (a / (n * n) * z - 1 / 2 * A * (a / (n * n) * (a / (n * n))))).
  { intros a. pose proof (phi1_sum hs a Hn) as P. fold n in P. fold A in P.
    apply (Rmult_eq_reg_l (n * n)); [|nra]. rewrite Rmult_minus_distr_l, P. field. lra. }
  destruct C as [(a0 & _ & E0) M]. split.
  - exists (n * n * a0). split; [exact I|]. rewrite S. replace (n * n * a0 / (n * n)) with a0 by (field; lra). rewrite E0. reflexivity.
  - intros a _. rewrite S. apply Rmult_le_compat_l; [nra|]. apply M. exact I.
Qed.
Lemma phi1_inf hs z : hs <> [] -> (phi_star_1 hs z = PInf <-> unbounded (fun _ => True) (fun a => a * z - blanchet_phi_1 hs a)).
Proof.
  intros Hn. pose proof (phi1_conjugate hs z Hn) as C. cbn zeta in C. pose proof (INR_length_pos hs Hn) as HN. split.
  - intros E. rewrite E in C. intros M. destruct (C (M / (INR (List.length hs) * INR (List.length hs)))) as (a & _ & Ha).
    set (n := INR (List.length hs)) in *. exists (n * n * a). split; [exact I|].
    pose proof (phi1_sum hs (n * n * a) Hn) as P. fold n in P. set (A := 1 / 2 * n * rsum (map (fun h => h * h) hs)) in *.
    assert (Q : blanchet_phi_1 hs (n * n * a) = n * n * (1 / 2 * A * (a * a))).
    { apply (Rmult_eq_reg_l (n * n)); [|nra]. rewrite P. ring. }
    rewrite Q. apply (Rmult_lt_compat_l (n * n)) in Ha; [|nra]. replace (n * n * (M / (n * n))) with M in Ha by (field; lra). lra.
  - intros U. destruct (phi_star_1 hs z) as [v| | |] eqn:E; try contradiction; [|reflexivity].
    destruct (phi1_scale hs z v Hn E) as [_ M]. destruct (U (INR (List.length hs) * INR (List.length hs) * v)) as (a & _ & Ha). specialize (M a I). cbn in *. lra.
Qed.
