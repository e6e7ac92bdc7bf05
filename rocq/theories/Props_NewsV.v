(* Dedicated newsvendor solver: the theorems of the properties. *)
From Coq Require Import Reals List Lra Lia Permutation.
From Verif Require Import PyBase RList XReal NewsV_Model NewsV_Spec NewsV_Proofs.
Import ListNotations.
Local Open Scope R_scope.

(* ---------- C47 ---------- *)
(* When the test T < 0 sends the solver to the sample-average programme, its answer minimises the worst case. *)
Theorem C47_saa_answer_optimal saa k u rho s T : 0 <= k -> 0 < u -> 0 <= rho -> s <> [] -> Forall (fun x => 0 <= x) s ->
  minimises (empirical k u s) saa -> nv_exit_of k u rho s = Ok (ExitSAA T) ->
  nv_solver saa k u rho s = Ok (saa, 0) /\ robustly_optimal k u rho s saa.
Proof. exact (saa_exit_optimal saa k u rho s T). Qed.
Print Assumptions C47_saa_answer_optimal.

(* For all data: exactly when the two answers the solver can give are optimal. *)
Theorem C47_zero_optimal_iff saa k u rho s : 0 <= k -> 0 < u -> 0 <= rho -> s <> [] -> Forall (fun x => 0 <= x) s ->
  minimises (empirical k u s) saa -> (robustly_optimal k u rho s 0 <-> 0 <= empirical k u s saa + u * rho).
Proof. exact (zero_iff saa k u rho s). Qed.
Print Assumptions C47_zero_optimal_iff.

Theorem C47_saa_optimal_iff saa k u rho s : 0 < k -> 0 < u -> 0 <= rho -> s <> [] -> Forall (fun x => 0 <= x) s ->
  minimises (empirical k u s) saa -> 0 < saa -> (robustly_optimal k u rho s saa <-> empirical k u s saa + u * rho <= 0).
Proof. exact (saa_iff saa k u rho s). Qed.
Print Assumptions C47_saa_optimal_iff.

(* For all data of mean at most rho the solver gives the sample-average answer, which is not optimal; ordering nothing is. *)
Theorem C47_large_radius_answer_not_optimal saa k u rho s : 0 < k -> 0 < u -> 0 <= rho -> s <> [] -> Forall (fun x => 0 <= x) s ->
  minimises (empirical k u s) saa -> 0 < saa -> rmean s <= rho ->
  nv_solver saa k u rho s = Ok (saa, 0) /\ ~ robustly_optimal k u rho s saa /\ robustly_optimal k u rho s 0.
Proof. exact (large_rho_answer saa k u rho s). Qed.
Print Assumptions C47_large_radius_answer_not_optimal.

Lemma sorted_fixed z : asc z -> nsort z = z.
Proof.
  induction 1 as [|x z A IH F]; simpl; [reflexivity|]. rewrite IH. destruct z as [|y z]; simpl; [reflexivity|].
  inversion F; subst. destruct (Rle_dec x y); [reflexivity|lra].
Qed.

Lemma asc_1_10_10 : asc [1; 10; 10].
Proof. repeat (constructor; try (repeat (apply Forall_cons; [lra|]); apply Forall_nil)). Qed.

Lemma Rmin_1_10 : Rmin 1 10 = 1. Proof. apply Rmin_left; lra. Qed.

Lemma data_minimiser : minimises (empirical 5 7 [1; 10; 10]) 1.
Proof.
  destruct (demand_minimises 5 7 [1; 10; 10] ltac:(lra) ltac:(congruence) ltac:(repeat (apply Forall_cons; [lra|]); apply Forall_nil))
    as (a & I & M). split; [lra|]. intros t Ht. apply Rle_trans with (empirical 5 7 [1; 10; 10] a); [|apply M; exact Ht].
  assert (E1 : empirical 5 7 [1; 10; 10] 1 = -2).
  { unfold empirical, rmean, nv_cost. simpl. rewrite Rmin_1_10, (Rmin_left 1 1) by lra. field. }
  rewrite E1. simpl in I.
  destruct I as [<-|[<-|[<-|[<-|[]]]]]; unfold empirical, rmean, nv_cost; simpl.
  - rewrite !Rmin_left by lra. lra.
  - rewrite Rmin_1_10, (Rmin_left 1 1) by lra. lra.
  - rewrite (Rmin_right 10 1), (Rmin_left 10 10) by lra. lra.
  - rewrite (Rmin_right 10 1), (Rmin_left 10 10) by lra. lra.
Qed.

Lemma data_exit rho : 0 <= rho < / 3 -> nv_solver 1 5 7 rho [1; 10; 10] = Ok (0, 0).
Proof.
  intros Hr. unfold nv_solver. destruct (nv_exits 5 7 rho [1; 10; 10] ltac:(lra)) as [[_ H]|(i & Hi & [H1 H2] & Hz & E)].
  - exfalso. specialize (H 0%nat ltac:(simpl; lia)). rewrite (sorted_fixed _ asc_1_10_10) in H. unfold nv_a in H. simpl in H. lra.
  - rewrite (sorted_fixed _ asc_1_10_10) in *. unfold nv_a in *. cbv zeta in E. simpl in Hi. destruct i as [|[|i]]; [| |lia]; simpl in H1, H2; [|exfalso; lra].
    cbn [nth] in E. assert (T : Rleb 0 (nv_T [1; 10; 10] 5 7 rho 10) = true).
    { apply Rleb_true. unfold nv_T, rmean. simpl. rewrite (Rmin_left (1 / 10) 1), (Rmin_right (10 / 10) 1) by lra. lra. }
    rewrite T in E. rewrite E. reflexivity.
Qed.

(* Already for rho = 0, where the robust problem is the sample-average one, the solver answers 0 on demands 1, 10, 10. *)
Theorem C47_solver_optimal_refuted : exists saa k u s c, 0 < k < u /\ Forall (fun x => 0 < x) s /\ minimises (empirical k u s) saa /\
  nv_solver saa k u 0 s = Ok (c, 0) /\ ~ robustly_optimal k u 0 s c /\ ~ minimises (empirical k u s) c.
Proof.
  exists 1, 5, 7, [1; 10; 10], 0. split; [lra|]. split; [repeat (apply Forall_cons; [lra|]); apply Forall_nil|].
  split; [exact data_minimiser|]. split; [apply data_exit; lra|].
  assert (E1 : empirical 5 7 [1; 10; 10] 1 = -2).
  { unfold empirical, rmean, nv_cost. simpl. rewrite Rmin_1_10, (Rmin_left 1 1) by lra. field. }
  assert (E0 : empirical 5 7 [1; 10; 10] 0 = 0) by (apply empirical_zero; repeat (apply Forall_cons; [lra|]); apply Forall_nil).
  split.
  - intros O. apply (zero_iff 1 5 7 0 [1; 10; 10]) in O; try lra; [congruence| |exact data_minimiser].
    repeat (apply Forall_cons; [lra|]); apply Forall_nil.
  - intros [_ M]. specialize (M 1 ltac:(lra)). lra.
Qed.
Print Assumptions C47_solver_optimal_refuted.

Theorem C47_solver_optimal_positive_radius_refuted : exists saa k u rho s c, 0 < k < u /\ 0 < rho /\ Forall (fun x => 0 < x) s /\
  minimises (empirical k u s) saa /\ nv_solver saa k u rho s = Ok (c, 0) /\ ~ robustly_optimal k u rho s c.
Proof.
  exists 1, 5, 7, (/ 6), [1; 10; 10], 0. split; [lra|]. split; [lra|]. split; [repeat (apply Forall_cons; [lra|]); apply Forall_nil|].
  split; [exact data_minimiser|]. split; [apply data_exit; lra|].
  assert (E1 : empirical 5 7 [1; 10; 10] 1 = -2).
  { unfold empirical, rmean, nv_cost. simpl. rewrite Rmin_1_10, (Rmin_left 1 1) by lra. field. }
  intros O. apply (zero_iff 1 5 7 (/ 6) [1; 10; 10]) in O; try lra; [congruence| |exact data_minimiser].
  repeat (apply Forall_cons; [lra|]); apply Forall_nil.
Qed.
Print Assumptions C47_solver_optimal_positive_radius_refuted.

(* demands 2 and 2, radius 0, k = 1, u = 2: T < 0, the answer 2 is optimal *)
Lemma two_exit : nv_exit_of 1 2 0 [2; 2] = Ok (ExitSAA (nv_T [2; 2] 1 2 0 2)).
Proof.
  assert (A : asc [2; 2]) by (repeat (constructor; try (repeat (apply Forall_cons; [lra|]); apply Forall_nil))).
  destruct (nv_exits 1 2 0 [2; 2] ltac:(lra)) as [[_ H]|(i & Hi & _ & _ & E)].
  - exfalso. specialize (H 0%nat ltac:(simpl; lia)). rewrite (sorted_fixed _ A) in H. unfold nv_a in H. simpl in H. lra.
  - rewrite (sorted_fixed _ A) in E. cbv zeta in E. simpl in Hi. destruct i as [|i]; [|lia]. cbn [nth] in E.
    assert (T : Rleb 0 (nv_T [2; 2] 1 2 0 2) = false).
    { apply Rleb_false. unfold nv_T, rmean. simpl. rewrite (Rmin_right (2 / 2) 1) by lra. lra. }
    rewrite T in E. exact E.
Qed.
Lemma two_min : minimises (empirical 1 2 [2; 2]) 2.
Proof.
  split; [lra|]. intros t Ht. unfold empirical, rmean, nv_cost. simpl. rewrite (Rmin_left 2 2) by lra.
  unfold Rmin. destruct (Rle_dec t 2); lra.
Qed.
Example C47_saa_answer_optimal_ex : nv_solver 2 1 2 0 [2; 2] = Ok (2, 0) /\ robustly_optimal 1 2 0 [2; 2] 2.
Proof.
  apply (C47_saa_answer_optimal 2 1 2 0 [2; 2] (nv_T [2; 2] 1 2 0 2)); try lra; [congruence| |exact two_min|exact two_exit].
  repeat (apply Forall_cons; [lra|]); apply Forall_nil.
Qed.
Example C47_zero_optimal_iff_ex : robustly_optimal 1 2 1 [2; 2] 0.
Proof.
  apply (C47_zero_optimal_iff 2 1 2 1 [2; 2]); try lra; [congruence| |exact two_min|].
  - repeat (apply Forall_cons; [lra|]); apply Forall_nil.
  - unfold empirical, rmean, nv_cost. simpl. rewrite (Rmin_left 2 2) by lra. lra.
Qed.
Example C47_saa_optimal_iff_ex : robustly_optimal 1 2 (/ 2) [2; 2] 2.
Proof.
  apply (C47_saa_optimal_iff 2 1 2 (/ 2) [2; 2]); try lra; [congruence| |exact two_min|].
  - repeat (apply Forall_cons; [lra|]); apply Forall_nil.
  - unfold empirical, rmean, nv_cost. simpl. rewrite (Rmin_left 2 2) by lra. lra.
Qed.
Example C47_large_radius_ex : nv_solver 2 1 2 3 [2; 2] = Ok (2, 0) /\ ~ robustly_optimal 1 2 3 [2; 2] 2 /\ robustly_optimal 1 2 3 [2; 2] 0.
Proof.
  apply C47_large_radius_answer_not_optimal; try lra; [congruence| |exact two_min|].
  - repeat (apply Forall_cons; [lra|]); apply Forall_nil.
  - unfold rmean. simpl. lra.
Qed.

(* ---------- C48 ---------- *)
(* the search never raises: the answer is that of the sample-average programme or 0 *)
Theorem C48_search_total saa k u rho s : 0 <= rho -> exists c, nv_solver saa k u rho s = Ok (c, 0) /\ (c = saa \/ c = 0).
Proof. exact (solver_total saa k u rho s). Qed.
Print Assumptions C48_search_total.

(* and the index found is critical: moving the i cheapest demands to 0 is affordable, moving also demand i+1 is not; the demand
   used as a denominator is positive; otherwise every such pair is affordable *)
Theorem C48_critical_index k u rho s : 0 <= rho ->
  (nv_exit_of k u rho s = Ok ExitNoLower /\
     forall i, (S i < length s)%nat -> nth (S i) (nsort s) 0 + rsum (firstn i (nsort s)) <= INR (length s) * rho) \/
  (exists i, (S i < length s)%nat /\
     rsum (firstn i (nsort s)) <= INR (length s) * rho < rsum (firstn i (nsort s)) + nth (S i) (nsort s) 0 /\
     0 < nth (S i) (nsort s) 0 /\
     let T := nv_T (nsort s) k u rho (nth (S i) (nsort s) 0) in
     nv_exit_of k u rho s = Ok (if Rleb 0 T then ExitZero T else ExitSAA T)).
Proof. exact (nv_exits k u rho s). Qed.
Print Assumptions C48_critical_index.

(* the sort used by the search *)
Theorem C48_sorted s : Permutation (nsort s) s /\ forall i j, (i <= j)%nat -> (j < length s)%nat -> nth i (nsort s) 0 <= nth j (nsort s) 0.
Proof.
  split; [apply nsort_perm|]. intros i j H1 H2. apply asc_nth; [apply nsort_asc|exact H1|].
  rewrite (Permutation_length (nsort_perm s)). exact H2.
Qed.
Print Assumptions C48_sorted.

Example C48_ex : exists c, nv_solver 2 1 2 3 [2; 2] = Ok (c, 0) /\ (c = 2 \/ c = 0).
Proof. apply C48_search_total. lra. Qed.
Example C48_critical_ex : nv_exit_of 1 2 0 [2; 2] <> Ok ExitNoLower.
Proof. rewrite two_exit. discriminate. Qed.

(* ---------- C49 ---------- *)
Theorem C49_programme_value k u z theta : 0 <= u -> z <> [] -> 0 <= theta ->
  (forall beta, saa2_feasible z beta theta -> empirical k u z theta <= saa2_objective k u beta theta) /\
  (exists beta, saa2_feasible z beta theta /\ saa2_objective k u beta theta = empirical k u z theta).
Proof.
  intros Hu Hz H0. split.
  - intros beta F. apply (saa2_above k u z beta theta Hu Hz F).
  - exists (map (Rmin theta) z). exact (saa2_attained k u z theta Hz H0).
Qed.
Print Assumptions C49_programme_value.

Theorem C49_programme_solutions k u z theta : 0 <= u -> z <> [] -> (saa2_optimal k u z theta <-> minimises (empirical k u z) theta).
Proof. exact (saa2_iff k u z theta). Qed.
Print Assumptions C49_programme_solutions.

Theorem C49_some_demand_optimal k u z : 0 <= k -> z <> [] -> Forall (fun x => 0 <= x) z ->
  exists a, (a = 0 \/ In a z) /\ minimises (empirical k u z) a.
Proof.
  intros Hk Hz Hp. destruct (demand_minimises k u z Hk Hz Hp) as (a & [I|I] & M); exists a; split; auto.
Qed.
Print Assumptions C49_some_demand_optimal.

Example C49_ex : saa2_optimal 1 2 [2; 2] 2.
Proof. apply C49_programme_solutions; [lra|congruence|exact two_min]. Qed.
Example C49_demand_ex : exists a, (a = 0 \/ In a [1; 10; 10]) /\ minimises (empirical 5 7 [1; 10; 10]) a.
Proof. apply C49_some_demand_optimal; [lra|congruence|]. repeat (apply Forall_cons; [lra|]); apply Forall_nil. Qed.

(* ---------- C74 ---------- *)
Theorem C74_programmes_agree k u z theta : 0 <= u -> k <= u -> z <> [] -> Forall (fun x => 0 <= x) z -> 0 <= theta ->
  (saa1_optimal k u z theta <-> saa2_optimal k u z theta).
Proof. exact (saa_agree k u z theta). Qed.
Print Assumptions C74_programmes_agree.

(* with a purchase price above the selling price the first programme is unbounded while the second has a solution *)
Theorem C74_unbounded_when_k_above_u k u z : 0 <= u -> u < k -> z <> [] -> Forall (fun x => 0 <= x) z ->
  (forall B, exists s theta, saa1_feasible k u z s theta /\ saa1_objective s < B) /\ (exists theta, saa2_optimal k u z theta).
Proof.
  intros Hu Hk Hz Hp. split; [apply saa1_unbounded; auto|].
  destruct (demand_minimises k u z ltac:(lra) Hz Hp) as (a & _ & M). exists a. apply saa2_iff; auto.
Qed.
Print Assumptions C74_unbounded_when_k_above_u.

Example C74_ex : saa1_optimal 1 2 [2; 2] 2.
Proof.
  apply C74_programmes_agree; try lra; [congruence| |exact C49_ex]. repeat (apply Forall_cons; [lra|]); apply Forall_nil.
Qed.
Example C74_unbounded_ex : exists s theta, saa1_feasible 3 2 [1] s theta /\ saa1_objective s < -100.
Proof. apply (C74_unbounded_when_k_above_u 3 2 [1]); try lra; [congruence|]. apply Forall_cons; [lra|apply Forall_nil]. Qed.

(* ---------- C75 ---------- *)
(* coef_ and dual_var_ bound the worst case of the fitted order *)
Theorem C75_certificate saa k u rho s coef dual : 0 < u -> 0 <= rho -> Forall (fun x => 0 <= x) s ->
  nv_fit saa k u rho s = Ok (coef, dual) -> worst_le k u rho s coef (empirical k u s coef + dual * rho).
Proof. exact (fit_certificate saa k u rho s coef dual). Qed.
Print Assumptions C75_certificate.

(* and the bound is the worst case itself when a critical index was found *)
Theorem C75_certificate_exact saa k u rho s coef dual T : 0 <= k -> 0 < u -> 0 <= rho -> s <> [] -> Forall (fun x => 0 <= x) s ->
  minimises (empirical k u s) saa -> (nv_exit_of k u rho s = Ok (ExitSAA T) \/ nv_exit_of k u rho s = Ok (ExitZero T)) ->
  nv_fit saa k u rho s = Ok (coef, dual) -> forall c, worst_le k u rho s coef c <-> empirical k u s coef + dual * rho <= c.
Proof.
  intros Hk Hu Hr Hs Hp Hm E F c. split; [exact (fit_exact saa k u rho s coef dual T Hk Hu Hr Hs Hp Hm E F c)|].
  intros L p Pok. apply Rle_trans with (empirical k u s coef + dual * rho); [|exact L].
  exact (fit_certificate saa k u rho s coef dual Hu Hr Hp F p Pok).
Qed.
Print Assumptions C75_certificate_exact.

Lemma two_fit : nv_fit 2 1 2 0 [2; 2] = Ok (2, 2).
Proof.
  unfold nv_fit, nv_solver. rewrite two_exit. simpl. destruct (Reqb 2 0) eqn:E; [apply Reqb_true in E; lra|reflexivity].
Qed.
Example C75_ex : worst_le 1 2 0 [2; 2] 2 (empirical 1 2 [2; 2] 2 + 2 * 0).
Proof. apply (C75_certificate 2); try lra; [repeat (apply Forall_cons; [lra|]); apply Forall_nil|exact two_fit]. Qed.
Example C75_exact_ex : forall c, worst_le 1 2 0 [2; 2] 2 c <-> empirical 1 2 [2; 2] 2 + 2 * 0 <= c.
Proof.
  apply (C75_certificate_exact 2 1 2 0 [2; 2] 2 2 (nv_T [2; 2] 1 2 0 2)); try lra; [congruence| |exact two_min|left; exact two_exit|exact two_fit].
  repeat (apply Forall_cons; [lra|]); apply Forall_nil.
Qed.

Example C48_sorted_case : Permutation (nsort [5; 1; 3]) [5; 1; 3] /\ nth 0 (nsort [5; 1; 3]) 0 <= nth 2 (nsort [5; 1; 3]) 0.
Proof. split; [apply C48_sorted|]. apply (proj2 (C48_sorted [5; 1; 3])); simpl; lia. Qed.
Example C49_programme_value_case : exists beta, saa2_feasible [1; 10; 10] beta 4 /\ saa2_objective 5 7 beta 4 = empirical 5 7 [1; 10; 10] 4.
Proof. apply C49_programme_value; [lra|discriminate|lra]. Qed.
