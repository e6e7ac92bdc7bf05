(* Properties C86-C91: tuning of the radius. *)
From Coq Require Import Reals List Bool ZArith Lra Lia String Permutation.
From Verif Require Import PyBase RList XReal Costs_Model Costs_Proofs NewsV_Model NewsV_Proofs DedProg_Model Tuner_Model Tuner_Spec Tuner_Proofs Tuner2_Proofs.
Import ListNotations.
Local Open Scope R_scope.

(* ---------- C86: the grid of RhoTunedEstimator ---------- *)
(* The candidates are the powers 10^(-i) for min_power < i <= max_power, each once, in increasing order, all positive. *)
Theorem C86_grid : forall lo hi,
  (forall r, In r (rho_grid lo hi) <-> exists i, (lo < i <= hi)%Z /\ r = powerRZ 10 (- i)) /\
  Z.of_nat (List.length (rho_grid lo hi)) = Z.max 0 (hi - lo) /\ incr (rho_grid lo hi) /\ Forall (fun r => 0 < r) (rho_grid lo hi).
Proof. intros lo hi. repeat split; [apply grid_in|apply grid_in|apply grid_length|apply grid_incr|apply grid_pos]. Qed.
Print Assumptions C86_grid.
(* Both ends should be tried; the end min_power never is. *)
Theorem C86_ends_refuted : exists lo hi, (lo <= hi)%Z /\ In (powerRZ 10 (- hi)) (rho_grid lo hi) /\ ~ In (powerRZ 10 (- lo)) (rho_grid lo hi).
Proof. exists (-4)%Z, 4%Z. split; [lia|]. split; [apply grid_in; exists 4%Z; split; [lia|reflexivity]|apply grid_end]. Qed.
Print Assumptions C86_ends_refuted.
Theorem C86_lower_end_missing : forall lo hi, ~ In (powerRZ 10 (- lo)) (rho_grid lo hi).
Proof. exact grid_end. Qed.
Print Assumptions C86_lower_end_missing.
Example C86_case : List.length (rho_grid (-4) 4) = 8%nat /\ In 1000 (rho_grid (-4) 4) /\ In 1 (rho_grid (-4) 4) /\ rho_grid 4 4 = [].
Proof.
  split; [reflexivity|]. split; [apply grid_in; exists (-3)%Z; split; [lia|unfold powerRZ; simpl; lra]|]. split; [apply grid_in; exists 0%Z; split; [lia|reflexivity]|reflexivity].
Qed.

(* ---------- C87: compute_h ---------- *)
(* What it returns is the gradient of the mean-risk loss in (theta, tau). *)
Theorem C87_gradient : forall eta alpha theta tau x g, List.length theta = List.length x ->
  compute_h eta alpha tau theta x = Ok g -> is_gradient (fun th ta => mean_risk eta alpha th ta x) theta tau g.
Proof. exact h_is_gradient. Qed.
Print Assumptions C87_gradient.
(* It raises exactly at the points where the loss has no gradient. *)
Theorem C87_fails_where_no_gradient : forall eta alpha theta tau x, List.length theta = List.length x -> eta <> 0 -> alpha <> 0 ->
  (exists e, compute_h eta alpha tau theta x = Raise e) <-> ~ exists g, is_gradient (fun th ta => mean_risk eta alpha th ta x) theta tau g.
Proof.
  intros eta alpha theta tau x HL He Ha. rewrite h_fails_iff. split.
  - intros K [g G]. exact (no_gradient _ _ _ _ _ _ HL He Ha K G).
  - intros N. destruct (compute_h eta alpha tau theta x) as [g|e] eqn:E.
    + exfalso. apply N. exists g. apply h_is_gradient; assumption.
    + apply (h_fails_iff eta alpha). eauto.
Qed.
Print Assumptions C87_fails_where_no_gradient.
Example C87_case : exists g, compute_h 1 (1 / 2) (1 / 4) [1; 0] [3; 5] = Ok g /\ is_gradient (fun th ta => mean_risk 1 (1 / 2) th ta [3; 5]) [1; 0] (1 / 4) g.
Proof.
  destruct (compute_h 1 (1 / 2) (1 / 4) [1; 0] [3; 5]) as [g|e] eqn:E.
  - exists g. split; [reflexivity|]. apply C87_gradient; [reflexivity|exact E].
  - exfalso. assert (K : dot [1; 0] [3; 5] + 1 / 4 = 0) by (apply (h_fails_iff 1 (1 / 2)); eauto). unfold dot in K. cbn in K. lra.
Qed.
Example C87_kink : exists e, compute_h 1 (1 / 2) (-3) [1; 0] [3; 5] = Raise e.
Proof. apply h_fails_iff. unfold dot. cbn. lra. Qed.

(* ---------- C88: compute_phi_star ---------- *)
(* The conjugate should be sup_a (a z - phi(a)); the code's value is that divided by the square of the number of samples. *)
Theorem C88_scalar_scale : forall hs z v, hs <> [] -> phi_star_1 hs z = Fin v ->
  is_max (fun _ => True) (fun a => a * z - blanchet_phi_1 hs a) (INR (List.length hs) * INR (List.length hs) * v).
Proof. exact phi1_scale. Qed.
Print Assumptions C88_scalar_scale.
Theorem C88_scalar_infinite : forall hs z, hs <> [] -> (phi_star_1 hs z = PInf <-> unbounded (fun _ => True) (fun a => a * z - blanchet_phi_1 hs a)).
Proof. exact phi1_inf. Qed.
Print Assumptions C88_scalar_infinite.
Theorem C88_matrix_scale : forall pinv m Hs z w, Hs <> [] -> hess_ok m Hs -> List.length z = m ->
  moore_penrose m (phi_A m Hs) (pinv (phi_A m Hs)) ->
  is_max (fun a => List.length a = m) (fun a => dot a z - blanchet_phi Hs a) w ->
  w = INR (List.length Hs) * INR (List.length Hs) * phi_star pinv m Hs z.
Proof. exact phi_conjugate. Qed.
Print Assumptions C88_matrix_scale.
Theorem C88_value_refuted : exists hs z v w, phi_star_1 hs z = Fin v /\ is_max (fun _ => True) (fun a => a * z - blanchet_phi_1 hs a) w /\ v <> w.
Proof.
  exists [1; 1], 1, (1 / 4), 1.
  assert (E : phi_star_1 [1; 1] 1 = Fin (1 / 4)).
  { unfold phi_star_1. cbn zeta. replace (1 / 2 * INR (List.length [1; 1]) * rsum (map (fun h => h * h) [1; 1])) with 2 by (cbn; field).
    assert (N : Reqb 2 0 = false) by (apply not_true_is_false; rewrite Reqb_true; lra). rewrite N. cbn. f_equal. field. }
  split; [exact E|]. split; [|lra]. pose proof (C88_scalar_scale [1; 1] 1 (1 / 4) ltac:(discriminate) E) as M.
  replace (INR (List.length [1; 1]) * INR (List.length [1; 1]) * (1 / 4)) with 1 in M by (cbn; field). exact M.
Qed.
Print Assumptions C88_value_refuted.
Example C88_case : exists w, is_max (fun a : vec => List.length a = 2%nat) (fun a => dot a [1; 2] - blanchet_phi [[[1; 0]; [0; 1]]] a) w /\
  moore_penrose 2 (phi_A 2 [[[1; 0]; [0; 1]]]) [[2; 0]; [0; 2]] /\ w = phi_star (fun _ => [[2; 0]; [0; 2]]) 2 [[[1; 0]; [0; 1]]] [1; 2].
Proof.
  assert (EA : phi_A 2 [[[1; 0]; [0; 1]]] = [[1 / 2; 0]; [0; 1 / 2]]).
  { unfold phi_A, gram, madd, outer, mscal, mzero, vscal, vadd. cbn. repeat (apply f_equal2); try reflexivity; field. }
  assert (M : is_max (fun a : vec => List.length a = 2%nat) (fun a => dot a [1; 2] - blanchet_phi [[[1; 0]; [0; 1]]] a) 5).
  { split.
    - exists [2; 4]. split; [reflexivity|]. unfold blanchet_phi, rmean, sqnorm, hess_apply, dot. cbn. field.
    - intros [|a [|b [|c x]]] H; try discriminate. unfold blanchet_phi, rmean, sqnorm, hess_apply, dot. cbn.
      match goal with |- ?L <= _ => replace L with (5 - (/ 4 * ((a - 2) * (a - 2)) + / 4 * ((b - 4) * (b - 4)))) by field end.
      pose proof (Rle_0_sqr (a - 2)) as X. pose proof (Rle_0_sqr (b - 4)) as Y. unfold Rsqr in X, Y. lra. }
  assert (MP : moore_penrose 2 (phi_A 2 [[[1; 0]; [0; 1]]]) [[2; 0]; [0; 2]]).
  { rewrite EA. repeat split; try (repeat constructor; fail);
      try (intros [|a [|b [|c x]]] [|a' [|b' [|c' y]]] H H'; try discriminate; unfold mat_apply, dot; cbn; field);
      intros [|a [|b [|c x]]] H; try discriminate; unfold mat_apply, dot; cbn; (apply f_equal2; [field|apply f_equal2; [field|reflexivity]]). }
  exists 5. split; [exact M|]. split; [exact MP|].
  rewrite (C88_matrix_scale (fun _ => [[2; 0]; [0; 2]]) 2 [[[1; 0]; [0; 1]]] [1; 2] 5); [cbn [List.length INR]; ring|discriminate|repeat constructor|reflexivity|exact MP|exact M].
Qed.

(* ---------- C89: the radius of the portfolio tuner ---------- *)
(* It exists exactly when the loss is differentiable at every sample. *)
Theorem C89_defined : forall draw q eta alpha tau theta X,
  (exists rho, portfolio_radius draw q eta alpha tau theta X = Ok rho) <-> Forall (fun x => dot theta x + tau <> 0) X.
Proof. exact radius_defined. Qed.
Print Assumptions C89_defined.
(* It is non-negative and at most the largest drawn norm over the square root of the number of samples. *)
Theorem C89_bounds : forall draw q eta alpha tau theta X rho M, X <> [] -> 0 <= eta -> 0 < alpha -> 0 <= M ->
  (forall S, draw S <> [] /\ Forall (fun z => pnorm q z <= M) (draw S)) ->
  portfolio_radius draw q eta alpha tau theta X = Ok rho -> 0 <= rho <= M / sqrt (INR (List.length X)).
Proof.
  intros draw q eta alpha tau theta X rho M Hn He Ha HM HD. apply radius_bounds; auto. intros S. destruct (HD S) as [A B]. split; [exact A|].
  eapply Forall_impl; [|exact B]. intros z Hz. split; [apply pnorm_nonneg|exact Hz].
Qed.
Print Assumptions C89_bounds.
(* Its square covers more than 95% of (the number of draws minus one) of the values |z|^2 / (sum of the tail weights), and at
   least 5% of that number are not below it. *)
Theorem C89_coverage : forall draw q eta alpha tau theta X rho, X <> [] -> 0 <= eta -> 0 < alpha -> (forall S, draw S <> []) ->
  portfolio_radius draw q eta alpha tau theta X = Ok rho ->
  exists hs, Forall2 (fun x g => List.length theta = List.length x -> is_gradient (fun th ta => mean_risk eta alpha th ta x) theta tau g) X hs /\
  let zs := draw (np_cov hs) in let W := rsum (map (tail_weight eta alpha tau theta) X) in forall n m,
  counted (fun z => pnorm q z * pnorm q z / W <= rho * rho) zs n -> counted (fun z => rho * rho <= pnorm q z * pnorm q z / W) zs m ->
  95 / 100 * (INR (List.length zs) - 1) < INR n /\ 5 / 100 * (INR (List.length zs) - 1) <= INR m.
Proof. exact radius_coverage. Qed.
Print Assumptions C89_coverage.
Example C89_case : exists rho, portfolio_radius (fun _ => [[1; 2]; [0; 1]]) (PFin 2) 1 (1 / 2) (1 / 4) [1; 0] [[3; 5]; [-1; 2]] = Ok rho /\ 0 <= rho.
Proof.
  destruct (proj2 (C89_defined (fun _ => [[1; 2]; [0; 1]]) (PFin 2) 1 (1 / 2) (1 / 4) [1; 0] [[3; 5]; [-1; 2]])) as [rho E].
  { repeat constructor; unfold dot; cbn; lra. }
  exists rho. split; [exact E|]. eapply (C89_bounds _ _ _ _ _ _ _ _ (pnorm (PFin 2) [1; 2] + pnorm (PFin 2) [0; 1])); [| | | | |exact E]; try discriminate; try lra.
  - pose proof (pnorm_nonneg (PFin 2) [1; 2]). pose proof (pnorm_nonneg (PFin 2) [0; 1]). lra.
  - intros Sg. split; [discriminate|]. pose proof (pnorm_nonneg (PFin 2) [1; 2]). pose proof (pnorm_nonneg (PFin 2) [0; 1]). constructor; [lra|constructor; [lra|constructor]].
Qed.

(* ---------- C90: the law of the draws ---------- *)
(* The draws should live in the space of the gradients (one coordinate per parameter); the covariance handed to the normal
   law has one row and one column per sample. *)
Theorem C90_covariance_size : forall eta alpha tau theta X hs, all_h eta alpha tau theta X = Ok hs ->
  List.length (np_cov hs) = List.length X /\ Forall (fun r => List.length r = List.length X) (np_cov hs).
Proof. intros eta alpha tau theta X hs H. destruct (all_h_length _ _ _ _ _ _ H) as [L _]. rewrite <- L. apply cov_size. Qed.
Print Assumptions C90_covariance_size.
Theorem C90_covariance_refuted : exists eta alpha tau theta X hs, all_h eta alpha tau theta X = Ok hs /\ Forall (fun h => List.length h = S (List.length theta)) hs /\
  List.length (np_cov hs) <> S (List.length theta).
Proof.
  exists 1, (1 / 2), (1 / 4), [1; 0], [[3; 5]; [-1; 2]]. destruct (all_h 1 (1 / 2) (1 / 4) [1; 0] [[3; 5]; [-1; 2]]) as [hs|e] eqn:E.
  - exists hs. split; [reflexivity|]. destruct (all_h_length _ _ _ _ _ _ E) as [L F]. split.
    + inversion F as [|? ? ? ? P F']; subst. inversion F' as [|? ? ? ? P' F'']; subst. inversion F''; subst. repeat constructor; auto.
    + destruct (cov_size hs) as [LS _]. rewrite LS, L. cbn. discriminate.
  - exfalso. destruct (proj2 (radius_defined (fun _ => []) PInfty 1 (1 / 2) (1 / 4) [1; 0] [[3; 5]; [-1; 2]])) as [rho Er].
    { repeat constructor; unfold dot; cbn; lra. }
    unfold portfolio_radius in Er. rewrite E in Er. discriminate.
Qed.
Print Assumptions C90_covariance_refuted.
(* A vector that is not in the range of the matrix has an infinite conjugate; compute_phi_star returns a number. *)
Theorem C90_range_refuted : exists m Hs z pinv,
  Hs <> [] /\ hess_ok m Hs /\ List.length z = m /\ moore_penrose m (phi_A m Hs) (pinv (phi_A m Hs)) /\
  unbounded (fun a => List.length a = m) (fun a => dot a z - blanchet_phi Hs a) /\ phi_star pinv m Hs z = 0.
Proof. exact phi_not_in_range. Qed.
Print Assumptions C90_range_refuted.

(* ---------- C91: the tuners can be fitted ---------- *)
(* BlanchetRhoTunedEstimator reads estimator.problem_, which no estimator of the package has. *)
Theorem C91_general_tuner_refuted : exists e ded, exists x, blanchet_start e ded (Ok tt) = Raise x.
Proof. exists ELinear, true. apply blanchet_never. Qed.
Print Assumptions C91_general_tuner_refuted.
Theorem C91_general_tuner_never : forall e ded r, exists x, blanchet_start e ded r = Raise x.
Proof. exact blanchet_never. Qed.
Print Assumptions C91_general_tuner_never.
(* what it raises: the exception of the first fit if that fails, and otherwise the AttributeError of problem_ *)
Theorem C91_general_tuner_raises : forall e ded, blanchet_start e ded (Ok tt) = Raise AttributeError /\ forall x, blanchet_start e ded (Raise x) = Raise x.
Proof. intros e ded. split; [|intros x]; destruct e, ded; reflexivity. Qed.
Print Assumptions C91_general_tuner_raises.
Theorem C91_portfolio_tuner_refuted : exists ded x, pf_blanchet_start EPortfolio ded (Ok tt) = Raise x.
Proof. exists false, AttributeError. reflexivity. Qed.
Print Assumptions C91_portfolio_tuner_refuted.
Theorem C91_portfolio_tuner : forall e ded r, pf_blanchet_start e ded r = Ok tt <-> e = EPortfolio /\ ded = true /\ r = Ok tt.
Proof. exact pf_blanchet_only. Qed.
Print Assumptions C91_portfolio_tuner.
Example C91_case : pf_blanchet_start EPortfolio true (Ok tt) = Ok tt /\ pf_blanchet_start EWeber true (Ok tt) = Raise NotImplementedError.
Proof. split; reflexivity. Qed.
