(* Dedicated convex programmes: the theorems of the properties. *)
From Coq Require Import Reals List Lra Lia.
From Verif Require Import PyBase RList XReal Costs_Model Costs_Spec Costs_Proofs Transport_Spec Transport_Proofs DedProg_Model DedProg_Spec DedLin_Proofs DedLog_Proofs DedPf_Proofs.
Import ListNotations.
Local Open Scope R_scope.

(* ---------- C50 ---------- *)
(* The objective of the programme is the worst root-mean-square residual over all plans that move the features. *)
Theorem C50_objective_is_worst_case d rho data coef b c : 0 <= rho -> data <> [] -> Forall (fun xy : vec * R => length (fst xy) = d) data -> length coef = d ->
  (lin_worst_le d rho data coef b c <-> lin_objective rho data coef b <= c).
Proof. intros Hr Hd Hx Hc. exact (lin_exact d rho data coef b Hr Hd Hx Hc c). Qed.
Print Assumptions C50_objective_is_worst_case.

(* Solutions of the programme are exactly the coefficients with the smallest worst case. *)
Theorem C50_solution_is_robust d fi rho data coef b : 0 <= rho -> data <> [] -> Forall (fun xy : vec * R => length (fst xy) = d) data -> lin_feasible d fi coef b ->
  (lin_optimal d fi rho data coef b <->
   forall coef' b' c, lin_feasible d fi coef' b' -> lin_worst_le d rho data coef' b' c -> lin_worst_le d rho data coef b c).
Proof. exact (lin_robust d fi rho data coef b). Qed.
Print Assumptions C50_solution_is_robust.

Lemma norm2_single a : norm2 [a] = Rabs a.
Proof. unfold norm2, sqnorm, dot. simpl. rewrite Rplus_0_r. apply sqrt_Rsqr_abs. Qed.

Lemma lin_objective_1 rho x y c b : lin_objective rho [([x], y)] [c] b = Rabs (x * c + b - y) + rho * Rabs c.
Proof. unfold lin_objective. simpl map. rewrite !norm2_single. unfold lin_residual, dot. simpl. rewrite sqrt_1, Rplus_0_r. unfold Rdiv. rewrite Rinv_1, Rmult_1_r. reflexivity. Qed.

(* one observation, no intercept, radius 1/2: the solution is 1 and its worst case 1/2 *)
Example C50_example :
  lin_optimal 1 false (1 / 2) [([1], 1)] [1] 0 /\ lin_worst_le 1 (1 / 2) [([1], 1)] [1] 0 (1 / 2) /\ ~ lin_worst_le 1 (1 / 2) [([1], 1)] [1] 0 (1 / 3).
Proof.
  assert (O : lin_objective (1 / 2) [([1], 1)] [1] 0 = 1 / 2).
  { rewrite lin_objective_1. replace (1 * 1 + 0 - 1) with 0 by ring. rewrite Rabs_R0, Rabs_R1. lra. }
  assert (H1 : 0 <= 1 / 2) by lra. assert (H2 : [([1], 1)] <> []) by discriminate.
  assert (H3 : Forall (fun xy : vec * R => length (fst xy) = 1%nat) [([1], 1)]) by (constructor; [reflexivity|constructor]).
  split; [|split].
  - split; [split; [reflexivity|intros _; reflexivity]|]. intros coef b [L F]. rewrite O. specialize (F eq_refl). subst b.
    destruct coef as [|c [|]]; try discriminate. rewrite lin_objective_1. pose proof (Rle_abs c). pose proof (Rle_abs (- (1 * c + 0 - 1))). rewrite Rabs_Ropp in H0.
    pose proof (Rabs_pos c). pose proof (Rabs_pos (1 * c + 0 - 1)). lra.
  - apply C50_objective_is_worst_case; auto. rewrite O. lra.
  - rewrite C50_objective_is_worst_case by auto. rewrite O. lra.
Qed.

(* ---------- C51 ---------- *)
(* Every feasible point bounds every adversary. *)
Theorem C51_feasible_points_bound_the_worst_case d fi kappa rho data beta b lam s c :
  Forall (fun xy : vec * R => length (fst xy) = d /\ (snd xy = 1 \/ snd xy = -1)) data -> length beta = d ->
  log_feasible d fi kappa data beta b lam s -> log_objective rho lam s <= c -> log_worst_le d kappa rho data beta b c.
Proof. intros Hx Hb. exact (log_upper d kappa rho data beta b Hx Hb fi lam s c). Qed.
Print Assumptions C51_feasible_points_bound_the_worst_case.

(* For fixed coefficients the best feasible value is the worst case. *)
Theorem C51_programme_is_exact d fi kappa rho data beta b c : 0 < kappa -> 0 <= rho -> data <> [] ->
  Forall (fun xy : vec * R => length (fst xy) = d /\ (snd xy = 1 \/ snd xy = -1)) data -> length beta = d -> (fi = false -> b = 0) ->
  (log_worst_le d kappa rho data beta b c <-> exists lam s, log_feasible d fi kappa data beta b lam s /\ log_objective rho lam s <= c).
Proof. exact (log_exact d fi kappa rho data beta b c). Qed.
Print Assumptions C51_programme_is_exact.

(* A solution of the programme has the smallest worst case, and its objective is that worst case. *)
Theorem C51_solution_is_robust d fi kappa rho data beta b lam s : 0 < kappa -> 0 <= rho -> data <> [] ->
  Forall (fun xy : vec * R => length (fst xy) = d /\ (snd xy = 1 \/ snd xy = -1)) data -> log_optimal d fi kappa rho data beta b lam s ->
  (forall c, log_worst_le d kappa rho data beta b c <-> log_objective rho lam s <= c) /\
  (forall beta' b' c, length beta' = d -> (fi = false -> b' = 0) -> log_worst_le d kappa rho data beta' b' c -> log_worst_le d kappa rho data beta b c).
Proof. exact (log_robust d fi kappa rho data beta b lam s). Qed.
Print Assumptions C51_solution_is_robust.

(* one observation, radius 1: the solution is 0 and its worst case ln 2 *)
Example C51_example :
  log_optimal 1 false 1000 1 [([1], 1)] [0] 0 0 [ln 2] /\ log_worst_le 1 1000 1 [([1], 1)] [0] 0 (ln 2).
Proof.
  assert (E0 : forall z, z = 0 -> cp_logistic z = ln 2) by (intros z ->; unfold cp_logistic; rewrite exp_0; f_equal; lra).
  assert (F : log_feasible 1 false 1000 [([1], 1)] [0] 0 0 [ln 2]).
  { split; [reflexivity|]. split; [auto|]. split; [rewrite norm2_single, Rabs_R0; lra|]. constructor; [|constructor]. unfold dot. simpl. rewrite !E0 by ring. lra. }
  assert (Ob : forall lam s, log_objective 1 lam [s] = lam + s) by (intros; unfold log_objective; simpl; lra).
  assert (O : log_optimal 1 false 1000 1 [([1], 1)] [0] 0 0 [ln 2]).
  { split; [exact F|]. intros beta' b' lam' s' (L & Fi & HL & G). inversion G as [|? s1 ? ? [G1 G2] G']; subst. inversion G'; subst. rewrite !Ob.
    destruct beta' as [|t [|]]; try discriminate. rewrite norm2_single in HL. specialize (Fi eq_refl). subst b'. unfold dot in G2. simpl in G2.
    pose proof (lg_lip 0 (- (1) * (1 * t + 0 + 0))) as Lp. rewrite (E0 0 eq_refl) in Lp.
    replace (0 - - (1) * (1 * t + 0 + 0)) with t in Lp by ring. lra. }
  split; [exact O|].
  apply (C51_solution_is_robust 1 false 1000 1 [([1], 1)] [0] 0 0 [ln 2]); try lra; try discriminate; try exact O.
  - constructor; [split; [reflexivity|left; reflexivity]|constructor].
  - rewrite Ob. lra.
Qed.

(* ---------- C52 ---------- *)
(* Every feasible point bounds every adversary that stays in the polyhedron. *)
Theorem C52_feasible_points_bound_the_worst_case m C dv p eta alpha rho samples theta tau lam s gamma c :
  valid_exp p -> 0 <= eta -> 0 < alpha -> Forall (fun r => length r = m) C -> length dv = length C -> Forall (fun x => length x = m) samples ->
  pf_feasible m C dv p eta alpha samples theta tau lam s gamma -> pf_objective rho lam s <= c ->
  pf_worst_le (pnorm p) m C dv eta alpha rho samples theta tau c.
Proof. intros Vp He Ha HC Hdv Hs. exact (pf_upper m C dv p eta alpha rho samples Vp He Ha HC Hdv Hs theta tau lam s gamma c). Qed.
Print Assumptions C52_feasible_points_bound_the_worst_case.

(* Without side constraints the best feasible value for a portfolio and a threshold is its worst case. *)
Theorem C52_programme_is_exact_without_constraints m p eta alpha rho samples theta tau c : valid_exp p -> 0 <= eta -> 0 < alpha -> 0 <= rho -> samples <> [] ->
  Forall (fun x => length x = m) samples -> length theta = m -> rsum theta = 1 -> Forall (fun t => 0 <= t) theta ->
  (pf_worst_le (pnorm p) m (pf_default_C m) pf_default_d eta alpha rho samples theta tau c <->
   exists lam s gamma, pf_feasible m (pf_default_C m) pf_default_d p eta alpha samples theta tau lam s gamma /\ pf_objective rho lam s <= c).
Proof. exact (pf_exact_default m p eta alpha rho samples theta tau c). Qed.
Print Assumptions C52_programme_is_exact_without_constraints.

(* The two affine pieces of the programme are the mean-risk loss. *)
Theorem C52_pieces_are_the_mean_risk_loss eta alpha theta tau x : 0 <= eta -> 0 < alpha ->
  mean_risk eta alpha theta tau x = Rmax (pf_b eta alpha false * tau + pf_a eta alpha false * dot theta x) (pf_b eta alpha true * tau + pf_a eta alpha true * dot theta x).
Proof. exact (pieces_max eta alpha theta tau x). Qed.
Print Assumptions C52_pieces_are_the_mean_risk_loss.

(* a feasible point of a constrained programme: returns of the second asset at least -1 *)
Example C52_example_constrained :
  exists lam s gamma, pf_feasible 2 [[0; -1]] [1] (PFin 1) 1 (1 / 2) [[1; 2]] [1; 0] 0 lam s gamma /\ pf_objective 1 lam s = 2 /\
    pf_worst_le (pnorm (PFin 1)) 2 [[0; -1]] [1] 1 (1 / 2) 1 [[1; 2]] [1; 0] 0 2.
Proof.
  exists 3, [-1], [([0], [0])].
  assert (F : pf_feasible 2 [[0; -1]] [1] (PFin 1) 1 (1 / 2) [[1; 2]] [1; 0] 0 3 [-1] [([0], [0])]).
  { split; [reflexivity|]. split; [simpl; lra|]. split; [lra|]. split; [repeat (apply Forall_cons; [lra|]); apply Forall_nil|].
    split; [reflexivity|]. split; [reflexivity|]. apply Forall_cons; [|apply Forall_nil].
    assert (Q : pf_q (PFin 1) = PInfty) by (unfold pf_q; destruct (Reqb 1 1) eqn:E; [reflexivity|apply Reqb_false in E; lra]).
    split; (split; [reflexivity|]); (split; [unfold dot, pf_a, pf_b; simpl; unfold dot; simpl; lra|]); rewrite Q; (split; [|apply Forall_cons; [lra|apply Forall_nil]]).
    - simpl. unfold pf_a. apply Rmax_lub; [apply Rabs_le; lra|]. apply Rmax_lub; [apply Rabs_le; lra|lra].
    - simpl. unfold pf_a. apply Rmax_lub; [apply Rabs_le; lra|]. apply Rmax_lub; [apply Rabs_le; lra|lra]. }
  assert (O : pf_objective 1 3 [-1] = 2) by (unfold pf_objective; simpl; lra).
  split; [exact F|]. split; [exact O|].
  apply (C52_feasible_points_bound_the_worst_case 2 [[0; -1]] [1] (PFin 1) 1 (1 / 2) 1 [[1; 2]] [1; 0] 0 3 [-1] [([0], [0])]);
    try exact F; try (simpl; lra); try reflexivity; constructor; try reflexivity; constructor.
Qed.

(* the same portfolio without constraints: worst case exactly 2 *)
Example C52_example_exact : forall c, pf_worst_le (pnorm (PFin 1)) 2 (pf_default_C 2) pf_default_d 1 (1 / 2) 1 [[1; 2]] [1; 0] 0 c -> 2 <= c.
Proof.
  intros c W. apply C52_programme_is_exact_without_constraints in W; try (simpl; lra); try discriminate.
  - destruct W as (lam & s & gamma & (_ & _ & Hl & _ & Ls & Lg & F) & O). destruct s as [|s1 [|]]; try discriminate. destruct gamma as [|[g0 g1] [|]]; try discriminate.
    simpl in F. apply Forall_inv in F. destruct F as [(A1 & A2 & A3 & A4) (B1 & B2 & B3 & B4)]. cbn [fst snd] in *.
    destruct g0 as [|x0 [|]]; try discriminate. destruct g1 as [|x1 [|]]; try discriminate.
    assert (Q : pf_q (PFin 1) = PInfty) by (unfold pf_q; destruct (Reqb 1 1) eqn:E; [reflexivity|apply Reqb_false in E; lra]). rewrite Q in B3.
    unfold dot in A2. simpl in A2. unfold dot in A2. unfold pf_a, pf_b in *. simpl in A2, B3.
    match type of B3 with Rmax ?u ?v <= _ => pose proof (Rmax_l u v) as M end. match type of M with Rabs ?z <= _ => pose proof (Rle_abs z) as M' end.
    unfold pf_objective in O. simpl in O. lra.
  - constructor; [reflexivity|constructor].
  - reflexivity.
  - repeat (apply Forall_cons; [lra|]); apply Forall_nil.
Qed.

(* ---------- C76 ---------- *)
(* With the default cost (1-norm, power 1) the exponent handed to the programme is the exponent of the cost's norm. *)
Theorem C76_default_cost_guarded m C dv eta alpha rho samples theta tau lam s gamma :
  0 <= eta -> 0 < alpha -> Forall (fun r => length r = m) C -> length dv = length C -> Forall (fun x => length x = m) samples ->
  pf_feasible m C dv (pf_exponent_of_cost (PFin 1) 1) eta alpha samples theta tau lam s gamma ->
  tworst_le (nc_value (PFin 1) 1) (in_polyhedron m C dv) samples rho (mean_risk eta alpha theta tau) (pf_objective rho lam s).
Proof.
  intros He Ha HC Hdv Hs F. assert (V : valid_exp (PFin 1)) by (simpl; lra).
  intros q (E & Fo & B). apply (pf_upper m C dv (PFin 1) eta alpha rho samples V He Ha HC Hdv Hs theta tau lam s gamma _ F (Rle_refl _)).
  split; [exact E|]. split; [exact Fo|]. unfold tplan_cost in *. replace (map (fun xl : vec * tlaw => texpect (fun y => pnorm (PFin 1) (vsub y (fst xl))) (snd xl)) q)
    with (map (fun xl => texpect (nc_value (PFin 1) 1 (fst xl)) (snd xl)) q); [exact B|].
  apply map_ext. intros [x l]. cbn [fst snd]. unfold texpect. f_equal. apply map_ext. intros [w y]. cbn [fst snd]. f_equal.
  unfold nc_value. rewrite tpow_pos, ppow_1 by (lra || apply pnorm_nonneg). rewrite (vsub_swap x y), pnorm_vscal, abs_m1 by exact V. ring.
Qed.
Print Assumptions C76_default_cost_guarded.

(* With the Euclidean cost of power 1 ("t-NC-1-2") the optimal value of the programme underestimates the worst case. *)
Theorem C76_other_norms_refuted :
  exists m eta alpha rho samples theta tau lam s gamma,
    let cost_p := PFin 2 in let cost_power := 1 in
    0 <= eta /\ 0 < alpha /\ 0 < rho /\ samples <> [] /\ Forall (fun x => length x = m) samples /\
    pf_feasible m (pf_default_C m) pf_default_d (pf_exponent_of_cost cost_p cost_power) eta alpha samples theta tau lam s gamma /\
    (forall theta' tau' lam' s' gamma',
       pf_feasible m (pf_default_C m) pf_default_d (pf_exponent_of_cost cost_p cost_power) eta alpha samples theta' tau' lam' s' gamma' ->
       pf_objective rho lam s <= pf_objective rho lam' s') /\
    ~ tworst_le (fun x y => nc_value cost_p cost_power x y) (in_polyhedron m (pf_default_C m) pf_default_d) samples rho (mean_risk eta alpha theta tau) (pf_objective rho lam s).
Proof. exact pf_wrong_exponent. Qed.
Print Assumptions C76_other_norms_refuted.

Example C76_example : exists lam s gamma, pf_feasible 2 (pf_default_C 2) pf_default_d (pf_exponent_of_cost (PFin 1) 1) 0 1 [[0; 0]] [1 / 2; 1 / 2] 0 lam s gamma.
Proof.
  exists (1 / 2), [0], [([0], [0])]. assert (A5 : Rabs (1 / 2) = 1 / 2) by (apply Rabs_pos_eq; lra).
    split; [reflexivity|]. split; [simpl; lra|]. split; [lra|]. split; [repeat (apply Forall_cons; [lra|]); apply Forall_nil|]. split; [reflexivity|]. split; [reflexivity|].
    apply Forall_cons; [|apply Forall_nil]. unfold pf_exponent_of_cost.
    split; (apply pf_row_default; [simpl; lra|reflexivity| |]); cbn [fst snd].
    + unfold DedPf_Proofs.piece, pf_a, pf_b, dot. simpl. lra.
    + unfold pf_a, pf_q. rewrite abs_m1. destruct (Reqb 1 1) eqn:E; [|apply Reqb_false in E; lra]. simpl. rewrite !A5. rewrite (Rmax_left (1/2) 0), Rmax_left by lra. lra.
    + unfold DedPf_Proofs.piece, pf_a, pf_b, dot. simpl. lra.
    + unfold pf_a, pf_q. replace (-1 - 0 / 1) with (-1) by lra. rewrite abs_m1. destruct (Reqb 1 1) eqn:E; [|apply Reqb_false in E; lra].
      simpl. rewrite !A5. rewrite (Rmax_left (1/2) 0), Rmax_left by lra. lra.
Qed.

Example C52_pieces_are_the_mean_risk_loss_case :
  mean_risk 1 (1 / 2) [1; 0] 3 [5; 6] = Rmax (pf_b 1 (1 / 2) false * 3 + pf_a 1 (1 / 2) false * dot [1; 0] [5; 6]) (pf_b 1 (1 / 2) true * 3 + pf_a 1 (1 / 2) true * dot [1; 0] [5; 6]).
Proof. apply C52_pieces_are_the_mean_risk_loss; lra. Qed.
Example C76_default_cost_guarded_case : exists lam s gamma, pf_feasible 2 (pf_default_C 2) pf_default_d (pf_exponent_of_cost (PFin 1) 1) 0 1 [[0; 0]] [1 / 2; 1 / 2] 0 lam s gamma /\
  tworst_le (nc_value (PFin 1) 1) (in_polyhedron 2 (pf_default_C 2) pf_default_d) [[0; 0]] 3 (mean_risk 0 1 [1 / 2; 1 / 2] 0) (pf_objective 3 lam s).
Proof.
  destruct C76_example as (lam & s & gamma & F). exists lam, s, gamma. split; [exact F|].
  apply (C76_default_cost_guarded 2 (pf_default_C 2) pf_default_d 0 1 3 [[0; 0]] [1 / 2; 1 / 2] 0 lam s gamma); [lra|lra|repeat constructor|reflexivity|repeat constructor|exact F].
Qed.
Example C51_feasible_points_bound_the_worst_case_case : log_worst_le 1 1000 1 [([1], 1)] [0] 0 (ln 2 + 5).
Proof.
  destruct C51_example as [[F _] _]. refine (C51_feasible_points_bound_the_worst_case 1 false 1000 1 [([1], 1)] [0] 0 0 [ln 2] (ln 2 + 5) _ eq_refl F _).
  - constructor; [|constructor]. split; [reflexivity|left; reflexivity].
  - unfold log_objective, rmean. simpl. lra.
Qed.
