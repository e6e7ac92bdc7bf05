(* Properties C06-C12: transport costs. *)
From Coq Require Import Reals List Lra.
From Verif Require Import PyBase RList XReal Costs_Model Costs_Spec Costs_Proofs.
Import ListNotations.
Local Open Scope R_scope.

(* C06. The norm cost is a translation-invariant, homogeneous transport cost for all p in [1,inf], power > 0.
   [valid_exp p] is 1 <= p or p = inf. *)
Theorem C06_transport_cost :
  forall p power, valid_exp p -> 0 < power -> transport_cost power (nc_value p power).
Proof. exact nc_transport_cost. Qed.
Print Assumptions C06_transport_cost.

Theorem C06_usual_norms :
  forall x,
    pnorm (PFin 1) x = rsum (map Rabs x) /\
    pnorm (PFin 2) x = sqrt (rsum (map (fun a => a * a) x)) /\
    (forall a, In a x -> Rabs a <= pnorm PInfty x) /\
    (x <> [] -> exists a, In a x /\ pnorm PInfty x = Rabs a).
Proof. exact pnorm_cases. Qed.
Print Assumptions C06_usual_norms.

(* Power 0 is accepted but is not a transport cost: every pair of points, equal or not, costs 1. *)
Theorem C06_power_zero :
  (forall p x z, nc_value p 0 x z = 1) /\ (forall p, ~ transport_cost 0 (nc_value p 0)).
Proof.
  assert (V : forall p x z, nc_value p 0 x z = 1).
  { intros p x z. unfold nc_value, tpow. assert (E : Reqb 0 0 = true) by (apply Reqb_true; reflexivity). rewrite E. reflexivity. }
  split; [exact V|]. intros p H. pose proof (proj2 (tc_zero _ _ H [0] [0] eq_refl) eq_refl) as K. rewrite V in K. lra.
Qed.
Print Assumptions C06_power_zero.

Example C06_case : valid_exp (PFin (3/2)) /\ valid_exp PInfty /\ nc_value (PFin 2) 2 [0; 1] [3; 5] = 25.
Proof. split; [simpl; lra|]. split; [exact I|]. rewrite nc_value_22. unfold sqnorm, dot, vsub; simpl. ring. Qed.

(* C07. Triangle inequality at power 1 (Minkowski), its failure at power 2, and the relaxed form that holds there. *)
Theorem C07_triangle : forall p, valid_exp p -> triangle (nc_value p 1).
Proof. exact nc_triangle. Qed.
Print Assumptions C07_triangle.

Theorem C07_square_no_triangle : ~ triangle (nc_value (PFin 2) 2).
Proof. exact nc_square_no_triangle. Qed.
Print Assumptions C07_square_no_triangle.

Theorem C07_square_relaxed :
  forall p x y z, valid_exp p -> length x = length y -> length y = length z ->
    nc_value p 2 x z <= 2 * (nc_value p 2 x y + nc_value p 2 y z).
Proof. exact square_relaxed. Qed.
Print Assumptions C07_square_relaxed.

Theorem C07_power_relaxed :
  forall p power x y z, valid_exp p -> 1 <= power -> length x = length y -> length y = length z ->
    nc_value p power x z <= Rpower 2 (power - 1) * (nc_value p power x y + nc_value p power y z).
Proof. exact nc_quasi_triangle. Qed.
Print Assumptions C07_power_relaxed.

Theorem C07_labelled_triangle :
  forall p k x1 x2 x3 y1 y2 y3 c12 c23 c13,
    valid_exp p -> 0 < k ->
    length x1 = length x2 -> length x2 = length x3 -> length y1 = length y2 -> length y2 = length y3 ->
    nlc_value p 1 (KFin k) x1 x2 (Some y1) (Some y2) = Ok c12 ->
    nlc_value p 1 (KFin k) x2 x3 (Some y2) (Some y3) = Ok c23 ->
    nlc_value p 1 (KFin k) x1 x3 (Some y1) (Some y3) = Ok c13 ->
    c13 <= c12 + c23.
Proof. exact nlc_triangle. Qed.
Print Assumptions C07_labelled_triangle.

Example C07_case : valid_exp (PFin 2) /\ length [0; 0] = length [3; 4] /\ nc_value (PFin 2) 2 [0; 0] [3; 4] = 25.
Proof. split; [simpl; lra|]. split; [reflexivity|]. rewrite nc_value_22. unfold sqnorm, dot, vsub; simpl. ring. Qed.

(* C08. The labelled cost lies between the two pure costs, tends to them when kappa tends to 0 or infinity, agrees with
   the code at kappa = 0 and kappa = inf; missing labels and negative kappa are rejected. *)
Theorem C08_between :
  forall p power k xi zeta y y',
    0 < power -> 0 < k ->
    exists v, nlc_value p power (KFin k) xi zeta (Some y) (Some y') = Ok v /\
              Rmin (nc_value p power xi zeta) (nc_value p power y y') <= v
              <= Rmax (nc_value p power xi zeta) (nc_value p power y y').
Proof. exact label_between. Qed.
Print Assumptions C08_between.

Theorem C08_limits :
  forall p power xi zeta y y',
    0 < power ->
    (exists f, (forall k, 0 < k -> nlc_value p power (KFin k) xi zeta (Some y) (Some y') = Ok (f k)) /\
               tends_at_infinity f (nc_value p power y y') /\ tends_at_zero f (nc_value p power xi zeta)) /\
    nlc_value p power KInf xi zeta (Some y) (Some y') = Ok (nc_value p power y y') /\
    nlc_value p power (KFin 0) xi zeta (Some y) (Some y') = Ok (nc_value p power xi zeta).
Proof. exact label_limits. Qed.
Print Assumptions C08_limits.

Theorem C08_errors :
  forall p power k xi zeta y y',
    (y = None \/ y' = None -> nlc_value p power k xi zeta y y' = Raise AssertionError) /\
    (forall r, r < 0 -> nlc_init_ok (KFin r) = false) /\
    (forall r, 0 <= r -> nlc_init_ok (KFin r) = true) /\ nlc_init_ok KInf = true.
Proof. exact label_errors. Qed.
Print Assumptions C08_errors.

Example C08_case :
  nlc_value (PFin 2) 2 (KFin 1) [0] [0 + 2] (Some [0]) (Some [0 + 4]) = Ok 9.
Proof. rewrite nlc_value_1d by lra. rewrite !Rabs_right by lra. f_equal. field. Qed.

(* C09 is false: with kappa = inf the features move for free. *)
Theorem C09_kappa_inf_refuted :
  exists xi zeta y, nlc_value (PFin 2) 2 KInf xi zeta (Some y) (Some y) = Ok 0 /\ nc_value (PFin 2) 2 xi zeta = 1.
Proof. exact kinf_not_nc. Qed.
Print Assumptions C09_kappa_inf_refuted.

Theorem C09_features_ignored :
  forall p power xi zeta zeta' y y',
    nlc_value p power KInf xi zeta (Some y) (Some y') = nlc_value p power KInf xi zeta' (Some y) (Some y').
Proof. exact kinf_ignores_features. Qed.
Print Assumptions C09_features_ignored.

(* C10. Exact scaling with unchanged labels, and the resulting strict shrinking of the feature cost. *)
Theorem C10_same_labels :
  forall p power k xi zeta y,
    0 < power -> 0 < k ->
    nlc_value p power (KFin k) xi zeta (Some y) (Some y) = Ok (nc_value p power xi zeta * Rpower (/ (1 + k)) power).
Proof. exact nlc_same_labels. Qed.
Print Assumptions C10_same_labels.

Theorem C10_shrinks :
  forall p power k xi zeta y,
    valid_exp p -> 0 < power -> 0 < k -> length xi = length zeta -> xi <> zeta ->
    exists v, nlc_value p power (KFin k) xi zeta (Some y) (Some y) = Ok v /\ 0 < v < nc_value p power xi zeta.
Proof. exact default_kappa_shrinks. Qed.
Print Assumptions C10_shrinks.

Example C10_case : valid_exp (PFin 2) /\ 0 < 2 /\ 0 < 100000000 /\ [0; 1] <> [1; 1].
Proof. split; [simpl; lra|]. split; [lra|]. split; [lra|]. intros H; injection H; lra. Qed.

(* C11. The closed-form displacement is the unique maximiser of the linearised loss minus lambda times the cost. *)
Theorem C11_optimal :
  forall xi y g ry lam,
    0 < lam -> length g = length xi ->
    exists z, nc_solve_max (PFin 2) 2 xi y (vscal (/ lam) g) ry = Ok (z, y) /\
              unique_argmax (length xi) (fun w => dot g (vsub w xi) - lam * nc_value (PFin 2) 2 xi w) z.
Proof. exact nc_solve_max_optimal. Qed.
Print Assumptions C11_optimal.

Theorem C11_other_costs :
  forall p power xi y rhs ry,
    ~ (p = PFin 2 /\ power = 2) -> nc_solve_max p power xi y rhs ry = Raise NotImplementedError.
Proof. exact nc_solve_max_other. Qed.
Print Assumptions C11_other_costs.

Example C11_case : 0 < 3 /\ length [6; 0] = length [1; 1] /\ ~ (PFin 1 = PFin 2 /\ 2 = 2).
Proof. split; [lra|]. split; [reflexivity|]. intros [H _]. injection H. lra. Qed.

(* C12 is false for the cost that the class computes; it holds for the additive cost of the tutorial. *)
Theorem C12_labelled_optimal_refuted :
  exists (k lam g h x y : R), 0 < k /\ 0 < lam /\
  exists x1 y1 c1 x2 y2 c2,
    nlc_solve_max (PFin 2) 2 (KFin k) [x] (Some [y]) [g / lam] (Some [h / lam]) = Ok ([x1], Some [Fin y1]) /\
    nlc_value (PFin 2) 2 (KFin k) [x] [x1] (Some [y]) (Some [y1]) = Ok c1 /\
    nlc_value (PFin 2) 2 (KFin k) [x] [x2] (Some [y]) (Some [y2]) = Ok c2 /\
    g * (x1 - x) + h * (y1 - y) - lam * c1 < g * (x2 - x) + h * (y2 - y) - lam * c2.
Proof. exact nlc_solve_max_refuted. Qed.
Print Assumptions C12_labelled_optimal_refuted.

Theorem C12_zero_kappa_not_finite :
  forall xi y g h, y <> [] -> length h = length y ->
    exists zx zy, nlc_solve_max (PFin 2) 2 (KFin 0) xi (Some y) g (Some h) = Ok (zx, Some zy) /\
                  zy <> [] /\ Forall (fun v => isfinite v = false) zy.
Proof. exact label_solve_max_zero_kappa. Qed.
Print Assumptions C12_zero_kappa_not_finite.

Theorem C12_additive_cost_partial :
  forall xi y g h lam k,
    0 < lam -> 0 < k -> length g = length xi -> length h = length y ->
    exists zx zy,
      nlc_solve_max (PFin 2) 2 (KFin k) xi (Some y) (vscal (/ lam) g) (Some (vscal (/ lam) h)) = Ok (zx, Some (map Fin zy)) /\
      forall wx wy, length wx = length xi -> length wy = length y ->
        dot g (vsub wx xi) + dot h (vsub wy y) - lam * (sqnorm (vsub xi wx) + k * sqnorm (vsub y wy))
        <= dot g (vsub zx xi) + dot h (vsub zy y) - lam * (sqnorm (vsub xi zx) + k * sqnorm (vsub y zy)).
Proof. exact nlc_solve_max_additive. Qed.
Print Assumptions C12_additive_cost_partial.

(* With labels, only the exponent 2 at power 2 has the closed form; other costs raise. *)
Theorem C12_other_costs :
  forall p power k xi y rhs ry,
    ~ (p = PFin 2 /\ power = 2) -> nlc_solve_max p power k xi y rhs ry = Raise NotImplementedError.
Proof.
  intros p power k xi y rhs ry H. pose proof (C11_other_costs p power xi y rhs ry H) as N. unfold nlc_solve_max.
  destruct y as [y|], ry as [r|]; try (rewrite N; reflexivity).
  unfold nc_solve_max in N. destruct (nexp_is_2 p && Reqb 2 power)%bool; [discriminate|reflexivity].
Qed.
Print Assumptions C12_other_costs.

Example C12_case : 0 < 1 /\ 0 < 10 /\ length [1; 2] = length [0; 0] /\ length [1] = length [0].
Proof. repeat split; lra. Qed.

(* ---------- concrete cases of the theorems above, one each ---------- *)
Example C06_transport_cost_case : nc_value PInfty (3 / 2) [1; 2] [1; 2] = 0 /\ 0 < nc_value PInfty (3 / 2) [1; 2] [1; 5].
Proof.
  assert (T : transport_cost (3 / 2) (nc_value PInfty (3 / 2))) by (apply C06_transport_cost; [exact I|lra]).
  split; [apply (tc_zero _ _ T); reflexivity|]. destruct (tc_nonneg _ _ T [1; 2] [1; 5] eq_refl) as [H|H]; [exact H|].
  symmetry in H. apply (tc_zero _ _ T) in H; [|reflexivity]. injection H as H. lra.
Qed.
Example C06_usual_norms_case : pnorm (PFin 1) [3; -4] = 7 /\ pnorm (PFin 2) [3; -4] = 5 /\ pnorm PInfty [3; -4] = 4.
Proof.
  destruct (C06_usual_norms [3; -4]) as (A & B & C & D). rewrite A, B. split; [simpl; rewrite (Rabs_right 3), (Rabs_left (-4)) by lra; lra|]. split.
  - simpl. replace (3 * 3 + (-4 * -4 + 0)) with (5 * 5) by ring. apply sqrt_square. lra.
  - destruct D as (a & Ha & E); [discriminate|]. pose proof (C (-4) (or_intror (or_introl eq_refl))) as L. rewrite (Rabs_left (-4)) in L by lra.
    rewrite E in L. rewrite E. destruct Ha as [<-|[<-|[]]]; [rewrite Rabs_right in L by lra; lra|rewrite Rabs_left by lra; lra].
Qed.
Example C06_power_zero_case : nc_value (PFin 2) 0 [1] [1] = 1 /\ nc_value (PFin 2) 0 [1] [7] = 1.
Proof. split; apply C06_power_zero. Qed.
Example C07_triangle_case : nc_value (PFin 3) 1 [0; 0] [1; 2] <= nc_value (PFin 3) 1 [0; 0] [5; 5] + nc_value (PFin 3) 1 [5; 5] [1; 2].
Proof. apply C07_triangle; simpl; try reflexivity. lra. Qed.
Example C07_square_relaxed_case : nc_value (PFin 2) 2 [0] [2] <= 2 * (nc_value (PFin 2) 2 [0] [1] + nc_value (PFin 2) 2 [1] [2]).
Proof. apply C07_square_relaxed; simpl; try reflexivity. lra. Qed.
Example C07_power_relaxed_case : nc_value PInfty 3 [0] [2] <= Rpower 2 (3 - 1) * (nc_value PInfty 3 [0] [1] + nc_value PInfty 3 [1] [2]).
Proof. apply C07_power_relaxed; simpl; try reflexivity; try exact I. lra. Qed.
Example C07_labelled_triangle_case : exists c12 c23 c13,
  nlc_value (PFin 1) 1 (KFin 2) [0] [1] (Some [0]) (Some [1]) = Ok c12 /\ nlc_value (PFin 1) 1 (KFin 2) [1] [3] (Some [1]) (Some [0]) = Ok c23 /\
  nlc_value (PFin 1) 1 (KFin 2) [0] [3] (Some [0]) (Some [0]) = Ok c13 /\ c13 <= c12 + c23.
Proof.
  destruct (C08_between (PFin 1) 1 2 [0] [1] [0] [1]) as (a & A & _); try lra. destruct (C08_between (PFin 1) 1 2 [1] [3] [1] [0]) as (b & B & _); try lra.
  destruct (C08_between (PFin 1) 1 2 [0] [3] [0] [0]) as (c & C & _); try lra. exists a, b, c. split; [exact A|]. split; [exact B|]. split; [exact C|].
  refine (C07_labelled_triangle _ _ _ _ _ _ _ _ _ _ _ _ _ _ _ _ _ A B C); try reflexivity; simpl; lra.
Qed.
Example C08_between_case : exists v, nlc_value PInfty 2 (KFin (1 / 3)) [0; 1] [4; 1] (Some [1]) (Some [2]) = Ok v /\
  Rmin (nc_value PInfty 2 [0; 1] [4; 1]) (nc_value PInfty 2 [1] [2]) <= v <= Rmax (nc_value PInfty 2 [0; 1] [4; 1]) (nc_value PInfty 2 [1] [2]).
Proof. apply C08_between; lra. Qed.
Example C08_limits_case : nlc_value (PFin 2) 2 KInf [0; 1] [4; 4] (Some [0]) (Some [1]) = Ok 1 /\ nlc_value (PFin 2) 2 (KFin 0) [0; 1] [4; 4] (Some [0]) (Some [1]) = Ok 25.
Proof.
  destruct (C08_limits (PFin 2) 2 [0; 1] [4; 4] [0] [1]) as (_ & A & B); [lra|].
  split; [refine (eq_trans A _)|refine (eq_trans B _)]; rewrite nc_value_22; unfold sqnorm, dot, vsub; simpl; f_equal; ring.
Qed.
Example C08_errors_case : nlc_value (PFin 2) 2 (KFin 1) [0] [1] (Some [0]) None = Raise AssertionError /\ nlc_init_ok (KFin (-1)) = false.
Proof. split; [apply C08_errors; auto|]. apply (C08_errors (PFin 2) 2 (KFin 1) [0] [1] None None). lra. Qed.
Example C09_features_ignored_case : nlc_value (PFin 1) 1 KInf [0] [1] (Some [0]) (Some [3]) = nlc_value (PFin 1) 1 KInf [0] [1000000] (Some [0]) (Some [3]).
Proof. apply C09_features_ignored. Qed.
Example C10_same_labels_case : nlc_value (PFin 2) 2 (KFin 1) [0] [4] (Some [7]) (Some [7]) = Ok 4.
Proof.
  refine (eq_trans (C10_same_labels _ _ _ _ _ _ _ _) _); try lra. rewrite nc_value_22. f_equal. unfold sqnorm, dot, vsub; simpl.
  replace (Rpower (/ (1 + 1)) 2) with ((/ (1 + 1)) ^ 2) by (rewrite <- Rpower_pow by lra; f_equal; simpl; ring). field.
Qed.
Example C10_shrinks_case : exists v, nlc_value (PFin 2) 2 (KFin 100000000) [0; 1] [1; 1] (Some [0]) (Some [0]) = Ok v /\ 0 < v < nc_value (PFin 2) 2 [0; 1] [1; 1].
Proof. apply C10_shrinks; try reflexivity; try (simpl; lra). intros H. injection H. lra. Qed.
Example C11_optimal_case : exists z, nc_solve_max (PFin 2) 2 [1; 1] (Some [5]) (vscal (/ 3) [6; 0]) None = Ok (z, Some [5]) /\
  unique_argmax 2 (fun w => dot [6; 0] (vsub w [1; 1]) - 3 * nc_value (PFin 2) 2 [1; 1] w) z.
Proof. apply (C11_optimal [1; 1]); [lra|reflexivity]. Qed.
Example C11_other_costs_case : nc_solve_max PInfty 2 [1] None [1] None = Raise NotImplementedError.
Proof. apply C11_other_costs. intros [H _]. discriminate. Qed.
Example C12_zero_kappa_not_finite_case : exists zx zy, nlc_solve_max (PFin 2) 2 (KFin 0) [1] (Some [2]) [3] (Some [4]) = Ok (zx, Some zy) /\ zy <> [] /\ Forall (fun v => isfinite v = false) zy.
Proof. apply C12_zero_kappa_not_finite; [discriminate|reflexivity]. Qed.
Example C12_additive_cost_partial_case : exists zx zy,
  nlc_solve_max (PFin 2) 2 (KFin 10) [0; 0] (Some [0]) (vscal (/ 2) [1; 2]) (Some (vscal (/ 2) [1])) = Ok (zx, Some (map Fin zy)) /\
  dot [1; 2] (vsub [1; 1] [0; 0]) + dot [1] (vsub [1] [0]) - 2 * (sqnorm (vsub [0; 0] [1; 1]) + 10 * sqnorm (vsub [0] [1]))
  <= dot [1; 2] (vsub zx [0; 0]) + dot [1] (vsub zy [0]) - 2 * (sqnorm (vsub [0; 0] zx) + 10 * sqnorm (vsub [0] zy)).
Proof.
  destruct (C12_additive_cost_partial [0; 0] [0] [1; 2] [1] 2 10) as (zx & zy & E & H); try reflexivity; try lra. exists zx, zy. split; [exact E|]. apply H; reflexivity.
Qed.
Example C12_other_costs_case : nlc_solve_max (PFin 1) 2 (KFin 1) [1] (Some [2]) [3] (Some [4]) = Raise NotImplementedError.
Proof. apply C12_other_costs. intros [H _]. injection H. lra. Qed.
