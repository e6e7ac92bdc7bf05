(* C155: the best multiplier. When it exists, that there is one only, how it moves with the radius, what it measures and where it lies. *)
From Coq Require Import Reals Bool String List Lra Lia Psatz.
From Verif Require Import PyBase RList XReal LogMeanExp Dual_Model Dual_Spec Dual_Proofs DualMinimax_Proofs Dual2_Proofs EpsStudy_Model EpsStudy_Proofs Multiplier_Proofs Props_Dual2 Props_Stationary.
Import ListNotations.
Local Open Scope R_scope.

Section Best.
Context {P : Type}.
Variable loss : P -> R.
Variable cost : P -> P -> R.
Variable displace : list (row P) -> Result (list (P * list P)).
Variable lp : P -> P -> R.
Variable lpr : P -> P -> P -> R.
Variables (n : nat) (rows : list (row P)) (eps p : R).
Notation value rho lam v := (is_value loss cost displace lp lpr n rows rho lam eps p v).
(* the smallest value over the multipliers that are not negative *)
Definition best_at (rho lam v : R) : Prop := 0 <= lam /\ value rho lam v /\ forall l w, 0 <= l -> value rho l w -> v <= w.
(* some datum has two samples at different costs *)
Definition costs_differ : Prop := exists r z z', In r rows /\ In z (r_zeta r) /\ In z' (r_zeta r) /\ cost (r_xi r) z <> cost (r_xi r) z'.

Lemma best_objective rho lam v : batch_ok n rows -> 0 < rho -> 0 < eps -> best_at rho lam v ->
  0 <= lam /\ v = objective P loss cost rho lam eps p rows /\ forall l, 0 <= l -> objective P loss cost rho lam eps p rows <= objective P loss cost rho l eps p rows.
Proof.
  intros Hb Hr He (L & V & M). rewrite value_iff in V by assumption. split; [exact L|]. split; [exact V|]. intros l Hl. rewrite <- V. apply (M l); [exact Hl|]. apply value_iff; auto.
Qed.
Lemma objective_best rho lam : batch_ok n rows -> 0 < rho -> 0 < eps -> 0 <= lam -> (forall l, 0 <= l -> objective P loss cost rho lam eps p rows <= objective P loss cost rho l eps p rows) ->
  best_at rho lam (objective P loss cost rho lam eps p rows).
Proof. intros Hb Hr He L M. split; [exact L|]. split; [apply value_iff; auto|]. intros l w Hl W. rewrite value_iff in W by assumption. rewrite W. apply M. exact Hl. Qed.
Lemma gibbs_slope rho lam A : batch_ok n rows -> gibbs_adversary loss cost eps lam rows A -> slope P loss cost rho p eps lam rows = Rpower rho p - adv_mean cost A rows.
Proof.
  intros Hb HA. rewrite (gibbs_unique loss cost eps lam rows A _ HA (gibbs_is loss cost eps lam n rows Hb)). unfold slope, adv_mean. rewrite map2_map_l, map2_same. reflexivity.
Qed.

(* Strict convexity in the multiplier. *)
Theorem C155_strictly_convex : forall rho a b t va vb v, batch_ok n rows -> 0 < rho -> 0 < eps -> costs_differ -> a <> b -> 0 < t < 1 ->
  value rho a va -> value rho b vb -> value rho (t * a + (1 - t) * b) v -> v < t * va + (1 - t) * vb.
Proof.
  intros rho a b t va vb v Hb Hr He Sp N Ht. rewrite !value_iff by assumption. intros -> -> ->. apply (objective_strict P loss cost n); assumption.
Qed.
(* At most one multiplier is best ... *)
Theorem C155_unique : forall rho lam lam' v v', batch_ok n rows -> 0 < rho -> 0 < eps -> costs_differ -> best_at rho lam v -> best_at rho lam' v' -> lam = lam'.
Proof.
  intros rho lam lam' v v' Hb Hr He Sp B B'. destruct (best_objective rho lam v Hb Hr He B) as (L & _ & M). destruct (best_objective rho lam' v' Hb Hr He B') as (L' & _ & M').
  destruct (Req_dec lam lam') as [E|N]; [exact E|]. exfalso.
  pose proof (objective_strict P loss cost n rows rho eps p lam lam' (/ 2) Hb He Sp N ltac:(lra)) as S. pose proof (M lam' L'). pose proof (M (/ 2 * lam + (1 - / 2) * lam') ltac:(lra)). pose proof (M' lam L). lra.
Qed.
(* ... a larger multiplier makes the Gibbs adversary spend strictly less ... *)
Theorem C155_spending : forall a b A B, batch_ok n rows -> 0 < eps -> costs_differ -> a < b -> gibbs_adversary loss cost eps a rows A -> gibbs_adversary loss cost eps b rows B ->
  adv_mean cost B rows < adv_mean cost A rows.
Proof.
  intros a b A B Hb He Sp Lt HA HB.
  pose proof (proj2 (objective_tangent P loss cost n rows 1 eps p a b Hb He) Sp ltac:(lra)) as T1. pose proof (proj2 (objective_tangent P loss cost n rows 1 eps p b a Hb He) Sp ltac:(lra)) as T2.
  rewrite (gibbs_slope 1 a A Hb HA) in T1. rewrite (gibbs_slope 1 b B Hb HB) in T2. nra.
Qed.
(* ... and one is best exactly when some weighting of the samples costs less than the budget. *)
Theorem C155_exists_iff : forall rho, batch_ok n rows -> 0 < rho -> 0 < eps -> costs_differ ->
  ((exists lam v, best_at rho lam v) <-> exists A, adversary n A rows /\ adv_mean cost A rows < Rpower rho p).
Proof.
  intros rho Hb Hr He Sp. split.
  - intros (lam & v & B). destruct (best_objective rho lam v Hb Hr He B) as (L & _ & M).
    set (A := map (gibbs P loss cost eps lam) rows). set (A' := map (gibbs P loss cost eps (lam + 1)) rows).
    pose proof (gibbs_is loss cost eps lam n rows Hb) as GA. fold A in GA. pose proof (gibbs_is loss cost eps (lam + 1) n rows Hb) as GA'. fold A' in GA'.
    exists A'. split; [apply (gibbs_adv loss cost eps (lam + 1)); assumption|].
    destruct (C109_best P loss cost displace lp lpr n rows rho lam eps p A (fun l => objective P loss cost rho l eps p rows) Hb Hr He L) as [Sp1 _]; [intros l; apply value_iff; auto|exact M|exact GA|].
    pose proof (C155_spending lam (lam + 1) A A' Hb He Sp ltac:(lra) GA GA'). lra.
  - intros (A & HA & Hc). destruct (minimiser_exists P loss cost n rows rho eps p A Hb He HA Hc) as (lam & L & M). exists lam, (objective P loss cost rho lam eps p rows). apply objective_best; assumption.
Qed.
(* If every datum has all its samples at one cost (one sample each, say), the objective is affine: with a cheaper average only 0 is best, with a dearer one nothing is, and when they are equal every multiplier is best. *)
Theorem C155_one_cost : forall rho (K : row P -> R), batch_ok n rows -> 0 < rho -> 0 < eps -> (forall r z, In r rows -> In z (r_zeta r) -> cost (r_xi r) z = K r) ->
  (forall lam v v0, value rho lam v -> value rho 0 v0 -> v = v0 + lam * (Rpower rho p - rmean (map K rows))) /\
  (rmean (map K rows) < Rpower rho p -> forall lam, (exists v, best_at rho lam v) <-> lam = 0) /\
  (Rpower rho p < rmean (map K rows) -> forall lam v, ~ best_at rho lam v) /\
  (rmean (map K rows) = Rpower rho p -> forall lam, 0 <= lam -> exists v, best_at rho lam v).
Proof.
  intros rho K Hb Hr He HK. assert (F := fun lam => objective_flat P loss cost n rows rho eps p lam K Hb He HK). set (s := Rpower rho p - rmean (map K rows)) in *.
  split; [|split; [|split]].
  - intros lam v v0. rewrite !value_iff by assumption. intros -> ->. apply F.
  - intros Lt lam. assert (Ps : 0 < s) by (unfold s; lra). split.
    + intros (v & B). destruct (best_objective rho lam v Hb Hr He B) as (L & _ & M). specialize (M 0 (Rle_refl 0)). rewrite (F lam) in M. nra.
    + intros ->. exists (objective P loss cost rho 0 eps p rows). apply objective_best; try assumption; [lra|]. intros l Hl. rewrite (F l). nra.
  - intros Lt lam v B. assert (Ps : s < 0) by (unfold s; lra). destruct (best_objective rho lam v Hb Hr He B) as (L & _ & M). specialize (M (lam + 1) ltac:(lra)). rewrite (F lam), (F (lam + 1)) in M. nra.
  - intros E lam L. assert (Ps : s = 0) by (unfold s; lra). exists (objective P loss cost rho lam eps p rows). apply objective_best; try assumption. intros l Hl. rewrite (F l), (F lam), Ps. lra.
Qed.

(* With a larger radius the best multiplier is not larger, and strictly smaller unless it was 0 already. *)
Lemma objective_radius rho rho' lam : objective P loss cost rho' lam eps p rows = objective P loss cost rho lam eps p rows + lam * (Rpower rho' p - Rpower rho p).
Proof. unfold objective. ring. Qed.
Theorem C155_radius : forall rho rho' lam lam' v v', batch_ok n rows -> 0 < rho < rho' -> 0 < eps -> 0 < p -> best_at rho lam v -> best_at rho' lam' v' ->
  lam' <= lam /\ (0 < lam -> lam' < lam).
Proof.
  intros rho rho' lam lam' v v' Hb Hr He Hp B B'.
  destruct (best_objective rho lam v Hb ltac:(lra) He B) as (L & _ & M). destruct (best_objective rho' lam' v' Hb ltac:(lra) He B') as (L' & _ & M').
  assert (Lt : Rpower rho p < Rpower rho' p) by (apply Rlt_Rpower_l; lra).
  assert (Le : lam' <= lam).
  { specialize (M lam' L'). specialize (M' lam L). rewrite (objective_radius rho rho' lam), (objective_radius rho rho' lam') in M'. nra. }
  split; [exact Le|]. intros Pl. destruct Le as [Le|Le]; [exact Le|]. exfalso. subst lam'.
  pose proof (gibbs_is loss cost eps lam n rows Hb) as GA. set (A := map (gibbs P loss cost eps lam) rows) in *.
  destruct (C109_best P loss cost displace lp lpr n rows rho lam eps p A (fun l => objective P loss cost rho l eps p rows) Hb ltac:(lra) He L) as [_ E1]; [intros l; apply value_iff; auto; lra|exact M|exact GA|].
  destruct (C109_best P loss cost displace lp lpr n rows rho' lam eps p A (fun l => objective P loss cost rho' l eps p rows) Hb ltac:(lra) He L) as [_ E2]; [intros l; apply value_iff; auto; lra|exact M'|exact GA|].
  rewrite (E1 Pl) in E2. specialize (E2 Pl). lra.
Qed.
(* The best multiplier is the price of the radius: by how much the robust value grows with rho ^ p. *)
Theorem C155_price : forall rho rho' lam lam' v v', batch_ok n rows -> 0 < rho -> 0 < rho' -> 0 < eps -> best_at rho lam v -> best_at rho' lam' v' ->
  lam' * (Rpower rho' p - Rpower rho p) <= v' - v <= lam * (Rpower rho' p - Rpower rho p).
Proof.
  intros rho rho' lam lam' v v' Hb Hr Hr' He B B'.
  destruct (best_objective rho lam v Hb Hr He B) as (L & -> & M). destruct (best_objective rho' lam' v' Hb Hr' He B') as (L' & -> & M').
  specialize (M lam' L'). specialize (M' lam L). rewrite (objective_radius rho rho' lam) in M'. rewrite (objective_radius rho rho' lam') in *. lra.
Qed.
(* It lies between 0 and a bound given by any weighting that stays within the budget and any bound on the loss. *)
Theorem C155_bound : forall rho lam v A M, batch_ok n rows -> 0 < rho -> 0 < eps -> best_at rho lam v -> adversary n A rows -> adv_mean cost A rows < Rpower rho p ->
  (forall r z, In r rows -> In z (r_zeta r) -> loss z <= M) ->
  lam <= (M - (adv_mean (fun _ z => loss z) A rows - eps * adv_entropy A)) / (Rpower rho p - adv_mean cost A rows).
Proof.
  intros rho lam v A M Hb Hr He B HA Hc HM. destruct (best_objective rho lam v Hb Hr He B) as (L & _ & Q). specialize (Q 0 (Rle_refl 0)).
  assert (Up : objective P loss cost rho 0 eps p rows <= M).
  { unfold objective. rewrite Rmult_0_l, Rplus_0_l. rewrite <- (rmean_map_const M rows) by apply Hb. apply rmean_map_le. intros r Hin. unfold soft.
    apply softmaximum_bounds; [exact He|exact (pen_ne P loss cost n rows 0 r Hb Hin)|]. intros a Ha. unfold pen in Ha. apply in_map_iff in Ha. destruct Ha as (z & <- & Hz). specialize (HM r z Hin Hz). lra. }
  pose proof (penalised_le P loss cost n lam eps A rows Hb HA He) as Low.
  apply (Rmult_le_reg_r (Rpower rho p - adv_mean cost A rows)); [lra|]. unfold Rdiv. rewrite Rmult_assoc, Rinv_l by lra. unfold objective in *. unfold penalised in Low. lra.
Qed.
End Best.
Print Assumptions C155_strictly_convex.
Print Assumptions C155_unique.
Print Assumptions C155_spending.
Print Assumptions C155_exists_iff.
Print Assumptions C155_one_cost.
Print Assumptions C155_radius.
Print Assumptions C155_price.
Print Assumptions C155_bound.

(* ---------- concrete cases: the two data of [two_rows] with two samples each, squared distance, loss z ^ 2 ---------- *)
Notation bst := (best_at (fun z : R => z * z) dsq no_displace (fun _ _ => 0) (fun _ _ _ => 0) 2 two_rows 1 2).
Lemma two_differ : costs_differ dsq two_rows.
Proof. exists {| r_mean := 2; r_xi := 2; r_zeta := [2; 5] |}, 2, 5. split; [right; left; reflexivity|]. split; [left; reflexivity|]. split; [right; left; reflexivity|]. unfold dsq. cbn. lra. Qed.
Definition stay : list (list R) := [[1; 0]; [1; 0]].
Lemma stay_ok : adversary 2 stay two_rows /\ adv_mean dsq stay two_rows = / 2.
Proof.
  split; [split; [reflexivity|]|unfold adv_mean, stay, two_rows, dsq, rmean; cbn; lra].
  unfold stay. apply Forall_cons; [|apply Forall_cons; [|apply Forall_nil]]; (split; [reflexivity|]); (split; [apply Forall_forall; intros w [<-|[<-|[]]]; lra|cbn; lra]).
Qed.
Lemma sq_radius r : 0 < r -> Rpower r 2 = r * r.
Proof. intros H. replace 2 with (INR 2) by (cbn; lra). rewrite Rpower_pow by exact H. cbn. ring. Qed.
Lemma two_best rho : 1 <= rho -> exists lam v, bst rho lam v.
Proof.
  intros H. apply (C155_exists_iff (fun z : R => z * z) dsq no_displace (fun _ _ => 0) (fun _ _ _ => 0) 2 two_rows 1 2 rho two_rows_ok ltac:(lra) ltac:(lra) two_differ). exists stay. split; [apply stay_ok|]. rewrite (proj2 stay_ok), sq_radius by lra. nra.
Qed.
Example C155_exists_iff_case : (exists lam v, bst 1 lam v) /\ forall lam v, ~ bst (/ 2) lam v.
Proof.
  split; [apply two_best; lra|]. intros lam v B.
  destruct (proj1 (C155_exists_iff (fun z : R => z * z) dsq no_displace (fun _ _ => 0) (fun _ _ _ => 0) 2 two_rows 1 2 (/ 2) two_rows_ok ltac:(lra) ltac:(lra) two_differ) (ex_intro _ lam (ex_intro _ v B))) as (A & (La & HA) & Hc).
  rewrite sq_radius in Hc by lra. destruct A as [|q [|q' [|? ?]]]; try discriminate La. inversion HA as [|? ? W HA']; subst. inversion HA' as [|? ? W' _]; subst.
  destruct W as (L1 & F1 & S1). destruct W' as (L2 & F2 & S2). destruct q as [|a [|b [|? ?]]]; try discriminate L1. destruct q' as [|c [|d [|? ?]]]; try discriminate L2.
  inversion F1 as [|? ? A1 F1']; subst. inversion F1' as [|? ? A2 _]; subst. inversion F2 as [|? ? A3 F2']; subst. inversion F2' as [|? ? A4 _]; subst.
  unfold adv_mean, two_rows, dsq, rmean in Hc. cbn in Hc, S1. cbn in *. lra.
Qed.
Example C155_unique_case : exists lam v, bst 1 lam v /\ forall lam' v', bst 1 lam' v' -> lam = lam'.
Proof. destruct (two_best 1 ltac:(lra)) as (lam & v & B). exists lam, v. split; [exact B|]. intros lam' v' B'. apply (C155_unique (fun z : R => z * z) dsq no_displace (fun _ _ => 0) (fun _ _ _ => 0) 2 two_rows 1 2 1 lam lam' v v' two_rows_ok ltac:(lra) ltac:(lra) two_differ B B'). Qed.
Example C155_strictly_convex_case : forall va vb v, val_at (fun z : R => z * z) two_rows 1 0 1 va -> val_at (fun z : R => z * z) two_rows 1 2 1 vb -> val_at (fun z : R => z * z) two_rows 1 (/ 2 * 0 + (1 - / 2) * 2) 1 v -> v < / 2 * va + (1 - / 2) * vb.
Proof. intros va vb v. apply (C155_strictly_convex (fun z : R => z * z) dsq no_displace (fun _ _ => 0) (fun _ _ _ => 0) 2 two_rows 1 2 1 0 2 (/ 2) va vb v two_rows_ok ltac:(lra) ltac:(lra) two_differ); lra. Qed.
Example C155_spending_case : exists A B, gibbs_adversary (fun z : R => z * z) dsq 1 0 two_rows A /\ gibbs_adversary (fun z : R => z * z) dsq 1 3 two_rows B /\ adv_mean dsq B two_rows < adv_mean dsq A two_rows.
Proof.
  exists (map (gibbs R (fun z => z * z) dsq 1 0) two_rows), (map (gibbs R (fun z => z * z) dsq 1 3) two_rows).
  pose proof (gibbs_is (fun z : R => z * z) dsq 1 0 2 two_rows two_rows_ok) as GA. pose proof (gibbs_is (fun z : R => z * z) dsq 1 3 2 two_rows two_rows_ok) as GB.
  split; [exact GA|]. split; [exact GB|]. apply (C155_spending (fun z : R => z * z) dsq 2 two_rows 1 2 0 3); try assumption; [exact two_rows_ok|lra|exact two_differ|lra].
Qed.
Example C155_radius_case : exists lam lam' v v', bst 1 lam v /\ bst 2 lam' v' /\ lam' <= lam /\ lam' * 3 <= v' - v <= lam * 3.
Proof.
  destruct (two_best 1 ltac:(lra)) as (lam & v & B). destruct (two_best 2 ltac:(lra)) as (lam' & v' & B'). exists lam, lam', v, v'. split; [exact B|]. split; [exact B'|].
  split; [apply (C155_radius (fun z : R => z * z) dsq no_displace (fun _ _ => 0) (fun _ _ _ => 0) 2 two_rows 1 2 1 2 lam lam' v v' two_rows_ok ltac:(lra) ltac:(lra) ltac:(lra) B B')|].
  pose proof (C155_price (fun z : R => z * z) dsq no_displace (fun _ _ => 0) (fun _ _ _ => 0) 2 two_rows 1 2 1 2 lam lam' v v' two_rows_ok ltac:(lra) ltac:(lra) ltac:(lra) B B') as Q. rewrite !sq_radius in Q by lra. lra.
Qed.
Example C155_bound_case : exists lam v, bst 1 lam v /\ lam <= 50 + 2 * adv_entropy stay.
Proof.
  destruct (two_best 1 ltac:(lra)) as (lam & v & B). exists lam, v. split; [exact B|].
  assert (Q : lam <= (25 - (adv_mean (fun _ z => z * z) stay two_rows - 1 * adv_entropy stay)) / (Rpower 1 2 - adv_mean dsq stay two_rows)).
  { apply (C155_bound (fun z : R => z * z) dsq no_displace (fun _ _ => 0) (fun _ _ _ => 0) 2 two_rows 1 2 1 lam v stay 25 two_rows_ok ltac:(lra) ltac:(lra) B); [apply stay_ok| |].
    - rewrite (proj2 stay_ok), sq_radius by lra. lra.
    - intros r z [<-|[<-|[]]]; cbn; intros [<-|[<-|[]]]; lra. }
  rewrite (proj2 stay_ok), sq_radius in Q by lra. unfold adv_mean at 1 in Q. unfold stay at 1, two_rows, rmean in Q. cbn [map2 map rsum length r_xi r_zeta INR] in Q. cbn in Q.
  replace ((25 - ((1 * (1 * 1) + (0 * (-1 * -1) + 0) + (1 * (2 * 2) + (0 * (5 * 5) + 0) + 0)) / (1 + 1) - 1 * adv_entropy stay)) / (1 * 1 - / 2)) with (50 - 5 + 2 * adv_entropy stay) in Q by field. lra.
Qed.
(* one sample per datum: the multiplier of every non-negative size is best when the costs average to the budget *)
Example C155_one_cost_case : let rows := [{| r_mean := 0; r_xi := 0; r_zeta := [1] |}] in
  forall lam, 0 <= lam -> exists v, best_at (fun z : R => z) dsq no_displace (fun _ _ => 0) (fun _ _ _ => 0) 1 rows 1 2 1 lam v.
Proof.
  intros rows lam L.
  apply (C155_one_cost (fun z : R => z) dsq no_displace (fun _ _ => 0) (fun _ _ _ => 0) 1 rows 1 2 1 (fun _ => 1)); try lra.
  - split; [lia|]. split; [discriminate|]. constructor; [reflexivity|constructor].
  - intros r z [<-|[]] [<-|[]]. unfold dsq. cbn. lra.
  - rewrite sq_radius by lra. unfold rmean. cbn. lra.
Qed.
Example C155_price_case : exists lam v v', bst 2 lam v /\ (exists lam', bst 3 lam' v') /\ v' - v <= lam * 5.
Proof.
  destruct (two_best 2 ltac:(lra)) as (lam & v & B). destruct (two_best 3 ltac:(lra)) as (lam' & v' & B'). exists lam, v, v'. split; [exact B|]. split; [exists lam'; exact B'|].
  pose proof (C155_price (fun z : R => z * z) dsq no_displace (fun _ _ => 0) (fun _ _ _ => 0) 2 two_rows 1 2 2 3 lam lam' v v' two_rows_ok ltac:(lra) ltac:(lra) ltac:(lra) B B') as Q. rewrite !sq_radius in Q by lra. lra.
Qed.
