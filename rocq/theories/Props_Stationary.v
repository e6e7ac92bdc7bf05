(* C115: the gradient of the robust objective in the multiplier and the parameters; stationary points are robust optima. *)
From Coq Require Import Reals List Bool ZArith String Arith Lra Lia Psatz.
From Verif Require Import PyBase RList XReal LogMeanExp Dual_Model Dual_Spec Dual_Proofs Dual2_Proofs DualMinimax_Proofs Props_Dual2 Gradient Stationary_Proofs.
Import ListNotations.
Local Open Scope R_scope.
Local Notation length := List.length.

(* The gradient in (lam, parameters): the budget left by the Gibbs adversary, and the average of the samples' gradients under it. *)
Theorem C115_gradient {P} (L : vec -> P -> R) cost displace lp lpr n (rows : list (row P)) rho lam eps p t g A G (F : R -> vec -> R) :
  batch_ok n rows -> 0 < rho -> 0 < eps ->
  (forall r z, In r rows -> In z (r_zeta r) -> is_gradient (fun t => L t z) t (g z)) ->
  gibbs_adversary (L t) cost eps lam rows A -> averaged P (length t) A rows g G ->
  (forall l t', length t' = length t -> is_value (L t') cost displace lp lpr n rows rho l eps p (F l t')) ->
  is_gradient (fun v => F (hd 0 v) (tl v)) (lam :: t) ((Rpower rho p - adv_mean cost A rows) :: G).
Proof.
  intros Hb Hr He Hg HA HG HF. rewrite (gibbs_unique (L t) cost eps lam rows A _ HA (gibbs_is (L t) cost eps lam n rows Hb)) in *.
  apply (gradient_ext (fun v => objective P (L (tl v)) cost rho (hd 0 v) eps p rows)); [|apply (joint_gradient P L cost n rows rho lam eps p t g G); assumption].
  intros [|l t'] Ly; [discriminate|]. cbn [hd tl]. symmetry.
  apply (value_iff (L t') cost displace lp lpr n rows rho l eps p); auto.
Qed.
Print Assumptions C115_gradient.

Lemma map2_app' {A B C} (f : A -> B -> C) a b a' b' : length a = length b -> map2 f (a ++ a') (b ++ b') = map2 f a b ++ map2 f a' b'.
Proof. revert b. induction a as [|x a IH]; intros [|y b] E; try discriminate; [reflexivity|]. cbn. rewrite IH by (injection E; auto). reflexivity. Qed.

(* first-order conditions of min over lam >= 0 and the parameters *)
Definition stationary {P} (cost : P -> P -> R) rho p (rows : list (row P)) (d : nat) (g : P -> vec) lam A : Prop :=
  0 <= lam /\ adv_mean cost A rows <= Rpower rho p /\ lam * (Rpower rho p - adv_mean cost A rows) = 0 /\
  forall h, length h = d -> adv_mean (fun _ z => dot (g z) h) A rows = 0.

Lemma gibbs_adv {P} (loss : P -> R) cost eps lam n rows A : batch_ok n rows -> gibbs_adversary loss cost eps lam rows A -> adversary n A rows.
Proof.
  intros Hb HA. rewrite (gibbs_unique loss cost eps lam rows A _ HA (gibbs_is loss cost eps lam n rows Hb)).
  rewrite (map_ext _ (best P loss cost eps lam)) by (intros r; apply gibbs_best). apply best_adversary; exact Hb.
Qed.
Lemma gibbs_value {P} (loss : P -> R) cost displace lp lpr n rows rho eps p lam A v : batch_ok n rows -> 0 < rho -> 0 < eps -> gibbs_adversary loss cost eps lam rows A ->
  is_value loss cost displace lp lpr n rows rho lam eps p v ->
  v = adv_mean (fun _ z => loss z) A rows - eps * adv_entropy A + lam * (Rpower rho p - adv_mean cost A rows).
Proof.
  intros Hb Hr He HA Hv. rewrite value_iff in Hv by assumption. rewrite (gibbs_unique loss cost eps lam rows A _ HA (gibbs_is loss cost eps lam n rows Hb)).
  rewrite (map_ext _ (best P loss cost eps lam)) by (intros r; apply gibbs_best).
  pose proof (best_attains P loss cost n eps lam rows Hb He) as H. unfold penalised in H. unfold objective in Hv. lra.
Qed.

(* With convex losses, a stationary point is a saddle point: its Gibbs adversary is the worst one within the budget, and no other
   parameters do better against it. Hence it has the least worst case of all parameters, and the least objective. *)
Theorem C115_stationary {P} (L : vec -> P -> R) cost displace lp lpr n (rows : list (row P)) rho lam eps p t g A (F : R -> vec -> R) :
  batch_ok n rows -> 0 < rho -> 0 < eps ->
  (forall r z, In r rows -> In z (r_zeta r) -> is_gradient (fun t => L t z) t (g z) /\ convex_on (length t) (fun t => L t z)) ->
  gibbs_adversary (L t) cost eps lam rows A -> stationary cost rho p rows (length t) g lam A ->
  (forall l t', length t' = length t -> is_value (L t') cost displace lp lpr n rows rho l eps p (F l t')) ->
  (adversary n A rows /\ adv_mean cost A rows <= Rpower rho p /\ adv_mean (fun _ z => L t z) A rows - eps * adv_entropy A = F lam t) /\
  (forall A', adversary n A' rows -> adv_mean cost A' rows <= Rpower rho p -> adv_mean (fun _ z => L t z) A' rows - eps * adv_entropy A' <= F lam t) /\
  (forall t', length t' = length t -> adv_mean (fun _ z => L t z) A rows <= adv_mean (fun _ z => L t' z) A rows) /\
  (forall l t', 0 <= l -> length t' = length t -> F lam t <= F l t').
Proof.
  intros Hb Hr He Hg HA (Hl & Hc & Hs & H0) HF.
  pose proof (gibbs_adv (L t) cost eps lam n rows A Hb HA) as Adv.
  pose proof (gibbs_value (L t) cost displace lp lpr n rows rho eps p lam A (F lam t) Hb Hr He HA (HF lam t eq_refl)) as V.
  assert (Min : forall t', length t' = length t -> adv_mean (fun _ z => L t z) A rows <= adv_mean (fun _ z => L t' z) A rows).
  { intros t' Lt. assert (Z : averaged P (length t) A rows g (vscal 0 t)).
    { split; [unfold vec in *; apply vscal_length|]. intros h Lh. rewrite dot_vscal0. symmetry. apply H0; exact Lh. }
    pose proof (adv_gradient L t g _ A rows (proj1 Adv) (fun r z a b => proj1 (Hg r z a b)) Z) as GA.
    pose proof (convex_above _ t _ t' (adv_convex L (length t) n A rows Adv (fun r z a b => proj2 (Hg r z a b))) GA Lt) as Q. cbn beta in Q. rewrite dot_vscal0 in Q. lra. }
  assert (Wk : forall l t' A', 0 <= l -> length t' = length t -> adversary n A' rows -> adv_mean cost A' rows <= Rpower rho p -> adv_mean (fun _ z => L t' z) A' rows - eps * adv_entropy A' <= F l t').
  { intros l t' A' Hl' Lt HA' Hc'. destruct (weak_duality P (L t') cost displace lp lpr n rows rho l eps p A' Hb Hr He Hl' HA' Hc') as (v & Ev & Bv).
    pose proof (HF l t' Lt) as Q. unfold is_value in Q. rewrite Q in Ev. inversion Ev; subst v. exact Bv. }
  split; [split; [exact Adv|split; [exact Hc|lra]]|]. split; [intros A' HA' Hc'; apply Wk; auto|]. split; [exact Min|].
  intros l t' Hl' Lt. specialize (Wk l t' A Hl' Lt Adv Hc). specialize (Min t' Lt). lra.
Qed.
Print Assumptions C115_stationary.

(* Conversely every minimiser is stationary, convex or not. *)
Theorem C115_necessary {P} (L : vec -> P -> R) cost displace lp lpr n (rows : list (row P)) rho lam eps p t g A (F : R -> vec -> R) :
  batch_ok n rows -> 0 < rho -> 0 < eps -> 0 <= lam ->
  (forall r z, In r rows -> In z (r_zeta r) -> is_gradient (fun t => L t z) t (g z)) ->
  gibbs_adversary (L t) cost eps lam rows A ->
  (forall l t', length t' = length t -> is_value (L t') cost displace lp lpr n rows rho l eps p (F l t')) ->
  (forall l t', 0 <= l -> length t' = length t -> F lam t <= F l t') -> stationary cost rho p rows (length t) g lam A.
Proof.
  intros Hb Hr He Hl Hg HA HF HM.
  destruct (C109_best P (L t) cost displace lp lpr n rows rho lam eps p A (fun l => F l t) Hb Hr He Hl (fun l => HF l t eq_refl) (fun l Hl' => HM l t Hl' eq_refl) HA) as [B1 B2].
  split; [exact Hl|]. split; [exact B1|]. split; [destruct (Req_dec lam 0) as [->|N]; [ring|]; rewrite B2 by lra; ring|].
  pose proof (gibbs_adv (L t) cost eps lam n rows A Hb HA) as Adv.
  assert (K : exists G, averaged P (length t) A rows g G).
  { exists (combination (length t) (List.concat (map (map (fun w => / INR (length rows) * w)) A)) (List.concat (map (fun r => map g (r_zeta r)) rows))).
    assert (Fl : Forall (fun w => length w = length t) (List.concat (map (fun r => map g (r_zeta r)) rows))).
    { apply Forall_concat, Forall_map, Forall_forall. intros r Hin. apply Forall_map, Forall_forall. intros z Hz. exact (proj1 (Hg r z Hin Hz)). }
    split; [apply combination_length; exact Fl|]. intros h Lh. rewrite dot_combination by assumption.
    destruct Adv as [LA WA]. unfold adv_mean, rmean. rewrite map2_length by exact LA. rewrite LA. unfold Rdiv. rewrite Rmult_comm.
    assert (Lz : Forall (fun r => length (r_zeta r) = n) rows) by apply Hb.
    generalize (/ INR (length rows)) as c. intros c. clear -LA WA Lz. revert rows LA Lz. induction A as [|q A IH]; intros [|r rows] LA Lz; try discriminate; [cbn; ring|].
    inversion Lz as [|? ? Z1 Z2]; inversion WA as [|? ? W1 W2]; subst. cbn [map List.concat map2 rsum]. rewrite map2_app' by (rewrite !map_length; destruct W1 as [E _]; congruence).
    rewrite rsum_app, IH; [|exact W2|injection LA; auto|exact Z2]. rewrite Rmult_plus_distr_l. f_equal.
    rewrite map2_map_l, map2_map_r, <- rsum_map2_scal. f_equal. apply map2_in_length. intros w z _ _. ring. }
  destruct K as (G & HG). pose proof (C115_gradient L cost displace lp lpr n rows rho lam eps p t g A G F Hb Hr He Hg HA HG HF) as J.
  assert (JT : is_gradient (fun t' => F lam t') t G).
  { split; [exact (proj1 HG)|]. intros e Hp. destruct (proj2 J e Hp) as (dl & Hd & Hh). exists dl. split; [exact Hd|]. intros h Lh Nh.
    assert (N0 : norm2 (0 :: h) = norm2 h). { unfold norm2. f_equal. unfold sqnorm, dot. cbn [map2 rsum]. ring. }
    specialize (Hh (0 :: h) ltac:(cbn; unfold vec in *; congruence) ltac:(rewrite N0; exact Nh)). rewrite N0, dot_cons in Hh. cbn [vadd map2 hd tl] in Hh.
    rewrite Rplus_0_r in Hh. replace (F lam (vadd t h) - F lam t - dot G h) with (F lam (map2 Rplus t h) - F lam t - ((Rpower rho p - adv_mean cost A rows) * 0 + dot G h)) by (unfold vadd; ring). exact Hh. }
  pose proof (gradient_at_min (fun t' => F lam t') t G JT (fun t' Lt => HM lam t' Hl Lt)) as EG.
  intros h Lh. rewrite <- (proj2 HG) by exact Lh. rewrite EG. apply dot_vscal0.
Qed.
Print Assumptions C115_necessary.

(* samples 1 and -1 of the point 0, squared distance as loss to the parameter and as cost: stationary at 0 with multiplier 1 *)
Example C115_case :
  let rows := [mkrow 0 [1; -1]] in let L := fun (t : vec) z => (hd 0 t - z) ^ 2 in let cost := fun x z : R => (x - z) ^ 2 in let A := [[1 / 2; 1 / 2]] in
  batch_ok 2 rows /\ gibbs_adversary (L [0]) cost 1 1 rows A /\ stationary cost 1 2 rows 1 (fun z => [2 * (0 - z)]) 1 A /\
  (forall z, is_gradient (fun t => L t z) [0] [2 * (0 - z)]).
Proof.
  cbv zeta. split; [split; [lia|split; [discriminate|repeat constructor]]|]. split; [|split].
  - constructor; [|constructor]. exists 2. cbn [map r_zeta r_xi mkrow hd rsum]. split; [lra|].
    replace (((0 - 1) ^ 2 - 1 * (0 - 1) ^ 2) / 1) with 0 by field. replace (((0 - -1) ^ 2 - 1 * (0 - -1) ^ 2) / 1) with 0 by field. rewrite exp_0. split; [reflexivity|lra].
  - unfold stationary. assert (E : adv_mean (fun x z : R => (x - z) ^ 2) [[1 / 2; 1 / 2]] [mkrow 0 [1; -1]] = 1) by (unfold adv_mean, rmean; cbn; field).
    rewrite E. unfold Rpower. rewrite ln_1, Rmult_0_r, exp_0. split; [lra|]. split; [lra|]. split; [ring|]. intros [|a [|]] Lh; try discriminate. unfold adv_mean, rmean, dot; cbn. field.
  - intros z. apply (gradient_ext (fun t => (dot [1] t + - z - 0) ^ 2 + 0)).
    + intros [|a [|]] Ly; try discriminate. unfold dot; cbn. ring.
    + pose proof (gradient_affine (fun s => (s - 0) ^ 2 + 0) [1] (- z) [0] (2 * (0 - z)) eq_refl) as Q. replace [2 * (0 - z)] with (vscal (2 * (0 - z)) [1]) by (unfold vscal; cbn; f_equal; ring).
      apply Q. replace (dot [1] [0] + - z) with (0 - z) by (unfold dot; cbn; ring).
      pose proof (derivable_pt_lim_pow (0 - z) 2) as D. cbn in D. replace (2 * (0 - z)) with ((1 + 1) * ((0 - z) * 1)) by ring. intros e He. destruct (D e He) as [d Hd]. exists d. intros h H1 H2. specialize (Hd h H1 H2).
      replace ((((0 - z + h) - 0) ^ 2 + 0 - ((0 - z - 0) ^ 2 + 0)) / h) with (((0 - z + h) * ((0 - z + h) * 1) - (0 - z) * ((0 - z) * 1)) / h) by (f_equal; ring). exact Hd.
Qed.
