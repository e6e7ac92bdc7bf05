(* C141: the cost and samplers written in the tutorials. *)
From Coq Require Import Reals List Lra Lia Arith Bool.
From Verif Require Import PyBase RList XReal TutoCost_Model.
Import ListNotations.
Local Open Scope R_scope.

(* specification: the cost the tutorial displays, and the expected number of features that change sign *)
Definition displayed_cost (xi zeta : vec) : xr := if Rlt_dec 0 (dot xi zeta) then Fin (- ln (dot xi zeta)) else PInf.
Definition unit_vector (x : vec) : Prop := dot x x = 1.
Fixpoint flips (x z : vec) : R := match x, z with a :: x', b :: z' => (if Req_EM_T b (- a) then 1 else 0) + flips x' z' | _, _ => 0 end.
Definition expected_flips (p : R) (x : vec) : R := rsum (map (fun d => snd d * flips x (mixed_features x (fst d))) (bernoulli_draws p (length x))).

(* Calling the cost on any point always raises, with labels or without: the second argument given is the perturbed point, the second parameter of the
   tutorial's method the labels. *)
Theorem C141_call_raises : forall xi zeta xi_labels zeta_labels, cost_forward tuto_value xi (Some zeta) xi_labels zeta_labels = Raise AssertionError.
Proof. reflexivity. Qed.
Print Assumptions C141_call_raises.
Theorem C141_call_refuted : exists xi, xi = [[1; 0]; [0; 1]] /\ Forall unit_vector xi /\ cost_forward tuto_value (Some xi) (Some xi) None None = Raise AssertionError.
Proof. exists [[1; 0]; [0; 1]]. split; [reflexivity|]. split; [constructor; [|constructor; [|constructor]]; unfold unit_vector, dot; cbn; lra|reflexivity]. Qed.
Print Assumptions C141_call_refuted.

(* With the parameters in the order of the library: several points at once raise; for one point the result is the displayed cost when
   the points are in the same open half-space, and 0 instead of infinity otherwise. *)
Theorem C141_right_order : let value xi zeta xi_labels zeta_labels := tuto_value xi xi_labels zeta zeta_labels in
  (forall xi zeta, length (scalar_prods xi zeta) <> 1%nat -> cost_forward value (Some xi) (Some zeta) None None = Raise RuntimeError) /\
  (forall xi zeta, exists c, cost_forward value (Some [xi]) (Some [zeta]) None None = Ok [c] /\
     (displayed_cost xi zeta = Fin c \/ displayed_cost xi zeta = PInf /\ c = 0)) /\
  (forall xi zetas, (2 <= length zetas)%nat -> cost_forward value (Some [xi]) (Some zetas) None None = Raise RuntimeError).
Proof.
  cbv zeta. assert (G : forall xi zeta, length (scalar_prods xi zeta) <> 1%nat -> cost_forward (fun xi zeta xi_labels zeta_labels => tuto_value xi xi_labels zeta zeta_labels) (Some xi) (Some zeta) None None = Raise RuntimeError).
  { intros xi zeta H. unfold cost_forward, tuto_value. destruct (scalar_prods xi zeta) as [|s [|]]; try reflexivity. exfalso. apply H. reflexivity. }
  split; [exact G|]. split.
  - intros xi zeta. unfold cost_forward, tuto_value, scalar_prods, displayed_cost. cbn. destruct (Rlt_dec 0 (dot xi zeta)) as [H|H].
    + rewrite (proj2 (Rleb_false (dot xi zeta) 0) H). rewrite Rmax_left by lra. eexists. split; [reflexivity|left; reflexivity].
    + rewrite (proj2 (Rleb_true (dot xi zeta) 0)) by lra. exists 0. split; [reflexivity|right; split; reflexivity].
  - intros xi zetas H. apply G. unfold scalar_prods. cbn [length]. rewrite Nat.div_1_r, map2_length.
    + assert (E : forall n, length (concat (repeat [xi] n)) = n) by (induction n; cbn; auto). rewrite E. lia.
    + assert (E : forall n, length (concat (repeat [xi] n)) = n) by (induction n; cbn; auto). apply E.
Qed.
Print Assumptions C141_right_order.

Lemma sq_sign s : s <> 0 -> tsign s * tsign s = 1.
Proof. intros H. unfold tsign. destruct (Rltb 0 s) eqn:A; [lra|]. destruct (Rltb s 0) eqn:B; [lra|]. apply Rltb_false in A, B. lra. Qed.
Lemma sign_abs s : tsign (- s) * s = - Rabs s.
Proof.
  unfold tsign. destruct (Rltb 0 (- s)) eqn:A; [apply Rltb_true in A; rewrite Rabs_left by lra; ring|]. apply Rltb_false in A.
  destruct (Rltb (- s) 0) eqn:B; [apply Rltb_true in B; rewrite Rabs_pos_eq by lra; ring|]. apply Rltb_false in B. assert (s = 0) by lra. subst. rewrite Rabs_R0. ring.
Qed.
Lemma sum_sq_scal c l : rsum (map sqnorm (map (vscal c) l)) = c * c * rsum (map sqnorm l).
Proof. induction l as [|x l IH]; cbn [map rsum]; [ring|]. rewrite IH, sqnorm_vscal. ring. Qed.
Lemma sum_dot_scal c cs l : rsum (map2 dot cs (map (vscal c) l)) = c * rsum (map2 dot cs l).
Proof. revert l. induction cs as [|x cs IH]; intros [|y l]; cbn [map map2 rsum]; try ring. rewrite IH, dot_vscal_r. ring. Qed.

(* What the sampler draws, for a batch of centers: the squared norms of all its points add up to 1, and so do not lie on the sphere, and
   the scalar products with the centers add up to minus an absolute value. *)
Theorem C141_half_sphere : forall center noise, rsum (map2 dot center noise) <> 0 -> rsum (map sqnorm noise) <> 0 ->
  exists zeta, half_sphere center noise = Some zeta /\ length zeta = length noise /\ rsum (map sqnorm zeta) = 1 /\
    rsum (map2 dot center zeta) = - (Rabs (rsum (map2 dot center noise)) / sqrt (rsum (map sqnorm noise))).
Proof.
  intros center noise Hs Hn. unfold half_sphere. set (s := rsum (map2 dot center noise)) in *. set (N := rsum (map sqnorm noise)) in *. assert (P : 0 < N) by (assert (0 <= N) by (apply rsum_map_nonneg; intros; apply sqnorm_nonneg); lra).
  rewrite sum_sq_scal, sq_sign by lra. fold N. rewrite Rmult_1_l. assert (Q : 0 < sqrt N) by (apply sqrt_lt_R0; exact P). destruct (Reqb (sqrt N) 0) eqn:E; [apply Reqb_true in E; lra|].
  eexists. split; [reflexivity|]. split; [rewrite !map_length; reflexivity|]. split.
  - rewrite !sum_sq_scal, sq_sign by lra. fold N. replace (/ sqrt N * / sqrt N * (1 * N)) with (N / (sqrt N * sqrt N)) by (field; lra). rewrite sqrt_sqrt by lra. field. lra.
  - rewrite !sum_dot_scal. fold s. rewrite sign_abs. field. lra.
Qed.
Print Assumptions C141_half_sphere.

(* One center: the draw is on the sphere but in the opposite half-space; it is nan when the noise is orthogonal to the center. *)
Theorem C141_one_center : forall c g, sqnorm g <> 0 ->
  (dot c g <> 0 -> exists z, half_sphere [c] [g] = Some [z] /\ unit_vector z /\ dot c z < 0) /\ (dot c g = 0 -> half_sphere [c] [g] = None).
Proof.
  intros c g Hg. split; intros Hd.
  - destruct (C141_half_sphere [c] [g]) as (zeta & E & L & S & D); [cbn; lra|cbn; lra|]. destruct zeta as [|z [|]]; try discriminate. cbn in S, D. exists z. split; [exact E|]. split; [unfold unit_vector; fold (sqnorm z); lra|].
    assert (0 < Rabs (dot c g + 0) / sqrt (sqnorm g + 0)); [|lra]. apply Rmult_lt_0_compat; [apply Rabs_pos_lt; lra|]. apply Rinv_0_lt_compat, sqrt_lt_R0. pose proof (sqnorm_nonneg g). lra.
  - unfold half_sphere. cbn [map2 rsum map]. rewrite Hd. assert (T : tsign (- (0 + 0)) = 0) by (unfold tsign; rewrite !(proj2 (Rltb_false _ _)) by lra; reflexivity). rewrite T. rewrite sqnorm_vscal. replace (0 * 0 * sqnorm g + 0) with 0 by ring. rewrite sqrt_0.
    destruct (Reqb 0 0) eqn:E; [reflexivity|]. exfalso. unfold Reqb in E. destruct (Req_EM_T 0 0); [discriminate|contradiction].
Qed.
Print Assumptions C141_one_center.

(* Two or more nonzero points are all strictly inside the sphere. *)
Theorem C141_batch_inside : forall center noise zeta, half_sphere center noise = Some zeta -> Forall (fun g => sqnorm g <> 0) noise -> (2 <= length noise)%nat ->
  Forall (fun z => sqnorm z < 1) zeta.
Proof.
  intros center noise zeta E F L. assert (Hs : tsign (- rsum (map2 dot center noise)) <> 0).
  { intros Z. unfold half_sphere in E. rewrite Z, sum_sq_scal in E. replace (0 * 0 * rsum (map sqnorm noise)) with 0 in E by ring. rewrite sqrt_0 in E. unfold Reqb in E. destruct (Req_EM_T 0 0); [discriminate|contradiction]. }
  assert (S0 : rsum (map2 dot center noise) <> 0). { intros Z. apply Hs. unfold tsign. rewrite Z, !(proj2 (Rltb_false _ _)) by lra. reflexivity. }
  assert (N0 : rsum (map sqnorm noise) <> 0).
  { destruct noise as [|g noise]; [cbn in L; lia|]. inversion F; subst. cbn. pose proof (sqnorm_nonneg g). assert (0 <= rsum (map sqnorm noise)) by (apply rsum_map_nonneg; intros; apply sqnorm_nonneg). lra. }
  destruct (C141_half_sphere center noise S0 N0) as (zeta' & E' & L' & S & _). rewrite E in E'. injection E' as <-.
  assert (P : Forall (fun z => 0 < sqnorm z) zeta).
  { unfold half_sphere in E. destruct (Reqb _ 0) eqn:Q; [discriminate|]. injection E as <-. rewrite Forall_map, Forall_map. eapply Forall_impl; [|exact F]. intros g Hg. cbn beta. set (nn := sqrt _) in *. apply Rgt_lt.
    assert (Hn : nn <> 0) by (intros Z; rewrite Z in Q; unfold Reqb in Q; destruct (Req_EM_T 0 0); [discriminate|contradiction]). pose proof (sqnorm_nonneg g). rewrite !sqnorm_vscal, sq_sign by lra.
    assert (I : / nn <> 0) by (apply Rinv_neq_0_compat; exact Hn). assert (0 < / nn * / nn) by nra. rewrite Rmult_1_l. apply Rmult_lt_0_compat; lra. }
  rewrite <- L' in L. clear -P S L. rewrite Forall_forall. intros z I. apply in_split in I. destruct I as (a & b & ->). rewrite map_app, rsum_app in S. cbn in S. apply Forall_app in P. destruct P as [Pa Pb]. inversion Pb as [|? ? Pz Pb']; subst.
  assert (Nn : forall l, Forall (fun z => 0 < sqnorm z) l -> 0 <= rsum (map sqnorm l) /\ (l <> [] -> 0 < rsum (map sqnorm l))).
  { induction 1 as [|u l U F [IH _]]; cbn; split; try lra; intros; try contradiction; lra. }
  rewrite app_length in L. cbn in L. destruct (Nn a Pa) as [A1 A2], (Nn b Pb') as [B1 B2]. destruct a as [|u a]; [destruct b as [|v b]; [cbn in L; lia|]; specialize (B2 ltac:(discriminate)); lra|]. specialize (A2 ltac:(discriminate)). lra.
Qed.
Print Assumptions C141_batch_inside.

(* So the draws around a unit center never average to it: the average of any number of them has a negative product with it. *)
Theorem C141_expectation_refuted : exists c, unit_vector c /\ forall gs zs, gs <> [] -> Forall (fun g => dot c g <> 0) gs -> map (fun g => half_sphere [c] [g]) gs = map (fun z => Some [z]) zs ->
  rmean (map (dot c) zs) < 0 < dot c c.
Proof.
  exists [1]. split; [unfold unit_vector, dot; cbn; lra|]. intros gs zs Hn F E. split; [|unfold dot; cbn; lra].
  assert (P : Forall (fun z => dot [1] z < 0) zs).
  { clear Hn. revert zs E. induction F as [|g gs Hg F IH]; intros [|z zs] E; try discriminate; [constructor|]. injection E as E1 E2. constructor; [|apply IH; exact E2].
    assert (G : sqnorm g <> 0). { intros Z. apply Hg. apply sqnorm_zero in Z. destruct Z as [|a l -> Z]; unfold dot; cbn; [reflexivity|]. destruct l; cbn; ring. }
    destruct (C141_one_center [1] g G) as [K _]. destruct (K Hg) as (z' & E' & _ & D). rewrite E1 in E'. injection E' as <-. exact D. }
  assert (Lz : zs <> []) by (intros ->; destruct gs; [contradiction|discriminate]).
  unfold rmean. rewrite map_length. assert (0 < / INR (length zs)) by (apply Rinv_0_lt_compat, INR_length_pos; exact Lz).
  assert (rsum (map (dot [1]) zs) < 0). { destruct P as [|z zs Hz P]; [contradiction|]. cbn [map rsum]. assert (rsum (map (dot [1]) zs) <= 0); [|lra]. clear -P. induction P; cbn [map rsum]; lra. }
  unfold Rdiv. nra.
Qed.
Print Assumptions C141_expectation_refuted.

Lemma draws_total p n : rsum (map snd (bernoulli_draws p n)) = 1.
Proof.
  induction n as [|n IH]; cbn; [ring|]. rewrite map_app, rsum_app, !map_map. cbn. rewrite !(rsum_map_scal _ snd), IH. ring.
Qed.
(* Mixed features: the expected number of discrete features that change sign is (1 - p) times their number, p being documented as the
   probability of a switch. *)
Theorem C141_mixed_features : forall p x, Forall (fun a => a <> 0) x -> expected_flips p x = (1 - p) * INR (length x).
Proof.
  intros p x F. unfold expected_flips. induction F as [|a x Ha F IH]; [cbn; ring|]. cbn [length bernoulli_draws]. rewrite map_app, rsum_app, !map_map. cbn [fst snd].
  assert (T : forall d, flips (a :: x) (mixed_features (a :: x) (true :: d)) = flips x (mixed_features x d)).
  { intros d. cbn. destruct (Req_EM_T (- a + 2 * a * 1) (- a)); [exfalso; apply Ha; lra|apply Rplus_0_l]. }
  assert (Fl : forall d, flips (a :: x) (mixed_features (a :: x) (false :: d)) = 1 + flips x (mixed_features x d)).
  { intros d. cbn. destruct (Req_EM_T (- a + 2 * a * 0) (- a)); [reflexivity|exfalso; lra]. }
  rewrite (map_ext _ (fun d => p * (snd d * flips x (mixed_features x (fst d))))) by (intros; rewrite T; ring).
  rewrite (map_ext (fun d : list bool * R => (1 - p) * snd d * flips (a :: x) (mixed_features (a :: x) (false :: fst d))) (fun d => (1 - p) * snd d + (1 - p) * (snd d * flips x (mixed_features x (fst d))))) by (intros; rewrite Fl; ring).
  rewrite rsum_map_plus, !(rsum_map_scal _ (fun d => snd d * flips x (mixed_features x (fst d)))), (rsum_map_scal _ snd), draws_total, IH, S_INR. ring.
Qed.
Print Assumptions C141_mixed_features.
Theorem C141_mixed_features_refuted : exists p x, 0 <= p <= 1 /\ Forall (fun a => a = 1 \/ a = -1) x /\ expected_flips p x <> p * INR (length x).
Proof.
  exists (1 / 10), [1; -1]. split; [lra|]. split; [constructor; [lra|constructor; [lra|constructor]]|]. rewrite C141_mixed_features by (constructor; [lra|constructor; [lra|constructor]]). cbn. lra.
Qed.
Print Assumptions C141_mixed_features_refuted.

(* non-vacuity *)
Example C141_case : half_sphere [[1; 0]] [[3; 4]] = Some [[- (3 / 5); - (4 / 5)]].
Proof.
  assert (T : tsign (- rsum (map2 dot [[1; 0]] [[3; 4]])) = -1) by (unfold tsign, dot; cbn [map2 rsum]; rewrite (proj2 (Rltb_false _ _)) by lra; rewrite (proj2 (Rltb_true _ _)) by lra; reflexivity).
  unfold half_sphere. rewrite T. unfold sqnorm, dot, vscal. cbn [map map2 rsum]. replace (-1 * 3 * (-1 * 3) + (-1 * 4 * (-1 * 4) + 0) + 0) with (5 * 5) by ring. rewrite sqrt_square by lra.
  destruct (Reqb 5 0) eqn:E; [apply Reqb_true in E; lra|]. replace (/ 5 * (-1 * 3)) with (- (3 / 5)) by field. replace (/ 5 * (-1 * 4)) with (- (4 / 5)) by field. reflexivity.
Qed.
