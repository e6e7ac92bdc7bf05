(* C138: how the radius moves the portfolio of the dedicated solver (examples/builtin_models/portfolio.py:56-60: concentrated for small
   radii, equally divided over a critical radius). *)
From Coq Require Import Reals List Lra Lia Arith.
From Verif Require Import PyBase RList XReal Costs_Model Costs_Spec Costs_Proofs Transport_Spec Transport_Proofs DedProg_Model DedProg_Spec DedPf_Proofs PfEqual_Proofs.
Import ListNotations.
Local Open Scope R_scope.

(* specification *)
Definition portfolio (m : nat) (theta : vec) : Prop := length theta = m /\ rsum theta = 1 /\ Forall (fun t => 0 <= t) theta.
(* the solver, without side constraints, may return theta and tau *)
Definition chosen (m : nat) (p : nexp) (eta alpha rho : R) (samples : list vec) (theta : vec) (tau : R) : Prop :=
  exists lam s gamma, pf_feasible m (pf_default_C m) pf_default_d p eta alpha samples theta tau lam s gamma /\
    forall theta' tau' lam' s' gamma', pf_feasible m (pf_default_C m) pf_default_d p eta alpha samples theta' tau' lam' s' gamma' -> pf_objective rho lam s <= pf_objective rho lam' s'.
(* average mean-risk loss plus the radius times the dual norm of the portfolio, as in the example's reference *)
Definition robust_risk (norm : vec -> R) (eta alpha rho : R) (samples : list vec) (theta : vec) (tau : R) : R :=
  rmean (map (mean_risk eta alpha theta tau) samples) + rho * (1 + eta / alpha) * norm theta.

(* Without constraints on the returns the solver minimises the average mean-risk loss plus rho (1 + eta/alpha) times the dual norm. *)
Theorem C138_what_is_minimised : forall m p eta alpha rho samples theta tau, valid_exp p -> 0 <= eta -> 0 < alpha -> 0 <= rho -> samples <> [] ->
  (chosen m p eta alpha rho samples theta tau <->
   portfolio m theta /\ forall theta' tau', portfolio m theta' ->
     robust_risk (pnorm (pf_q p)) eta alpha rho samples theta tau <= robust_risk (pnorm (pf_q p)) eta alpha rho samples theta' tau').
Proof.
  intros m p eta alpha rho samples theta tau Vp He Ha Hr Hn.
  assert (E : forall t u, robust_risk (pnorm (pf_q p)) eta alpha rho samples t u = pf_value p eta alpha rho samples t u) by (intros; unfold robust_risk, pf_value; ring).
  split.
  - intros (lam & s & gamma & F & Opt). pose proof F as (T1 & T2 & _ & T3 & _). split; [split; auto|]. intros theta' tau' (U1 & U2 & U3). rewrite !E.
    destruct (proj2 (pf_value_exact m p eta alpha rho samples theta' tau' _ Vp He Ha Hr Hn U1 U2 U3) (Rle_refl _)) as (lam' & s' & gamma' & F' & O').
    specialize (Opt _ _ _ _ _ F'). assert (pf_value p eta alpha rho samples theta tau <= pf_objective rho lam s).
    { apply (pf_value_exact m p eta alpha rho samples theta tau); auto. exists lam, s, gamma. split; [exact F|apply Rle_refl]. }
    lra.
  - intros [(T1 & T2 & T3) Opt]. destruct (proj2 (pf_value_exact m p eta alpha rho samples theta tau _ Vp He Ha Hr Hn T1 T2 T3) (Rle_refl _)) as (lam & s & gamma & F & O).
    exists lam, s, gamma. split; [exact F|]. intros theta' tau' lam' s' gamma' F'. pose proof F' as (U1 & U2 & _ & U3 & _). specialize (Opt theta' tau' (conj U1 (conj U2 U3))). rewrite !E in Opt.
    assert (pf_value p eta alpha rho samples theta' tau' <= pf_objective rho lam' s').
    { apply (pf_value_exact m p eta alpha rho samples theta' tau'); auto. exists lam', s', gamma'. split; [exact F'|apply Rle_refl]. }
    lra.
Qed.
Print Assumptions C138_what_is_minimised.

(* The critical radius of the default cost: when the returns are at most B in absolute value and the radius exceeds 2 m B, the solver
   returns the equal weights and nothing else; at 2 m B they are already as good as any other portfolio, for every threshold. *)
Theorem C138_equal_weights : forall m eta alpha rho samples B, 0 <= eta -> 0 < alpha -> samples <> [] -> 0 <= B ->
  Forall (Forall (fun a => Rabs a <= B)) samples ->
  (2 * INR m * B < rho -> forall theta tau, chosen m (PFin 1) eta alpha rho samples theta tau -> forall j, (j < m)%nat -> nth j theta 0 = 1 / INR m) /\
  (2 * INR m * B <= rho -> forall theta tau, chosen m (PFin 1) eta alpha rho samples theta tau -> chosen m (PFin 1) eta alpha rho samples (repeat (1 / INR m) m) tau).
Proof.
  intros m eta alpha rho samples B He Ha Hn HB Hs. assert (V : valid_exp (PFin 1)) by (cbn; lra). assert (Pm : 0 <= INR m) by apply pos_INR.
  assert (K : 0 <= eta / alpha) by (apply Rmult_le_pos; [exact He|left; apply Rinv_0_lt_compat; exact Ha]).
  assert (E : forall t u, robust_risk (pnorm (pf_q (PFin 1))) eta alpha rho samples t u = pf_value (PFin 1) eta alpha rho samples t u) by (intros; unfold robust_risk, pf_value; ring).
  split; intros Hr theta tau Ch; assert (R0 : 0 <= rho) by (assert (0 <= 2 * INR m * B) by (apply Rmult_le_pos; lra); lra);
    apply C138_what_is_minimised in Ch; try assumption; destruct Ch as [(T1 & T2 & T3) Opt];
    destruct (equal_gain m eta alpha rho samples theta tau B He Ha Hn HB Hs T1 T2 T3) as (G & Lo & Hm).
  - intros j Hj. assert (U : portfolio m (equal_weights m)) by (split; [unfold equal_weights; apply repeat_length|split; [apply equal_sum; exact Hm|apply equal_nonneg]]).
    pose proof (Opt _ tau U) as O. rewrite !E in O.
    assert (Q : pnorm PInfty theta <= 1 / INR m).
    { destruct (Rle_dec (pnorm PInfty theta) (1 / INR m)) as [H|H]; [exact H|]. exfalso. apply Rnot_le_lt in H.
      assert ((pnorm PInfty theta - 1 / INR m) * (2 * INR m * B - rho) < 0) by nra. nra. }
    rewrite (max_equal m theta T1 T2 Hm Q). unfold equal_weights.  rewrite (nth_indep _ 0 (1 / INR m)) by (rewrite repeat_length; exact Hj). apply nth_repeat.
  - apply C138_what_is_minimised; try assumption. fold (equal_weights m). split; [split; [unfold equal_weights; apply repeat_length|split; [apply equal_sum; exact Hm|apply equal_nonneg]]|].
    intros theta' tau' P'. eapply Rle_trans; [|apply (Opt theta' tau' P')]. rewrite !E.
    assert ((pnorm PInfty theta - 1 / INR m) * (2 * INR m * B - rho) <= 0) by nra. nra.
Qed.
Print Assumptions C138_equal_weights.

(* Small radii, with no risk term: when one asset leads every other in average return by more than the radius, everything goes to it. *)
Theorem C138_concentrated : forall m alpha rho samples j g, 0 < alpha -> 0 <= rho < g -> samples <> [] -> Forall (fun x => length x = m) samples -> (j < m)%nat ->
  (forall i, (i < m)%nat -> i <> j -> rmean (map (fun x => nth i x 0) samples) + g <= rmean (map (fun x => nth j x 0) samples)) ->
  forall theta tau, chosen m (PFin 1) 0 alpha rho samples theta tau -> forall i, (i < m)%nat -> nth i theta 0 = if Nat.eqb i j then 1 else 0.
Proof.
  intros m alpha rho samples j g Ha Hr Hn Hs Hj Hg theta tau Ch. assert (V : valid_exp (PFin 1)) by (cbn; lra).
  apply C138_what_is_minimised in Ch; try assumption; try lra. destruct Ch as [(T1 & T2 & T3) Opt].
  assert (E : forall t u, robust_risk (pnorm (pf_q (PFin 1))) 0 alpha rho samples t u = pf_value (PFin 1) 0 alpha rho samples t u) by (intros; unfold robust_risk, pf_value; ring).
  destruct (all_in_ok m j Hj) as (L1 & S1 & F1 & _). pose proof (Opt (all_in m j) tau (conj L1 (conj S1 F1))) as O. rewrite !E in O.
  pose proof (concentrate m alpha rho samples theta tau j g Ha (proj1 Hr) Hn Hs Hj Hg T1 T2 T3) as C.
  assert (J : 1 <= nth j theta 0) by nra.
  assert (Z : forall l, Forall (fun t => 0 <= t) l -> forall k, (k < length l)%nat -> nth k l 0 <= rsum l /\ forall i, (i < length l)%nat -> i <> k -> nth i l 0 + nth k l 0 <= rsum l).
  { clear. induction 1 as [|a l Ha F IH]; intros k Hk; [cbn in Hk; lia|]. assert (Sn : 0 <= rsum l) by (clear -F; induction F; cbn; lra). destruct k as [|k].
    - cbn. split; [lra|]. intros i Hi Q. destruct i as [|i]; [contradiction|]. cbn. cbn in Hi. destruct (IH i ltac:(lia)) as [B _]. lra.
    - cbn [length] in Hk. destruct (IH k ltac:(lia)) as [B1 B2]. cbn [nth rsum]. split; [lra|]. intros i Hi Q. destruct i as [|i]; [cbn; lra|]. cbn [nth]. cbn in Hi. specialize (B2 i ltac:(lia) ltac:(lia)). lra. }
  intros i Hi. destruct (Z theta T3 j ltac:(lia)) as [B1 B2]. rewrite T2 in *. destruct (Nat.eqb_spec i j) as [->|Q]; [lra|]. specialize (B2 i ltac:(lia) Q).
  assert (0 <= nth i theta 0) by (rewrite Forall_forall in T3; apply T3; apply nth_In; lia). lra.
Qed.
Print Assumptions C138_concentrated.

(* With the exponent 2 there is no critical radius: for two assets and one observation the equal weights are never returned. *)
Theorem C138_no_critical_radius_refuted : exists m samples, samples <> [] /\ (0 < m)%nat /\ Forall (fun x => length x = m) samples /\
  forall rho, 0 <= rho -> forall tau, ~ chosen m (PFin 2) 0 1 rho samples (repeat (1 / INR m) m) tau.
Proof.
  exists 2%nat, [[1; 0]]. split; [discriminate|]. split; [lia|]. split; [repeat constructor|]. intros rho Hr tau Ch. assert (V : valid_exp (PFin 2)) by (cbn; lra).
  apply C138_what_is_minimised in Ch; try assumption; try lra; [|discriminate]. destruct Ch as [_ Opt].
  assert (Q : pf_q (PFin 2) = PFin 2). { unfold pf_q. destruct (Reqb 2 1) eqn:E; [apply Reqb_true in E; lra|]. f_equal. field. }
  set (t := / (2 * (rho + 1))). assert (Ht : 0 < t <= 1 / 2).
  { unfold t. split; [apply Rinv_0_lt_compat; lra|]. replace (1 / 2) with (/ 2) by lra. apply Rinv_le_contravar; lra. }
  assert (Hrt : 2 * rho * t <= 1). { assert (X : (rho + 1) * t * 2 = 1) by (unfold t; field; lra). nra. }
  specialize (Opt [1 / 2 + t; 1 / 2 - t] tau). rewrite Q in Opt. unfold robust_risk in Opt. rewrite !pnorm_2 in Opt. unfold norm2, sqnorm, dot, mean_risk, rmean, dot in Opt. cbn [map map2 rsum repeat INR length] in Opt.
  assert (Pt : portfolio 2 [1 / 2 + t; 1 / 2 - t]) by (split; [reflexivity|split; [cbn; lra|constructor; [lra|constructor; [lra|constructor]]]]); specialize (Opt Pt).
  match type of Opt with _ + rho * _ * sqrt ?a <= _ + rho * _ * sqrt ?b => set (A := a) in *; set (B := b) in * end.
  assert (EA : A = 1 / 2) by (unfold A; field). assert (EB : B = 1 / 2 + 2 * (t * t)) by (unfold B; field). 
  assert (SA : 7 / 10 <= sqrt A). { rewrite EA. replace (7 / 10) with (sqrt ((7 / 10) * (7 / 10))) by (apply sqrt_square; lra). apply sqrt_le_1; lra. }
  assert (SB : sqrt B <= sqrt A + 3 / 2 * (t * t)).
  { clearbody A B t. clear - EA EB SA. assert (T : 0 <= t * t) by nra. apply Rsqr_incr_0_var; [|lra]. rewrite Rsqr_sqrt by lra.
    assert (E : sqrt A * sqrt A = A) by (apply sqrt_sqrt; lra). unfold Rsqr. set (r := sqrt A) in *. set (q := t * t) in *.
    replace ((r + 3 / 2 * q) * (r + 3 / 2 * q)) with (r * r + 3 * (r * q) + 9 / 4 * (q * q)) by field. assert (7 / 10 * q <= r * q) by nra. nra. }
  assert (rho * (1 + 0 / 1) * sqrt B <= rho * (1 + 0 / 1) * sqrt A + rho * (3 / 2 * (t * t))) by (replace (1 + 0 / 1) with 1 by lra; nra).
  assert (rho * (t * t) <= t / 2) by nra. lra.
Qed.
Print Assumptions C138_no_critical_radius_refuted.

(* With the exponent infinity the radius has no say: the portfolios returned are the same for every radius. *)
Theorem C138_radius_ignored : forall m eta alpha rho rho' samples theta tau, 0 <= eta -> 0 < alpha -> 0 <= rho -> 0 <= rho' -> samples <> [] ->
  chosen m PInfty eta alpha rho samples theta tau -> chosen m PInfty eta alpha rho' samples theta tau.
Proof.
  intros m eta alpha rho rho' samples theta tau He Ha Hr Hr' Hn Ch. assert (V : valid_exp PInfty) by exact I.
  apply C138_what_is_minimised in Ch; try assumption. apply C138_what_is_minimised; try assumption. destruct Ch as [P Opt]. split; [exact P|].
  assert (Q : pf_q PInfty = PFin 1) by (cbn; f_equal; field). rewrite Q in *.
  assert (N : forall t, portfolio m t -> pnorm (PFin 1) t = 1).
  { intros t (_ & S & F). rewrite pnorm_1, <- S. clear S. induction F as [|a l Ha' F IH]; cbn; [reflexivity|]. rewrite IH, Rabs_pos_eq by exact Ha'. reflexivity. }
  intros theta' tau' P'. specialize (Opt theta' tau' P'). unfold robust_risk in *. rewrite !N in * by assumption. lra.
Qed.
Print Assumptions C138_radius_ignored.

(* non-vacuity: two assets observed at returns (1, 0); B = 1 and m = 2, so the equal weights win beyond radius 4, and the first asset
   takes everything below radius 1 *)
Example C138_equal_weights_case : chosen 2 (PFin 1) 0 1 5 [[1; 0]] [1 / 2; 1 / 2] 0.
Proof.
  apply C138_what_is_minimised; try lra; [cbn; lra|discriminate|]. split; [split; [reflexivity|split; [cbn; lra|repeat constructor; lra]]|].
  intros theta tau (L & S & F). destruct theta as [|a [|b [|]]]; try discriminate. cbn in S. inversion F as [|? ? Fa F']; subst. inversion F' as [|? ? Fb _]; subst.
  rewrite q_one. unfold robust_risk, mean_risk, rmean, dot. cbn. rewrite !(Rabs_pos_eq a), !(Rabs_pos_eq b), !(Rabs_pos_eq (1 / 2)) by lra.
  rewrite (Rmax_left (1 / 2) 0), (Rmax_left (1 / 2)), (Rmax_left b 0) by lra. pose proof (Rmax_l a b). pose proof (Rmax_r a b). lra.
Qed.
Example C138_concentrated_case : chosen 2 (PFin 1) 0 1 (1 / 2) [[1; 0]] [1; 0] 0.
Proof.
  apply C138_what_is_minimised; try lra; [cbn; lra|discriminate|]. split; [split; [reflexivity|split; [cbn; lra|repeat constructor; lra]]|].
  intros theta tau (L & S & F). destruct theta as [|a [|b [|]]]; try discriminate. cbn in S. inversion F as [|? ? Fa F']; subst. inversion F' as [|? ? Fb _]; subst.
  rewrite q_one. unfold robust_risk, mean_risk, rmean, dot. cbn. rewrite !(Rabs_pos_eq a), !(Rabs_pos_eq b), Rabs_R1, Rabs_R0 by lra.
  rewrite (Rmax_left 0 0), (Rmax_left 1 0), (Rmax_left b 0) by lra. pose proof (Rmax_l a b). lra.
Qed.
Example C138_radius_ignored_case : chosen 1 PInfty 0 1 3 [[1]] [1] 0.
Proof.
  apply C138_what_is_minimised; try lra; [exact I|discriminate|]. split; [split; [reflexivity|split; [cbn; lra|repeat constructor; lra]]|].
  intros theta tau (L & S & F). destruct theta as [|a [|]]; try discriminate. cbn in S. assert (a = 1) by lra. subst. unfold robust_risk, mean_risk, rmean, dot. cbn [map map2 rsum length]. lra.
Qed.
