(* C135: the portfolio programme of the dedicated solver with side constraints on the returns. *)
From Coq Require Import Reals List Lra Lia Arith.
From Verif Require Import PyBase RList XReal Costs_Model Costs_Spec Costs_Proofs Transport_Spec Transport_Proofs DedProg_Model DedProg_Spec DedPfC_Proofs.
Import ListNotations.
Local Open Scope R_scope.

(* For every polyhedron containing the observed returns, every norm and every radius >= 0, the best feasible value for a portfolio and
   a threshold is its worst case over the returns of the polyhedron. *)
Theorem C135_exact : forall m C dv p eta alpha rho samples theta tau c, valid_exp p -> 0 <= eta -> 0 < alpha -> 0 <= rho -> samples <> [] ->
  Forall (fun r => length r = m) C -> length dv = length C -> Forall (fun x => in_polyhedron m C dv x x) samples ->
  length theta = m -> rsum theta = 1 -> Forall (fun t => 0 <= t) theta ->
  (pf_worst_le (pnorm p) m C dv eta alpha rho samples theta tau c <->
   exists lam s gamma, pf_feasible m C dv p eta alpha samples theta tau lam s gamma /\ pf_objective rho lam s <= c).
Proof. exact pf_exact. Qed.
Print Assumptions C135_exact.

(* Hence the portfolio and threshold of an optimal point have the smallest worst case of all portfolios and thresholds, and the optimal
   value is that worst case. *)
Theorem C135_solution_is_robust : forall m C dv p eta alpha rho samples theta tau lam s gamma, valid_exp p -> 0 <= eta -> 0 < alpha -> 0 <= rho -> samples <> [] ->
  Forall (fun r => length r = m) C -> length dv = length C -> Forall (fun x => in_polyhedron m C dv x x) samples ->
  pf_feasible m C dv p eta alpha samples theta tau lam s gamma ->
  (forall theta' tau' lam' s' gamma', pf_feasible m C dv p eta alpha samples theta' tau' lam' s' gamma' -> pf_objective rho lam s <= pf_objective rho lam' s') ->
  (forall c, pf_worst_le (pnorm p) m C dv eta alpha rho samples theta tau c <-> pf_objective rho lam s <= c) /\
  (forall theta' tau' c, length theta' = m -> rsum theta' = 1 -> Forall (fun t => 0 <= t) theta' ->
     pf_worst_le (pnorm p) m C dv eta alpha rho samples theta' tau' c -> pf_worst_le (pnorm p) m C dv eta alpha rho samples theta tau c).
Proof.
  intros m C dv p eta alpha rho samples theta tau lam s gamma Vp He Ha Hr Hn HC Hd Hs F Opt. pose proof F as (T1 & T2 & _ & T3 & _).
  assert (E : forall c, pf_worst_le (pnorm p) m C dv eta alpha rho samples theta tau c <-> pf_objective rho lam s <= c).
  { intros c. rewrite C135_exact by assumption. split.
    - intros (lam' & s' & gamma' & F' & B). specialize (Opt _ _ _ _ _ F'). lra.
    - intros B. exists lam, s, gamma. auto. }
  split; [exact E|]. intros theta' tau' c L1 L2 L3 W. apply E. apply C135_exact in W; [|assumption..]. destruct W as (lam' & s' & gamma' & F' & B). specialize (Opt _ _ _ _ _ F'). lra.
Qed.
Print Assumptions C135_solution_is_robust.

(* The constraints only ever lower the worst case: fewer returns are allowed. *)
Theorem C135_constraints_help : forall m C dv c0 d0 p eta alpha rho samples theta tau lam s gamma, valid_exp p -> 0 <= eta -> 0 < alpha -> 0 <= rho -> samples <> [] ->
  Forall (fun r => length r = m) (c0 :: C) -> length (d0 :: dv) = length (c0 :: C) -> Forall (fun x => in_polyhedron m (c0 :: C) (d0 :: dv) x x) samples ->
  pf_feasible m C dv p eta alpha samples theta tau lam s gamma ->
  exists lam' s' gamma', pf_feasible m (c0 :: C) (d0 :: dv) p eta alpha samples theta tau lam' s' gamma' /\ pf_objective rho lam' s' <= pf_objective rho lam s.
Proof.
  intros m C dv c0 d0 p eta alpha rho samples theta tau lam s gamma Vp He Ha Hr Hn HC Hd Hs F. pose proof F as (T1 & T2 & _ & T3 & _).
  assert (Hs' : Forall (fun x => in_polyhedron m C dv x x) samples).
  { eapply Forall_impl; [|exact Hs]. intros x [L P]. split; [exact L|]. inversion P; assumption. }
  apply (C135_exact m (c0 :: C) (d0 :: dv) p eta alpha rho samples theta tau (pf_objective rho lam s)); try assumption.
  assert (W : pf_worst_le (pnorm p) m C dv eta alpha rho samples theta tau (pf_objective rho lam s)).
  { apply C135_exact; try assumption; [inversion HC; assumption|injection Hd; auto|]. exists lam, s, gamma. split; [exact F|apply Rle_refl]. }
  intros q (Q1 & Q2 & Q3). apply W. split; [exact Q1|]. split; [|exact Q3]. eapply Forall_impl; [|exact Q2]. intros [x l] [A B]. split; [|exact B].
  eapply Forall_impl; [|exact A]. cbn. intros [w y] [Hw [Ly Py]]. split; [exact Hw|]. split; [exact Ly|]. inversion Py; assumption.
Qed.
Print Assumptions C135_constraints_help.

(* non-vacuity: one asset with returns at least -1, observed return 0, radius 5 (more than the distance to the boundary): the worst
   case is the loss 3 at the boundary; without the constraint it would be 15 *)
Lemma one_q : pf_q (PFin 1) = PInfty.
Proof. unfold pf_q. destruct (Reqb 1 1) eqn:E; [reflexivity|apply Reqb_false in E; lra]. Qed.
Lemma half2 : 1 / (1 / 2) = 2.
Proof. lra. Qed.
Lemma one_asset_feasible : pf_feasible 1 [[-1]] [1] (PFin 1) 1 (1 / 2) [[0]] [1] 0 0 [3] [([1], [3])].
Proof.
  split; [reflexivity|]. split; [cbn; lra|]. split; [lra|]. split; [repeat constructor; lra|]. split; [reflexivity|]. split; [reflexivity|].
  constructor; [|constructor]. unfold pf_row. cbn [fst snd List.combine]. rewrite one_q. unfold pf_a, pf_b, vsub, vscal, vadd, tmatvec, matvec, dot. cbn. rewrite ?half2.
  split; (split; [reflexivity|]); (split; [lra|]); (split; [|repeat constructor; lra]).
  all: match goal with |- Rmax (Rabs ?z) 0 <= _ => replace z with 0 by lra end; rewrite Rabs_R0, Rmax_left; lra.
Qed.
Lemma one_asset_poly : Forall (fun x => in_polyhedron 1 [[-1]] [1] x x) [[0]].
Proof. constructor; [|constructor]. split; [reflexivity|]. constructor; [unfold dot; cbn; lra|constructor]. Qed.
Example C135_exact_case : forall c, pf_worst_le (pnorm (PFin 1)) 1 [[-1]] [1] 1 (1 / 2) 5 [[0]] [1] 0 c <-> 3 <= c.
Proof.
  intros c. split.
  - intros W. apply C135_exact in W; try lra; try discriminate; try reflexivity; try (cbn; lra); try exact one_asset_poly; try (repeat constructor; cbn; lra).
    destruct W as (lam & s & gamma & (_ & _ & Hl & _ & Ls & Lg & F) & O). destruct s as [|s1 [|]]; try discriminate. destruct gamma as [|[g0 g1] [|]]; try discriminate.
    cbn [List.combine] in F. apply Forall_inv in F. destruct F as [_ (B1 & B2 & B3 & B4)]. cbn [fst snd] in *. destruct g1 as [|x1 [|]]; try discriminate. rewrite one_q in B3.
    unfold pf_a, pf_b, vsub, vscal, vadd, tmatvec, matvec, dot in *. cbn in B2, B3. rewrite ?half2 in *. apply Forall_inv in B4. unfold pf_objective in O. cbn in O.
    match type of B3 with Rmax (Rabs ?z) 0 <= _ => pose proof (Rmax_l (Rabs z) 0); pose proof (Rle_abs z) as M end. lra.
  - intros H. apply C135_exact; try lra; try discriminate; try reflexivity; try (cbn; lra); try exact one_asset_poly; try (repeat constructor; cbn; lra).
    exists 0, [3], [([1], [3])]. split; [exact one_asset_feasible|]. unfold pf_objective. cbn. lra.
Qed.
Example C135_solution_is_robust_case : pf_feasible 1 [[-1]] [1] (PFin 1) 0 1 [[0]] [1] 0 0 [1] [([1], [1])] /\
  (forall c, pf_worst_le (pnorm (PFin 1)) 1 [[-1]] [1] 0 1 5 [[0]] [1] 0 c <-> pf_objective 5 0 [1] <= c).
Proof.
  assert (F : pf_feasible 1 [[-1]] [1] (PFin 1) 0 1 [[0]] [1] 0 0 [1] [([1], [1])]).
  { split; [reflexivity|]. split; [cbn; lra|]. split; [lra|]. split; [repeat constructor; lra|]. split; [reflexivity|]. split; [reflexivity|].
    constructor; [|constructor]. unfold pf_row. cbn [fst snd List.combine]. rewrite one_q. unfold pf_a, pf_b, vsub, vscal, vadd, tmatvec, matvec, dot. cbn. rewrite ?half2.
    split; (split; [reflexivity|]); (split; [lra|]); (split; [|repeat constructor; lra]); match goal with |- Rmax (Rabs ?z) 0 <= _ => replace z with 0 by lra end; rewrite Rabs_R0, Rmax_left; lra. }
  split; [exact F|]. eapply (C135_solution_is_robust 1 [[-1]] [1] (PFin 1) 0 1 5 [[0]] [1] 0 0 [1] [([1], [1])]); try lra; try discriminate; try reflexivity; try (cbn; lra); try exact one_asset_poly; try (repeat constructor; cbn; lra); [exact F|].
  intros theta tau lam s gamma (T1 & T2 & Hl & _ & Ls & Lg & G). destruct theta as [|t [|]]; try discriminate. cbn in T2. assert (t = 1) by lra. subst t.
  destruct s as [|s1 [|]]; try discriminate. destruct gamma as [|[g0 g1] [|]]; try discriminate. cbn [List.combine] in G. apply Forall_inv in G. destruct G as [_ (B1 & B2 & B3 & B4)]. cbn [fst snd] in *.
  destruct g1 as [|x1 [|]]; try discriminate. rewrite one_q in B3. unfold pf_a, pf_b, vsub, vscal, vadd, tmatvec, matvec, dot in *. cbn in B2, B3. rewrite ?half2 in *. apply Forall_inv in B4. unfold pf_objective. cbn.
  match type of B3 with Rmax (Rabs ?z) 0 <= _ => pose proof (Rmax_l (Rabs z) 0); pose proof (Rle_abs z) as M end. lra.
Qed.
Example C135_constraints_help_case : exists lam s gamma, pf_feasible 1 [[1]; [-1]] [2; 1] (PFin 1) 1 (1 / 2) [[0]] [1] 0 lam s gamma /\ pf_objective 5 lam s <= 3.
Proof.
  assert (P : Forall (fun x => in_polyhedron 1 [[1]; [-1]] [2; 1] x x) [[0]]).
  { constructor; [|constructor]. split; [reflexivity|]. constructor; [unfold dot; cbn; lra|]. constructor; [unfold dot; cbn; lra|constructor]. }
  assert (V : valid_exp (PFin 1)) by (cbn; lra).
  destruct (C135_constraints_help 1 [[-1]] [1] [1] 2 (PFin 1) 1 (1 / 2) 5 [[0]] [1] 0 0 [3] [([1], [3])] V) as (lam & s & gamma & F & B);
    [lra|lra|lra|discriminate|repeat constructor|reflexivity|exact P|exact one_asset_feasible|].
  exists lam, s, gamma. split; [exact F|]. eapply Rle_trans; [exact B|]. unfold pf_objective. cbn. lra.
Qed.
