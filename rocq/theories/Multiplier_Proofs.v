(* The robust objective as a function of the multiplier: strictly convex as soon as one datum has two samples at different costs, affine otherwise. *)
From Coq Require Import Reals Bool String List Lra Lia Psatz.
From Verif Require Import PyBase RList XReal LogMeanExp Dual_Model Dual_Spec Dual_Proofs DualMinimax_Proofs Dual2_Proofs EpsStudy_Model EpsStudy_Proofs.
Import ListNotations.
Local Open Scope R_scope.

Lemma rsum_strict {A} (f g : A -> R) l a : (forall x, In x l -> f x <= g x) -> In a l -> f a < g a -> rsum (map f l) < rsum (map g l).
Proof.
  induction l as [|x l IH]; intros H Ha Lt; [contradiction|]. cbn. destruct Ha as [->|Ha].
  - assert (rsum (map f l) <= rsum (map g l)); [|lra]. clear - H. induction l as [|y l IH]; cbn; [lra|].
    assert (f y <= g y) by (apply H; right; left; reflexivity). assert (rsum (map f l) <= rsum (map g l)); [|lra]. apply IH. intros z [->|Hz]; apply H; [left; reflexivity|right; right; exact Hz].
  - assert (f x <= g x) by (apply H; left; reflexivity). assert (rsum (map f l) < rsum (map g l)); [|lra]. apply IH; [|exact Ha|exact Lt]. intros y Hy. apply H. right. exact Hy.
Qed.
Lemma rmean_strict {A} (f g : A -> R) l a : (forall x, In x l -> f x <= g x) -> In a l -> f a < g a -> rmean (map f l) < rmean (map g l).
Proof.
  intros H Ha Lt. unfold rmean. rewrite !map_length. apply Rmult_lt_compat_r; [|apply (rsum_strict f g l a H Ha Lt)].
  apply Rinv_0_lt_compat, lt_0_INR. destruct l; [contradiction|cbn; lia].
Qed.
Lemma exp_strict x : x <> 0 -> 1 + x < exp x.
Proof. intros H. apply exp_ineq1. exact H. Qed.

Section Rows.
Variable P : Type.
Variable loss : P -> R.
Variable cost : P -> P -> R.
Notation soft := (soft P loss cost).
Notation objective := (objective P loss cost).
Notation gmean := (gmean P loss cost).

(* some datum has two samples at different costs *)
Definition spread (rows : list (row P)) : Prop := exists r z z', In r rows /\ In z (r_zeta r) /\ In z' (r_zeta r) /\ cost (r_xi r) z <> cost (r_xi r) z'.

Lemma soft_tangent eps a b r : 0 < eps -> r_zeta r <> [] ->
  soft eps a r - gmean eps a r * (b - a) <= soft eps b r /\
  ((exists z z', In z (r_zeta r) /\ In z' (r_zeta r) /\ cost (r_xi r) z <> cost (r_xi r) z') -> a <> b -> soft eps a r - gmean eps a r * (b - a) < soft eps b r).
Proof.
  intros He Hne. set (c := cost (r_xi r)). set (e := fun l z => exp ((loss z - l * c z) / eps)). set (S := fun l => rsum (map (e l) (r_zeta r))).
  assert (Sp : forall l, 0 < S l).
  { intros l. apply rsum_pos; [apply map_neq_nil; exact Hne|]. apply Forall_forall. intros y Hy. apply in_map_iff in Hy. destruct Hy as [z [<- _]]. apply exp_pos. }
  assert (E : forall l, soft eps l r = eps * (ln (S l) - ln (INR (length (r_zeta r))))).
  { intros l. unfold Dual_Proofs.soft, softmaximum, lme, sumexp, pen, S, e. rewrite !map_length, !map_map. reflexivity. }
  set (m := gmean eps a r). assert (Em : m * S a = rsum (map (fun z => e a z * c z) (r_zeta r))).
  { unfold m, EpsStudy_Proofs.gmean, gibbs. rewrite map2_map_l, map2_same. fold c.
    rewrite (map_ext _ (fun z => / S a * (e a z * c z))) by (intros z; unfold S, e, Rdiv, c; ring). rewrite rsum_map_scal. field. specialize (Sp a). lra. }
  set (x := fun z => - ((b - a) * (c z - m) / eps)).
  assert (Eb : S b = exp (- ((b - a) * m / eps)) * rsum (map (fun z => e a z * exp (x z)) (r_zeta r))).
  { rewrite <- rsum_map_scal. unfold S. f_equal. apply map_ext. intros z. unfold e, x. rewrite <- !exp_plus. f_equal. field. lra. }
  assert (E0 : rsum (map (fun z => e a z * (1 + x z)) (r_zeta r)) = S a).
  { rewrite (map_ext _ (fun z => (1 + (b - a) * m / eps) * e a z + - ((b - a) / eps) * (e a z * c z))) by (intros z; unfold x; field; lra).
    rewrite rsum_map_plus, !rsum_map_scal. fold (S a). rewrite <- Em. field. lra. }
  assert (Le : S a <= rsum (map (fun z => e a z * exp (x z)) (r_zeta r))).
  { rewrite <- E0. apply rsum_map_le. intros z _. apply Rmult_le_compat_l; [left; apply exp_pos|]. destruct (Req_dec (x z) 0) as [->|N]; [rewrite exp_0; lra|left; apply exp_strict; exact N]. }
  assert (Lb : ln (S b) = - ((b - a) * m / eps) + ln (rsum (map (fun z => e a z * exp (x z)) (r_zeta r)))).
  { rewrite Eb, ln_mult; [rewrite ln_exp; reflexivity|apply exp_pos|]. specialize (Sp a). lra. }
  assert (G : soft eps b r - (soft eps a r - m * (b - a)) = eps * (ln (rsum (map (fun z => e a z * exp (x z)) (r_zeta r))) - ln (S a))).
  { rewrite !E, Lb. field. lra. }
  split.
  - destruct Le as [Le|Le].
    + pose proof (ln_increasing _ _ (Sp a) Le). assert (0 < eps * (ln (rsum (map (fun z => e a z * exp (x z)) (r_zeta r))) - ln (S a))) by (apply Rmult_lt_0_compat; lra). lra.
    + rewrite <- Le in G. replace (ln (S a) - ln (S a)) with 0 in G by ring. rewrite Rmult_0_r in G. lra.
  - intros (z & z' & Hz & Hz' & Nc) Nab.
    assert (Q : exists y, In y (r_zeta r) /\ x y <> 0).
    { assert (K : forall y, x y = 0 -> c y = m).
      { intros y Ey. unfold x in Ey. assert (K : (b - a) * (c y - m) = 0). { apply (Rmult_eq_reg_r (/ eps)); [unfold Rdiv in Ey; lra|apply Rinv_neq_0_compat; lra]. }
        apply Rmult_integral in K. destruct K; lra. }
      destruct (Req_dec (x z) 0) as [Z|Z]; [|exists z; auto]. destruct (Req_dec (x z') 0) as [Z'|Z']; [|exists z'; auto].
      exfalso. apply Nc. fold c. rewrite (K z Z), (K z' Z'). reflexivity. }
    destruct Q as (y & Hy & Ny).
    assert (Lt : S a < rsum (map (fun z => e a z * exp (x z)) (r_zeta r))).
    { rewrite <- E0. apply (rsum_strict _ _ _ y).
      - intros w _. apply Rmult_le_compat_l; [left; apply exp_pos|]. destruct (Req_dec (x w) 0) as [->|N]; [rewrite exp_0; lra|left; apply exp_strict; exact N].
      - exact Hy.
      - apply Rmult_lt_compat_l; [apply exp_pos|apply exp_strict; exact Ny]. }
    pose proof (ln_increasing _ _ (Sp a) Lt). assert (0 < eps * (ln (rsum (map (fun z => e a z * exp (x z)) (r_zeta r))) - ln (S a))) by (apply Rmult_lt_0_compat; lra). lra.
Qed.

Definition slope (rho p eps a : R) (rows : list (row P)) : R := Rpower rho p - rmean (map (gmean eps a) rows).
Lemma objective_tangent n rows rho eps p a b : batch_ok n rows -> 0 < eps ->
  objective rho a eps p rows + slope rho p eps a rows * (b - a) <= objective rho b eps p rows /\
  (spread rows -> a <> b -> objective rho a eps p rows + slope rho p eps a rows * (b - a) < objective rho b eps p rows).
Proof.
  intros Hb He. pose proof (batch_nonempty P n rows Hb) as Hz. assert (Hne : rows <> []) by apply Hb.
  assert (E : rmean (map (fun r => soft eps a r - gmean eps a r * (b - a)) rows) = rmean (map (soft eps a) rows) - rmean (map (gmean eps a) rows) * (b - a)).
  { rewrite rmean_map_minus. f_equal. rewrite (map_ext _ (fun r => (b - a) * gmean eps a r)) by (intros; ring). unfold rmean. rewrite rsum_map_scal, !map_length. unfold Rdiv. ring. }
  unfold Dual_Proofs.objective, slope. split.
  - assert (Q : rmean (map (fun r => soft eps a r - gmean eps a r * (b - a)) rows) <= rmean (map (soft eps b) rows)) by (apply rmean_map_le; intros r Hin; apply (soft_tangent eps a b r He (Hz r Hin))).
    rewrite E in Q. nra.
  - intros (r & z & z' & Hin & Hs) Nab.
    assert (Q : rmean (map (fun r => soft eps a r - gmean eps a r * (b - a)) rows) < rmean (map (soft eps b) rows)).
    { apply (rmean_strict _ _ _ r); [intros s Hi; apply (soft_tangent eps a b s He (Hz s Hi))|exact Hin|]. apply (soft_tangent eps a b r He (Hz r Hin)); [exists z, z'; exact Hs|exact Nab]. }
    rewrite E in Q. nra.
Qed.
Lemma objective_strict n rows rho eps p a b t : batch_ok n rows -> 0 < eps -> spread rows -> a <> b -> 0 < t < 1 ->
  objective rho (t * a + (1 - t) * b) eps p rows < t * objective rho a eps p rows + (1 - t) * objective rho b eps p rows.
Proof.
  intros Hb He Sp Nab Ht. set (m := t * a + (1 - t) * b).
  assert (Na : m <> a) by (unfold m; intros E; apply Nab; nra). assert (Nb : m <> b) by (unfold m; intros E; apply Nab; nra).
  pose proof (proj2 (objective_tangent n rows rho eps p m a Hb He) Sp Na) as A. pose proof (proj2 (objective_tangent n rows rho eps p m b Hb He) Sp Nb) as B.
  set (s := slope rho p eps m rows) in *. set (f := objective rho m eps p rows) in *.
  apply (Rmult_lt_compat_l t) in A; [|lra]. apply (Rmult_lt_compat_l (1 - t)) in B; [|lra].
  assert (f = t * (f + s * (a - m)) + (1 - t) * (f + s * (b - m))) by (unfold m; ring). lra.
Qed.
(* otherwise each datum has one cost *)
Lemma soft_flat eps lam r k : 0 < eps -> r_zeta r <> [] -> (forall z, In z (r_zeta r) -> cost (r_xi r) z = k) -> soft eps lam r = soft eps 0 r - lam * k.
Proof.
  intros He Hne H. unfold Dual_Proofs.soft.
  replace (pen P loss cost lam r) with (map (fun a => a + - (lam * k)) (pen P loss cost 0 r)).
  - rewrite softmaximum_shift; [ring|exact He|]. unfold pen. apply map_neq_nil. exact Hne.
  - unfold pen. rewrite map_map. apply map_ext_in. intros z Hz. rewrite (H z Hz). ring.
Qed.
Lemma objective_flat n rows rho eps p lam (K : row P -> R) : batch_ok n rows -> 0 < eps -> (forall r z, In r rows -> In z (r_zeta r) -> cost (r_xi r) z = K r) ->
  objective rho lam eps p rows = objective rho 0 eps p rows + lam * (Rpower rho p - rmean (map K rows)).
Proof.
  intros Hb He H. pose proof (batch_nonempty P n rows Hb) as Hz. unfold Dual_Proofs.objective.
  rewrite (map_ext_in _ (fun r => soft eps 0 r - lam * K r)) by (intros r Hin; apply soft_flat; auto).
  rewrite rmean_map_minus. unfold rmean at 2. rewrite rsum_map_scal, map_length. unfold rmean. rewrite !map_length. unfold Rdiv. ring.
Qed.
End Rows.
