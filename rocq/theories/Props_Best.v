(* C150: with a positive l2 penalty and samples among which some adversary stays within the radius, the training of the linear
   estimators has a best model, and only one. *)
From Coq Require Import Reals List Bool ZArith String Arith Lra Lia Psatz Sorted.
From Verif Require Import PyBase RList XReal LogMeanExp Tensor DedProg_Model DedLog_Proofs Loss_Model Loss_Spec Loss_Proofs Costs_Model Costs_Proofs CostDecoder_Model OptCond_Model Samplers_Model Wrap_Model
  Estim_Model Estim_Proofs Handover_Proofs Dual_Model Dual_Spec Dual_Proofs Dual2_Proofs DualMinimax_Proofs Props_Dual2 TDual_Model TDual_Spec TDual_Proofs Props_Loss Props_TDual Props_Estim
  EstDual_Model EstDual_Spec EstDual_Proofs Props_EstDual Gradient Grads_Losses Stationary_Proofs Props_Stationary Props_StationaryEst Attain Best_Proofs BestCore.
Import ListNotations.
Local Open Scope R_scope.
Local Notation length := List.length.

(* ---------- any model ---------- *)
(* For a fixed multiplier, of any sign: an l2 penalty and a loss that is bounded below and Lipschitz on boxes give a best model. *)
Theorem C150_fixed : forall P (base : vec -> P -> R) cost displace lp lpr n (rows : list (row P)) d rho lam eps p reg m F,
  batch_ok n rows -> 0 < rho -> 0 < eps -> 0 < reg ->
  (forall r z, In r rows -> In z (r_zeta r) -> forall B, 0 <= B -> exists L, 0 <= L /\ lip_on B d L (fun th => base th z)) ->
  (forall r z th, In r rows -> In z (r_zeta r) -> length th = d -> m <= base th z) ->
  (forall th, length th = d -> is_value (fun z => base th z + reg / 2 * sqnorm th) cost displace lp lpr n rows rho lam eps p (F th)) ->
  exists th, length th = d /\ forall th', length th' = d -> F th <= F th'.
Proof.
  intros P base cost displace lp lpr n rows d rho lam eps p reg m F Hb Hr He Hg Hlip Hlow HF.
  pose proof (best_adversary P (fun z => base (repeat 0 d) z) cost n lam eps rows Hb) as HA.
  destruct (best_fixed P cost base d n rows rho eps p reg m Hb He Hg Hlip Hlow lam _ HA) as (th & Lt & Q).
  exists th. split; [exact Lt|]. intros th' Lt'. specialize (Q th' Lt'). unfold obj, ridge in Q.
  pose proof (HF th Lt) as H1. pose proof (HF th' Lt') as H2. rewrite value_iff in H1, H2 by assumption. lra.
Qed.
Print Assumptions C150_fixed.

(* Together with the multiplier, under the budget condition. *)
Theorem C150_joint : forall P (base : vec -> P -> R) cost displace lp lpr n (rows : list (row P)) d rho eps p reg m A F,
  batch_ok n rows -> 0 < rho -> 0 < eps -> 0 < reg -> adversary n A rows -> adv_mean cost A rows < Rpower rho p ->
  (forall r z, In r rows -> In z (r_zeta r) -> forall B, 0 <= B -> exists L, 0 <= L /\ lip_on B d L (fun th => base th z)) ->
  (forall r z th, In r rows -> In z (r_zeta r) -> length th = d -> m <= base th z) ->
  (forall lam th, length th = d -> is_value (fun z => base th z + reg / 2 * sqnorm th) cost displace lp lpr n rows rho lam eps p (F lam th)) ->
  exists lam th, 0 <= lam /\ length th = d /\ forall lam' th', 0 <= lam' -> length th' = d -> F lam th <= F lam' th'.
Proof.
  intros P base cost displace lp lpr n rows d rho eps p reg m A F Hb Hr He Hg HA Gap Hlip Hlow HF.
  destruct (best_joint P cost base d n rows rho eps p reg m Hb He Hg Hlip Hlow A HA Gap) as (lam & th & Hl & Lt & Q).
  exists lam, th. split; [exact Hl|]. split; [exact Lt|]. intros lam' th' Hl' Lt'. specialize (Q lam' th' Hl' Lt'). unfold obj, ridge in Q.
  pose proof (HF lam th Lt) as H1. pose proof (HF lam' th' Lt') as H2. rewrite value_iff in H1, H2 by assumption. lra.
Qed.
Print Assumptions C150_joint.

(* Convex losses: two best models, with whatever multipliers, are the same. *)
Theorem C150_unique : forall P (base : vec -> P -> R) cost displace lp lpr n (rows : list (row P)) d rho eps p reg F lam1 lam2 th1 th2,
  batch_ok n rows -> 0 < rho -> 0 < eps -> 0 < reg ->
  (forall r z, In r rows -> In z (r_zeta r) -> convex_on d (fun th => base th z)) ->
  (forall lam th, length th = d -> is_value (fun z => base th z + reg / 2 * sqnorm th) cost displace lp lpr n rows rho lam eps p (F lam th)) ->
  0 <= lam1 -> 0 <= lam2 -> length th1 = d -> length th2 = d ->
  (forall lam th, 0 <= lam -> length th = d -> F lam1 th1 <= F lam th) -> F lam2 th2 <= F lam1 th1 -> th1 = th2.
Proof.
  intros P base cost displace lp lpr n rows d rho eps p reg F lam1 lam2 th1 th2 Hb Hr He Hg Hconv HF H1 H2 L1 L2 Q1 Q2.
  assert (E : forall lam th, length th = d -> F lam th = obj P cost base rows rho eps p reg lam th).
  { intros lam th Lt. specialize (HF lam th Lt). rewrite value_iff in HF by assumption. exact HF. }
  apply (best_unique P cost base d n rows rho eps p reg Hb He Hg Hconv lam1 lam2 th1 th2 Hr H1 H2 L1 L2).
  - intros lam th Hl Lt. rewrite <- !E by assumption. apply Q1; assumption.
  - rewrite <- !E by assumption. exact Q2.
Qed.
Print Assumptions C150_unique.

(* Convex differentiable losses: the best model is one half of a saddle point. Some adversary within the radius makes the payoff of
   every model at least the best objective, and no adversary within the radius makes the payoff of the best model exceed it: training
   solves the robust problem over the samples exactly, with no gap. *)
Theorem C150_saddle : forall P (base : vec -> P -> R) cost displace lp lpr n (rows : list (row P)) d rho eps p reg m g A0 F,
  batch_ok n rows -> 0 < rho -> 0 < eps -> 0 < reg -> adversary n A0 rows -> adv_mean cost A0 rows < Rpower rho p ->
  let L th z := base th z + reg / 2 * sqnorm th in
  let payoff th A := adv_mean (fun _ z => L th z) A rows - eps * adv_entropy A in
  (forall r z, In r rows -> In z (r_zeta r) -> forall B, 0 <= B -> exists K, 0 <= K /\ lip_on B d K (fun th => base th z)) ->
  (forall r z th, In r rows -> In z (r_zeta r) -> length th = d -> m <= base th z) ->
  (forall r z th, In r rows -> In z (r_zeta r) -> length th = d -> is_gradient (fun t => L t z) th (g th z)) ->
  (forall r z, In r rows -> In z (r_zeta r) -> convex_on d (fun th => base th z)) ->
  (forall lam th, length th = d -> is_value (L th) cost displace lp lpr n rows rho lam eps p (F lam th)) ->
  exists lam th A, 0 <= lam /\ length th = d /\ adversary n A rows /\ adv_mean cost A rows <= Rpower rho p /\
    (forall A', adversary n A' rows -> adv_mean cost A' rows <= Rpower rho p -> payoff th A' <= F lam th) /\
    (forall th', length th' = d -> F lam th <= payoff th' A) /\
    (forall lam' th', 0 <= lam' -> length th' = d -> F lam th <= F lam' th').
Proof.
  intros P base cost displace lp lpr n rows d rho eps p reg m g A0 F Hb Hr He Hg HA Gap L payoff Hlip Hlow Hgrad Hconv HF.
  destruct (C150_joint P base cost displace lp lpr n rows d rho eps p reg m A0 F Hb Hr He Hg HA Gap Hlip Hlow HF) as (lam & th & Hl & Lt & Q).
  assert (Hconv' : forall r z, In r rows -> In z (r_zeta r) -> convex_on d (fun th => L th z)).
  { intros r z Hrr Hz s x y Hs Lx Ly. unfold L. specialize (Hconv r z Hrr Hz s x y Hs Lx Ly). cbv beta in Hconv.
    pose proof (sqnorm_convex s x y Hs ltac:(transitivity d; [exact Lx|symmetry; exact Ly])) as Sq. nra. }
  set (A := map (gibbs P (L th) cost eps lam) rows). pose proof (gibbs_is (L th) cost eps lam n rows Hb) as HG. fold A in HG.
  assert (St : stationary cost rho p rows (length th) (g th) lam A).
  { apply (C115_necessary L cost displace lp lpr n rows rho lam eps p th (g th) A F Hb Hr He Hl).
    - intros r z Hrr Hz. apply (Hgrad r z th Hrr Hz Lt).
    - exact HG.
    - intros l t' L'. apply HF. transitivity (length th); [exact L'|exact Lt].
    - intros l t' Hl' L'. apply Q; [exact Hl'|]. transitivity (length th); [exact L'|exact Lt]. }
  destruct (C115_stationary L cost displace lp lpr n rows rho lam eps p th (g th) A F Hb Hr He) as ((S0 & S1 & S2) & S3 & S4 & _).
  - intros r z Hrr Hz. split; [apply (Hgrad r z th Hrr Hz Lt)|]. rewrite Lt. apply (Hconv' r z Hrr Hz).
  - exact HG.
  - exact St.
  - intros l t' L'. apply HF. transitivity (length th); [exact L'|exact Lt].
  - exists lam, th, A. split; [exact Hl|]. split; [exact Lt|]. split; [exact S0|]. split; [exact S1|]. split; [exact S3|]. split; [|exact Q].
    intros th' Lt'. unfold payoff. rewrite <- S2. specialize (S4 th' ltac:(transitivity d; [exact Lt'|symmetry; exact Lt])). lra.
Qed.
Print Assumptions C150_saddle.

(* The budget condition cannot be dropped: if the samples of each point cost at least k r, and these k r exceed the radius to the
   power p on average, then large multipliers make the objective of every model as low as wanted, so there is no best pair. *)
Theorem C150_unbounded : forall P (loss : P -> R) cost displace lp lpr n (rows : list (row P)) rho eps p (k : row P -> R) F,
  batch_ok n rows -> 0 < rho -> 0 < eps ->
  (forall r z, In r rows -> In z (r_zeta r) -> k r <= cost (r_xi r) z) -> Rpower rho p < rmean (map k rows) ->
  (forall lam, is_value loss cost displace lp lpr n rows rho lam eps p (F lam)) ->
  forall bound, exists lam, 0 <= lam /\ F lam < bound.
Proof.
  intros P loss cost displace lp lpr n rows rho eps p k F Hb Hr He Hk Gap HF bound.
  destruct (finite_samples P rows (fun r z M => loss z <= M)) as (M & HM & QM).
  { intros; lra. }
  { intros r z _ _. exists (Rabs (loss z)). split; [apply Rabs_pos|apply Rle_abs]. }
  assert (Up : forall lam, 0 <= lam -> F lam <= M + lam * (Rpower rho p - rmean (map k rows))).
  { intros lam Hl. specialize (HF lam). rewrite value_iff in HF by assumption. rewrite HF. unfold objective.
    assert (Q : rmean (map (soft P loss cost eps lam) rows) <= rmean (map (fun r => M + - lam * k r) rows)).
    { apply rmean_map_le. intros r Hin. unfold soft. apply (proj2 (softmaximum_bounds eps _ (M + - lam * k r) He (pen_ne P loss cost n rows lam r Hb Hin) (fun a Ha => ltac:(
        unfold pen in Ha; apply in_map_iff in Ha; destruct Ha as (z & <- & Hz); specialize (QM r z Hin Hz); specialize (Hk r z Hin Hz); nra)))). }
    rewrite rmean_map_plus, rmean_map_const, (rmean_map_scal (- lam)) in Q by apply Hb. lra. }
  set (gap := rmean (map k rows) - Rpower rho p). assert (Hg : 0 < gap) by (unfold gap; lra).
  exists (Rmax 0 ((M - bound + 1) / gap)). pose proof (Rmax_l 0 ((M - bound + 1) / gap)) as H0. split; [exact H0|].
  eapply Rle_lt_trans; [apply Up; exact H0|].
  assert (M - bound + 1 <= Rmax 0 ((M - bound + 1) / gap) * gap).
  { apply Rle_trans with ((M - bound + 1) / gap * gap); [right; field; lra|]. apply Rmult_le_compat_r; [lra|apply Rmax_r]. }
  unfold gap in *. nra.
Qed.
Print Assumptions C150_unbounded.

(* ---------- the estimators ---------- *)
Lemma square_loc_lip v : loc_lip (fun s => (s - v) ^ 2).
Proof.
  intros M HM. exists (2 * M + 2 * Rabs v). split; [pose proof (Rabs_pos v); lra|]. intros s t Hs Ht.
  replace ((s - v) ^ 2 - (t - v) ^ 2) with ((s + t - 2 * v) * (s - t)) by ring. rewrite Rabs_mult. apply Rmult_le_compat_r; [apply Rabs_pos|].
  apply Rabs_le. pose proof (Rle_abs v). pose proof (Rle_abs (- v)). rewrite Rabs_Ropp in *. pose proof (Rle_abs s). pose proof (Rle_abs (- s)). rewrite Rabs_Ropp in *. pose proof (Rle_abs t). pose proof (Rle_abs (- t)). rewrite Rabs_Ropp in *. lra.
Qed.
Lemma softplus_loc_lip v : loc_lip (fun s => ln (1 + exp (- (v * s)))).
Proof.
  intros M HM. exists (Rabs v). split; [apply Rabs_pos|]. intros s t _ _.
  pose proof (lg_lip (- (v * s)) (- (v * t))) as H1. pose proof (lg_lip (- (v * t)) (- (v * s))) as H2. unfold cp_logistic in *.
  assert (E : Rabs (- (v * s) - - (v * t)) = Rabs v * Rabs (s - t)) by (rewrite <- Rabs_mult, <- Rabs_Ropp; f_equal; ring).
  rewrite Rabs_minus_sym in H2. rewrite E in *. apply Rabs_le. lra.
Qed.
Lemma softplus_nonneg v : 0 <= ln (1 + exp v).
Proof. pose proof (exp_pos v). pose proof (ln_increasing 1 (1 + exp v) ltac:(lra) ltac:(lra)) as Q. rewrite ln_1 in Q. lra. Qed.
Lemma penalty_pos l2 th : 0 < l2 -> penalty l2 th = l2 / 2 * sqnorm th.
Proof. intros H. unfold penalty. rewrite Rmax_right by lra. reflexivity. Qed.

(* losses of a linear score, on the objective *)
Lemma score_best {P} (phi dphi : P -> R -> R) (feat : P -> vec) cost n (rows : list (row P)) d rho eps p l2 A : batch_ok n rows -> 0 < rho -> 0 < eps -> 0 < l2 ->
  (forall r z, In r rows -> In z (r_zeta r) -> length (feat z) = d) ->
  (forall z, loc_lip (phi z)) -> (forall z s, 0 <= phi z s) -> (forall z s a b, 0 <= s <= 1 -> phi z (s * a + (1 - s) * b) <= s * phi z a + (1 - s) * phi z b) ->
  (forall z s, derivable_pt_lim (phi z) s (dphi z s)) ->
  let V lam th := objective P (fun z => score_loss (phi z) l2 (feat z) th) cost rho lam eps p rows in
  let payoff th A := adv_mean (fun _ z => score_loss (phi z) l2 (feat z) th) A rows - eps * adv_entropy A in
  adversary n A rows ->
  (forall lam, exists th, length th = d /\ forall th', length th' = d -> V lam th <= V lam th' /\ (V lam th' = V lam th -> th' = th)) /\
  (adv_mean cost A rows < Rpower rho p ->
   exists lam th, 0 <= lam /\ length th = d /\ forall lam' th', 0 <= lam' -> length th' = d -> (V lam th <= V lam' th' /\ (V lam' th' = V lam th -> th' = th))) /\
  (adv_mean cost A rows < Rpower rho p -> forall lam th, 0 <= lam -> length th = d -> (forall lam' th', 0 <= lam' -> length th' = d -> V lam th <= V lam' th') ->
   (forall A', adversary n A' rows -> adv_mean cost A' rows <= Rpower rho p -> payoff th A' <= V lam th) /\
   exists B, adversary n B rows /\ adv_mean cost B rows <= Rpower rho p /\ forall th', length th' = d -> V lam th <= payoff th' B).
Proof.
  intros Hb Hr He Hl Lf Lip Pos Conv Der V payoff HA.
  set (base := fun (th : vec) (z : P) => phi z (dot th (feat z))).
  assert (E : forall lam th, V lam th = obj P cost base rows rho eps p l2 lam th).
  { intros lam th. unfold V, obj, objective, soft, pen, ridge, score_loss, base. f_equal. apply rmean_map_ext. intros r _. f_equal. apply map_ext. intros z. rewrite penalty_pos by exact Hl. reflexivity. }
  assert (H1 : forall r z, In r rows -> In z (r_zeta r) -> forall B, 0 <= B -> exists L, 0 <= L /\ lip_on B d L (fun th => base th z)) by (intros r z _ _ B HB; apply score_lip; auto).
  assert (H2 : forall r z th, In r rows -> In z (r_zeta r) -> length th = d -> 0 <= base th z) by (intros; apply Pos).
  assert (H3 : forall r z, In r rows -> In z (r_zeta r) -> convex_on d (fun th => base th z)).
  { intros r z Hrr Hz s x y Hs Lx Ly. unfold base. rewrite dot_segment; [apply Conv; exact Hs|transitivity d; [exact Lx|symmetry; exact Ly]|]. specialize (Lf r z Hrr Hz). transitivity d; [exact Ly|symmetry; exact Lf]. }
  split; [|split].
  - intros lam. destruct (best_fixed P cost base d n rows rho eps p l2 0 Hb He Hl H1 H2 lam A HA) as (th & Lt & Q). exists th. split; [exact Lt|].
    intros th' Lt'. rewrite !E. split; [apply Q; exact Lt'|]. intros Eq. symmetry.
    apply (best_unique_fixed P cost base d n rows rho eps p l2 Hb He Hl H3 lam th th' Hr Lt Lt' Q). rewrite Eq. apply Rle_refl.
  - intros Gap. destruct (best_joint P cost base d n rows rho eps p l2 0 Hb He Hl H1 H2 A HA Gap) as (lam & th & Hlam & Lt & Q). exists lam, th. split; [exact Hlam|]. split; [exact Lt|].
    intros lam' th' Hl' Lt'. rewrite !E. split; [apply Q; assumption|]. intros Eq. symmetry.
    apply (best_unique P cost base d n rows rho eps p l2 Hb He Hl H3 lam lam' th th' Hr Hlam Hl' Lt Lt' Q). rewrite Eq. apply Rle_refl.
  - intros Gap lam th Hlam Lt Q. set (L := fun (th : vec) (z : P) => score_loss (phi z) l2 (feat z) th).
    set (g := fun z : P => vadd (vscal (dphi z (dot th (feat z))) (feat z)) (vscal (Rmax 0 l2) th)).
    assert (Hgrad : forall r z, In r rows -> In z (r_zeta r) -> is_gradient (fun t => L t z) th (g z)).
    { intros r z Hrr Hz. apply score_grad; [|apply Der]. specialize (Lf r z Hrr Hz). transitivity d; [exact Lt|symmetry; exact Lf]. }
    pose proof (gibbs_is (L th) cost eps lam n rows Hb) as HG. set (A1 := map (gibbs P (L th) cost eps lam) rows) in HG.
    assert (HV : forall l t', length t' = length th -> is_value (L t') cost no_displace (fun _ _ => 0) (fun _ _ _ => 0) n rows rho l eps p (V l t')) by (intros; apply value_iff; auto).
    assert (St : stationary cost rho p rows (length th) g lam A1).
    { apply (C115_necessary L cost no_displace (fun _ _ => 0) (fun _ _ _ => 0) n rows rho lam eps p th g A1 V Hb Hr He Hlam Hgrad HG HV).
      intros l t' Hl' L'. apply Q; [exact Hl'|]. transitivity (length th); [exact L'|exact Lt]. }
    destruct (C115_stationary L cost no_displace (fun _ _ => 0) (fun _ _ _ => 0) n rows rho lam eps p th g A1 V Hb Hr He) as ((S0 & S1 & S2) & S3 & S4 & _).
    + intros r z Hrr Hz. split; [apply (Hgrad r z Hrr Hz)|]. apply score_convex; [apply Conv|]. specialize (Lf r z Hrr Hz). transitivity d; [exact Lf|symmetry; exact Lt].
    + exact HG.
    + exact St.
    + exact HV.
    + split; [exact S3|]. exists A1. split; [exact S0|]. split; [exact S1|]. intros th' Lt'. unfold payoff. rewrite <- S2.
      specialize (S4 th' ltac:(transitivity d; [exact Lt'|symmetry; exact Lt])). unfold L in S4 |- *. lra.
Qed.

(* LinearRegression: the best weights and bias exist and are unique, for every fixed multiplier and over all multipliers. *)
Theorem C150_linear pf a X y d t k : lr_dispatch pf a X y = Ok (FTorch d t) -> X <> [] -> widths k X -> length y = length X -> 0 < lr_rho a -> a_imp_samp d = false -> 0 < lr_l2_reg a ->
  let ys := map (fun v => [v]) y in
  exists c, tcost_of (a_cost d) = Some c /\
  forall n zs zls e s grads, is_grid n (length X) k zs -> is_grid n (length X) 1 zls -> zs <> [] -> a_epsilon d = Fin e -> 0 < e ->
  let rows := labelled_rows X ys zs zls in
  let loss wt b z := (dot wt (fst z) + b - hd 0 (snd z)) ^ 2 + penalty (lr_l2_reg a) (wt ++ [b]) in
  let payoff wt b A := adv_mean (fun _ z => loss wt b z) A rows - e * adv_entropy A in
  let value lam wt b := t_compute_dual (lr_call wt b) (wrapped_of d [] [wt; [b]]) c s grads (dual_of d (tc_power c) e lam)
                          (Tensor.batch [length X] k X) (Some (Tensor.batch [length X] 1 ys)) (grid n (length X) k zs) (Some (grid n (length X) 1 zls)) in
  (forall lam, exists wt b v, length wt = k /\ value lam wt b = Ok (Scalar (Fin v)) /\
     forall wt' b', length wt' = k -> exists v', value lam wt' b' = Ok (Scalar (Fin v')) /\ v <= v' /\ (v' = v -> wt' = wt /\ b' = b)) /\
  (forall A, adversary n A rows -> adv_mean (pt_cost c) A rows < Rpower (lr_rho a) (tc_power c) ->
   exists lam wt b v, 0 <= lam /\ length wt = k /\ value lam wt b = Ok (Scalar (Fin v)) /\
     (forall l wt' b', 0 <= l -> length wt' = k -> exists v', value l wt' b' = Ok (Scalar (Fin v')) /\ v <= v' /\ (v' = v -> wt' = wt /\ b' = b)) /\
     (forall A', adversary n A' rows -> adv_mean (pt_cost c) A' rows <= Rpower (lr_rho a) (tc_power c) -> payoff wt b A' <= v) /\
     exists B, adversary n B rows /\ adv_mean (pt_cost c) B rows <= Rpower (lr_rho a) (tc_power c) /\ forall wt' b', length wt' = k -> v <= payoff wt' b' B).
Proof.
  intros H Nx W E Hr Hi Hl2 ys.
  assert (T : forall wt b, length wt = k -> trains_labelled d (lr_call wt b) (wrapped_of d [] [wt; [b]]) k 1 (fun x l => (dot wt x + b - hd 0 l) ^ 2 + penalty (lr_l2_reg a) (wt ++ [b])) X ys (lr_rho a)).
  { intros wt b <-. apply (C113_linear pf a X y d t wt b); auto. }
  destruct (T (repeat 0 k) 0 (repeat_length 0 k)) as (c & Hc & _). exists c. split; [exact Hc|].
  intros n zs zls e s grads G G' Nz He Hep rows loss payoff value.
  assert (Ey : length ys = length X) by (unfold ys; rewrite map_length; exact E).
  assert (V : forall l wt b, length wt = k -> value l wt b = Ok (Scalar (Fin (objective (vec * vec) (loss wt b) (pt_cost c) (lr_rho a) l e (tc_power c) rows)))).
  { intros l wt' b' Lw'. destruct (T wt' b' Lw') as (c' & Hc' & Q). rewrite Hc in Hc'. injection Hc' as <-.
    destruct (Q n zs zls e l grads G G' Nz He ltac:(lra)) as [Q1 _]. specialize (Q1 Hi s). unfold value. refine (eq_trans Q1 _).
    rewrite (robust_rows _ _ _ _ _ _ X ys zs zls n k 1 Ey G G' Nz). reflexivity. }
  pose proof (rows_ok n k 1 X ys zs zls Ey Nx G G' Nz) as Hb. fold rows in Hb.
  set (LL := fun (th : vec) (z : vec * vec) => score_loss (fun s => (s - hd 0 (snd z)) ^ 2) (lr_l2_reg a) (fst z ++ [1]) th).
  assert (Ob : forall l wt b, length wt = k -> objective (vec * vec) (loss wt b) (pt_cost c) (lr_rho a) l e (tc_power c) rows = objective (vec * vec) (LL (wt ++ [b])) (pt_cost c) (lr_rho a) l e (tc_power c) rows).
  { intros l wt' b' Lw'. unfold objective. f_equal. apply rmean_map_ext. intros r Hrr. unfold soft, pen. f_equal. apply map_ext_in. intros z Hz.
    destruct (row_zeta n k 1 X ys zs zls r z Ey G G' Hrr Hz) as [Z1 _]. unfold LL, score_loss, loss. rewrite dot_snoc by (unfold vec in *; congruence). rewrite Rmult_1_r. reflexivity. }
  assert (Pay : forall wt b A, length wt = k -> payoff wt b A = adv_mean (fun _ z => LL (wt ++ [b]) z) A rows - e * adv_entropy A).
  { intros wt' b' A' Lw'. unfold payoff. f_equal. unfold adv_mean. f_equal. apply map2_in_length. intros q r _ Hrr. f_equal. apply map2_in_length. intros w z _ Hz. f_equal.
    destruct (row_zeta n k 1 X ys zs zls r z Ey G G' Hrr Hz) as [Z1 _]. unfold LL, score_loss, loss. rewrite dot_snoc by (unfold vec in *; congruence). rewrite Rmult_1_r. reflexivity. }
  assert (Split : forall th : vec, length th = S k -> exists wt b, th = wt ++ [b] /\ length wt = k).
  { intros th Lt. destruct (@exists_last _ th) as (wt & b & Eq); [intros ->; discriminate|]. exists wt, b. split; [exact Eq|]. rewrite Eq, app_length in Lt. cbn in Lt. unfold vec in *. lia. }
  assert (Lap : forall (wt : vec) (b : R), length wt = k -> length (wt ++ [b]) = S k) by (intros wt b Lw; rewrite app_length; cbn; unfold vec in *; lia).
  assert (Hf : forall r z, In r rows -> In z (r_zeta r) -> length (fst z ++ [1]) = S k).
  { intros r z Hrr Hz. destruct (row_zeta n k 1 X ys zs zls r z Ey G G' Hrr Hz) as [Z1 _]. apply Lap. unfold vec in *. congruence. }
  pose proof (fun A => score_best (fun z s => (s - hd 0 (snd z)) ^ 2) (fun z s => 2 * (s - hd 0 (snd z))) (fun z : vec * vec => fst z ++ [1]) (pt_cost c) n rows (S k) (lr_rho a) e (tc_power c) (lr_l2_reg a) A Hb Hr Hep Hl2 Hf
    (fun z => square_loc_lip _) (fun z s => pow2_ge_0 _) (fun z => square_convex _) (fun z s => square_deriv _ _)) as SB.
  split.
  - intros lam. pose proof (best_adversary (vec * vec) (fun z => 0) (pt_cost c) n lam e rows Hb) as HA0. destruct (proj1 (SB _ HA0) lam) as (th & Lt & Q).
    destruct (Split th Lt) as (wt & b & -> & Lw). exists wt, b. eexists. split; [exact Lw|]. split; [apply V; exact Lw|].
    intros wt' b' Lw'. eexists. split; [apply V; exact Lw'|]. specialize (Q (wt' ++ [b']) (Lap wt' b' Lw')). rewrite !Ob by assumption. destruct Q as [Q1 Q2]. split; [exact Q1|].
    intros Eq. apply app_inj_tail. apply Q2. exact Eq.
  - intros A HA Gap. destruct (proj1 (proj2 (SB A HA)) Gap) as (lam & th & Hlam & Lt & Q). destruct (proj2 (proj2 (SB A HA)) Gap lam th Hlam Lt (fun l t Hl Ll => proj1 (Q l t Hl Ll))) as (W1 & B & W2 & W3 & W4).
    destruct (Split th Lt) as (wt & b & -> & Lw). exists lam, wt, b. eexists. split; [exact Hlam|]. split; [exact Lw|]. split; [apply V; exact Lw|].
    split; [|split].
    + intros l wt' b' Hl Lw'. eexists. split; [apply V; exact Lw'|]. specialize (Q l (wt' ++ [b']) Hl (Lap wt' b' Lw')). rewrite !Ob by assumption. destruct Q as [Q1 Q2]. split; [exact Q1|].
      intros Eq. apply app_inj_tail. apply Q2. exact Eq.
    + intros A' HA' HC. rewrite Pay, Ob by exact Lw. apply (W1 A' HA' HC).
    + exists B. split; [exact W2|]. split; [exact W3|]. intros wt' b' Lw'. rewrite Pay, Ob by assumption. apply W4. apply Lap. exact Lw'.
Qed.
Print Assumptions C150_linear.

(* LogisticRegression with two classes, with or without an intercept. *)
Theorem C150_logistic pf a X y d t k c0 c1 : lg_dispatch pf a X y = Ok (FTorch d t) -> (c0 < c1)%Z -> (forall v, In v y <-> v = c0 \/ v = c1) ->
  X <> [] -> widths k X -> length y = length X -> 0 < lg_rho a -> a_imp_samp d = false -> 0 < lg_l2_reg a ->
  let ys := map (fun v => [if Z.eq_dec v c0 then -1 else 1]) y in
  let bias b := if lg_fit_intercept a then b else 0 in
  let trained wt b := if lg_fit_intercept a then [wt; [b]] else [wt] in
  exists c, tcost_of (a_cost d) = Some c /\
  forall n zs zls e s grads, is_grid n (length X) k zs -> is_grid n (length X) 1 zls -> zs <> [] -> a_epsilon d = Fin e -> 0 < e ->
  let rows := labelled_rows X ys zs zls in
  let loss wt b z := ln (1 + exp (- (hd 0 (snd z) * (dot wt (fst z) + bias b)))) + penalty (lg_l2_reg a) (List.concat (trained wt b)) in
  let payoff wt b A := adv_mean (fun _ z => loss wt b z) A rows - e * adv_entropy A in
  let value lam wt b := t_compute_dual (lg_call wt (bias b)) (wrapped_of d [] (trained wt b)) c s grads (dual_of d (tc_power c) e lam)
                          (Tensor.batch [length X] k X) (Some (Tensor.batch [length X] 1 ys)) (grid n (length X) k zs) (Some (grid n (length X) 1 zls)) in
  (forall lam, exists wt b v, length wt = k /\ value lam wt b = Ok (Scalar (Fin v)) /\
     forall wt' b', length wt' = k -> exists v', value lam wt' b' = Ok (Scalar (Fin v')) /\ v <= v' /\ (v' = v -> wt' = wt /\ bias b' = bias b)) /\
  (forall A, adversary n A rows -> adv_mean (pt_cost c) A rows < Rpower (lg_rho a) (tc_power c) ->
   exists lam wt b v, 0 <= lam /\ length wt = k /\ value lam wt b = Ok (Scalar (Fin v)) /\
     (forall l wt' b', 0 <= l -> length wt' = k -> exists v', value l wt' b' = Ok (Scalar (Fin v')) /\ v <= v' /\ (v' = v -> wt' = wt /\ bias b' = bias b)) /\
     (forall A', adversary n A' rows -> adv_mean (pt_cost c) A' rows <= Rpower (lg_rho a) (tc_power c) -> payoff wt b A' <= v) /\
     exists B, adversary n B rows /\ adv_mean (pt_cost c) B rows <= Rpower (lg_rho a) (tc_power c) /\ forall wt' b', length wt' = k -> v <= payoff wt' b' B).
Proof.
  intros H Hcc Hy Nx W E Hr Hi Hl2 ys bias trained. set (params := fun wt b => List.concat (trained wt b)).
  assert (T : forall wt b, length wt = k -> trains_labelled d (lg_call wt (bias b)) (wrapped_of d [] (trained wt b)) k 1
    (fun x l => ln (1 + exp (- (hd 0 l * (dot wt x + bias b)))) + penalty (lg_l2_reg a) (params wt b)) X ys (lg_rho a)).
  { intros wt b <-. apply (C113_logistic_binary pf a X y d t wt b c0 c1); auto. }
  destruct (T (repeat 0 k) 0 (repeat_length 0 k)) as (c & Hc & _). exists c. split; [exact Hc|].
  intros n zs zls e s grads G G' Nz He Hep rows loss payoff value.
  assert (Ey : length ys = length X) by (unfold ys; rewrite map_length; exact E).
  assert (V : forall l wt b, length wt = k -> value l wt b = Ok (Scalar (Fin (objective (vec * vec) (loss wt b) (pt_cost c) (lg_rho a) l e (tc_power c) rows)))).
  { intros l wt' b' Lw'. destruct (T wt' b' Lw') as (c' & Hc' & Q). rewrite Hc in Hc'. injection Hc' as <-.
    destruct (Q n zs zls e l grads G G' Nz He ltac:(lra)) as [Q1 _]. specialize (Q1 Hi s). unfold value. refine (eq_trans Q1 _).
    rewrite (robust_rows _ _ _ _ _ _ X ys zs zls n k 1 Ey G G' Nz). reflexivity. }
  pose proof (rows_ok n k 1 X ys zs zls Ey Nx G G' Nz) as Hb. fold rows in Hb.
  set (feat := fun x : vec => if lg_fit_intercept a then x ++ [1] else x).
  set (LL := fun (th : vec) (z : vec * vec) => score_loss (fun s => ln (1 + exp (- (hd 0 (snd z) * s)))) (lg_l2_reg a) (feat (fst z)) th).
  assert (Sc : forall wt b (x : vec), length wt = length x -> dot (params wt b) (feat x) = dot wt x + bias b).
  { intros wt' b' x Lx. unfold params, trained, feat, bias. destruct (lg_fit_intercept a); cbn [List.concat]; [rewrite app_nil_r, dot_snoc by exact Lx|rewrite app_nil_r]; ring. }
  assert (Ob : forall l wt b, length wt = k -> objective (vec * vec) (loss wt b) (pt_cost c) (lg_rho a) l e (tc_power c) rows = objective (vec * vec) (LL (params wt b)) (pt_cost c) (lg_rho a) l e (tc_power c) rows).
  { intros l wt' b' Lw'. unfold objective. f_equal. apply rmean_map_ext. intros r Hrr. unfold soft, pen. f_equal. apply map_ext_in. intros z Hz.
    destruct (row_zeta n k 1 X ys zs zls r z Ey G G' Hrr Hz) as [Z1 _]. unfold LL, score_loss, loss. rewrite Sc by (unfold vec in *; congruence). reflexivity. }
  assert (Pay : forall wt b A, length wt = k -> payoff wt b A = adv_mean (fun _ z => LL (params wt b) z) A rows - e * adv_entropy A).
  { intros wt' b' A' Lw'. unfold payoff. f_equal. unfold adv_mean. f_equal. apply map2_in_length. intros q r _ Hrr. f_equal. apply map2_in_length. intros w z _ Hz. f_equal.
    destruct (row_zeta n k 1 X ys zs zls r z Ey G G' Hrr Hz) as [Z1 _]. unfold LL, score_loss, loss. rewrite Sc by (unfold vec in *; congruence). reflexivity. }
  set (dd := if lg_fit_intercept a then S k else k).
  assert (Split : forall th : vec, length th = dd -> exists wt b, th = params wt b /\ length wt = k).
  { intros th Lt. unfold dd, params, trained in *. destruct (lg_fit_intercept a); cbn [List.concat].
    - destruct (@exists_last _ th) as (wt & b & Eq); [intros ->; discriminate|]. exists wt, b. rewrite app_nil_r. split; [exact Eq|]. rewrite Eq, app_length in Lt. cbn in Lt. unfold vec in *. lia.
    - exists th, 0. rewrite app_nil_r. split; [reflexivity|exact Lt]. }
  assert (Lap : forall (wt : vec) (b : R), length wt = k -> length (params wt b) = dd).
  { intros wt b Lw. unfold dd, params, trained. destruct (lg_fit_intercept a); cbn [List.concat]; rewrite app_nil_r, ?app_length; cbn; unfold vec in *; lia. }
  assert (Inj : forall wt b wt' b', params wt' b' = params wt b -> wt' = wt /\ bias b' = bias b).
  { intros wt b wt' b' Eq. unfold params, trained, bias in *. destruct (lg_fit_intercept a); cbn [List.concat] in Eq; rewrite !app_nil_r in Eq; [apply app_inj_tail; exact Eq|split; [exact Eq|reflexivity]]. }
  assert (Hf : forall r z, In r rows -> In z (r_zeta r) -> length (feat (fst z)) = dd).
  { intros r z Hrr Hz. destruct (row_zeta n k 1 X ys zs zls r z Ey G G' Hrr Hz) as [Z1 _]. unfold feat, dd. destruct (lg_fit_intercept a); rewrite ?app_length; cbn; unfold vec in *; lia. }
  assert (Ps : forall (z : vec * vec) s, 0 <= ln (1 + exp (- (hd 0 (snd z) * s)))) by (intros; apply softplus_nonneg).
  pose proof (fun A => score_best (fun z s => ln (1 + exp (- (hd 0 (snd z) * s)))) (fun z s => - hd 0 (snd z) / (1 + exp (hd 0 (snd z) * s))) (fun z : vec * vec => feat (fst z)) (pt_cost c) n rows dd (lg_rho a) e (tc_power c) (lg_l2_reg a) A Hb Hr Hep Hl2 Hf
    (fun z => softplus_loc_lip _) Ps (fun z => softplus_convex _) (fun z s => d_logistic _ _)) as SB.
  split.
  - intros lam. pose proof (best_adversary (vec * vec) (fun z => 0) (pt_cost c) n lam e rows Hb) as HA0. destruct (proj1 (SB _ HA0) lam) as (th & Lt & Q).
    destruct (Split th Lt) as (wt & b & -> & Lw). exists wt, b. eexists. split; [exact Lw|]. split; [apply V; exact Lw|].
    intros wt' b' Lw'. eexists. split; [apply V; exact Lw'|]. specialize (Q (params wt' b') (Lap wt' b' Lw')). rewrite !Ob by assumption. destruct Q as [Q1 Q2]. split; [exact Q1|].
    intros Eq. apply Inj. apply Q2. exact Eq.
  - intros A HA Gap. destruct (proj1 (proj2 (SB A HA)) Gap) as (lam & th & Hlam & Lt & Q). destruct (proj2 (proj2 (SB A HA)) Gap lam th Hlam Lt (fun l t Hl Ll => proj1 (Q l t Hl Ll))) as (W1 & B & W2 & W3 & W4).
    destruct (Split th Lt) as (wt & b & -> & Lw). exists lam, wt, b. eexists. split; [exact Hlam|]. split; [exact Lw|]. split; [apply V; exact Lw|].
    split; [|split].
    + intros l wt' b' Hl Lw'. eexists. split; [apply V; exact Lw'|]. specialize (Q l (params wt' b') Hl (Lap wt' b' Lw')). rewrite !Ob by assumption. destruct Q as [Q1 Q2]. split; [exact Q1|].
      intros Eq. apply Inj. apply Q2. exact Eq.
    + intros A' HA' HC. rewrite Pay, Ob by exact Lw. apply (W1 A' HA' HC).
    + exists B. split; [exact W2|]. split; [exact W3|]. intros wt' b' Lw'. rewrite Pay, Ob by assumption. apply W4. apply Lap. exact Lw'.
Qed.
Print Assumptions C150_logistic.

(* ---------- the hypotheses are met ---------- *)
(* one parameter, squared distance as loss and as cost, samples 1 and -1 of the point 0, radius 2 *)
Example C150_case :
  let rows := [mkrow 0 [1; -1]] in let base := fun (t : vec) z => (hd 0 t - z) ^ 2 in let cost := fun x z : R => (x - z) ^ 2 in let A := [[1 / 2; 1 / 2]] in
  batch_ok 2 rows /\ adversary 2 A rows /\ adv_mean cost A rows < Rpower 2 2 /\
  (forall z B, 0 <= B -> exists L, 0 <= L /\ lip_on B 1 L (fun th => base th z)) /\ (forall z th, 0 <= base th z) /\ (forall z, convex_on 1 (fun th => base th z)).
Proof.
  cbv zeta. split; [split; [lia|split; [discriminate|repeat constructor]]|]. split; [|split; [|split; [|split]]].
  - split; [reflexivity|]. apply Forall_cons; [|constructor]. split; [reflexivity|]. split; [repeat (apply Forall_cons; [lra|]); constructor|cbn; lra].
  - replace (adv_mean _ _ _) with 1 by (unfold adv_mean, rmean; cbn; field). replace 2 with (INR 2) at 2 by (cbn; ring). rewrite Rpower_pow by lra. lra.
  - intros z B HB. destruct (score_lip (fun s => (s - z) ^ 2) 1 [1] (square_loc_lip z) B HB) as (L & HL & Q). exists L. split; [exact HL|].
    intros u v Hu Hv. specialize (Q u v Hu Hv). destruct Hu as [Lu _], Hv as [Lv _]. destruct u as [|a [|]]; try discriminate. destruct v as [|b [|]]; try discriminate.
    cbn [hd]. unfold dot in Q. cbn in Q |- *. rewrite !Rmult_1_r, !Rplus_0_r in Q. rewrite !Rmult_1_r, Rplus_0_r. exact Q.
  - intros z th. apply pow2_ge_0.
  - intros z s x y Hs Lx Ly. destruct x as [|a [|]]; try discriminate. destruct y as [|b [|]]; try discriminate. cbn [hd segment vadd map2 vscal map]. apply square_convex. exact Hs.
Qed.
(* every sample of the point 0 costs 1, and the radius is 1/2 *)
Example C150_unbounded_case : let rows := [mkrow 0 [1; -1]] in let cost := fun x z : R => (x - z) ^ 2 in
  (forall r z, In r rows -> In z (r_zeta r) -> (fun _ : row R => 1) r <= cost (r_xi r) z) /\ Rpower (1 / 2) 2 < rmean (map (fun _ : row R => 1) rows).
Proof.
  cbv zeta. split.
  - intros r z [<-|[]] [<-|[<-|[]]]; cbn; lra.
  - replace 2 with (INR 2) at 2 by (cbn; ring). rewrite Rpower_pow by lra. unfold rmean; cbn. lra.
Qed.
(* LinearRegression(l2_reg=1, solver_name='entropic_torch_pre', solver_reg=0.01) on two points, each with itself as a sample and another one *)
Definition lr_ridge : lr_args :=
  {| lr_rho := 1 / 100; lr_l2_reg := 1; lr_fit_intercept := true; lr_cost := "t-NLC-2-2"; lr_solver_name := "entropic_torch_pre";
     lr_solver_reg := Some (1 / 100); lr_sampler_reg := None; lr_lr := None; lr_n_zeta := 10; lr_seed := 0; lr_n_iter := None |}.
Lemma ridge_dualized pf u d : pf "2"%string = Some (Fin 2) -> u_cost u = Some "t-NLC-2-2"%string -> u_imp_samp u = false -> dualize pf u = Ok d ->
  a_imp_samp d = false /\ tcost_of (a_cost d) = Some (TNLC (PFin 2) 2 (KFin 100000000)).
Proof.
  intros Q C I. unfold dualize. rewrite C. unfold parse_code_torch. cbn [split_dash Ascii.eqb Bool.eqb]. unfold to_float. rewrite Q. cbn [assert_ String.eqb Ascii.eqb Bool.eqb bind].
  unfold cost_from_parse_torch. cbn [p_id p_type p_power p_kappa String.eqb Ascii.eqb Bool.eqb]. unfold NormLabelCost, assert_, x_ge0, dk. unfold xle.
  assert (xlt (Fin 0) (Fin 100000000) = true) as -> by (cbn; unfold Rltb; destruct (Rlt_dec 0 100000000); [reflexivity|lra]). cbn [orb bind].
  destruct (expert_hyperparams _ _ _ _ _ _) as [sg ep]. match goal with |- (do s <- ?x; _) = _ -> _ => destruct x as [cs|] end; cbn [bind]; [|discriminate]. intros H. injection H as <-. cbn [a_imp_samp a_cost].
  unfold decide_on_impsamp, can_imp_samp. rewrite I. split; reflexivity.
Qed.
Example C150_linear_case : let X := [[1]; [3]] in let zs := [[[1]; [3]]; [[0]; [4]]] in let zls := [[[2]; [5]]; [[2]; [6]]] in let A := [[1; 0]; [1; 0]] in
  exists d t c e, lr_dispatch read lr_ridge X [2; 5] = Ok (FTorch d t) /\ widths 1 X /\ 0 < lr_rho lr_ridge /\ a_imp_samp d = false /\ 0 < lr_l2_reg lr_ridge /\
    tcost_of (a_cost d) = Some c /\ is_grid 2 2 1 zs /\ is_grid 2 2 1 zls /\ a_epsilon d = Fin e /\ 0 < e /\
    let rows := labelled_rows X [[2]; [5]] zs zls in adversary 2 A rows /\ adv_mean (pt_cost c) A rows < Rpower (lr_rho lr_ridge) (tc_power c).
Proof.
  cbv zeta. destruct (decode_22 read eq_refl) as [c0 Hc0].
  assert (Ex : exists d, lr_dispatch read lr_ridge [[1]; [3]] [2; 5] = Ok (FTorch d (Some (1, 1, true)%nat)) /\ a_imp_samp d = false /\ tcost_of (a_cost d) = Some (TNLC (PFin 2) 2 (KFin 100000000))).
  { unfold lr_dispatch. cbn [lr_cost lr_ridge]. rewrite Hc0. cbn [bind lr_solver_name lr_ridge]. change (String.eqb "entropic_torch_pre" "entropic") with false. change (contains "torch" "entropic_torch_pre") with true. cbv iota.
    match goal with |- context [dualize read ?u] => destruct (dualize_22 read u (map (fun v => [v]) [2; 5]) eq_refl eq_refl eq_refl) as [d Hd]; [apply sigma_none_pos|]; rewrite Hd; destruct (ridge_dualized read u d eq_refl eq_refl eq_refl Hd) as [I C] end.
    exists d. split; [reflexivity|]. split; assumption. }
  destruct Ex as (d & Ed & I & C). exists d, (Some (1, 1, true)%nat), (TNLC (PFin 2) 2 (KFin 100000000)).
  destruct (lr_received _ _ _ _ _ _ Ed) as (_ & Q).
  exists (1 / 100). split; [exact Ed|]. split; [repeat constructor|]. split; [cbn; lra|]. split; [exact I|]. split; [cbn; lra|]. split; [exact C|].
  split; [split; [reflexivity|]; repeat (apply Forall_cons; [split; [reflexivity|repeat constructor]|]); constructor|].
  split; [split; [reflexivity|]; repeat (apply Forall_cons; [split; [reflexivity|repeat constructor]|]); constructor|].
  split; [apply (r_eps _ _ _ _ _ _ _ _ _ _ _ Q); reflexivity|]. split; [lra|].
  split.
  - split; [reflexivity|]. repeat (apply Forall_cons; [split; [reflexivity|split; [repeat (apply Forall_cons; [lra|]); constructor|cbn; lra]]|]). constructor.
  - assert (Z : forall a l, pt_cost (TNLC (PFin 2) 2 (KFin 100000000)) ([a], [l]) ([a], [l]) = 0).
    { intros a l. destruct (C57_weber_linear_logistic_portfolio read [[1]; [3]] eq_refl eq_refl) as (_ & E & _). destruct (E [2; 5]) as (d' & Ed' & _).
      rewrite (proj2 (proj2 (C113_default_cost read [[1]; [3]] [2; 5] d' _ eq_refl (or_introl Ed')))). unfold sqnorm, dot, vsub. cbn [map2 rsum fold_right].
      replace ((a - a) * (a - a) + 0) with 0 by ring. replace ((l - l) * (l - l) + 0) with 0 by ring. rewrite sqrt_0. field. }
    replace (adv_mean _ _ _) with 0; [apply exp_pos|]. unfold adv_mean, rmean, labelled_rows, point_rows. cbn -[pt_cost]. rewrite !Z. field.
Qed.
