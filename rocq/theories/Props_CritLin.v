(* C158: over a critical radius robust linear regression does not look at the features. *)
From Coq Require Import Reals List Lra Lia Psatz.
From Verif Require Import PyBase RList XReal Costs_Model Costs_Proofs Transport_Spec Transport_Proofs DedProg_Model DedProg_Spec DedLin_Proofs DedPf_Proofs CritLog_Proofs.
From Verif Require Props_DedProg.
Import ListNotations.
Local Open Scope R_scope.

(* ---------- spec ---------- *)
Definition tabular (d : nat) (data : list (vec * R)) : Prop := data <> [] /\ Forall (fun z : vec * R => length (fst z) = d) data.
(* what the best constant model predicts: the mean of the targets, or 0 without intercept *)
Definition base (fit_intercept : bool) (data : list (vec * R)) : R := if fit_intercept then rmean (map snd data) else 0.
(* its root mean square error: the standard deviation of the targets, or their root mean square *)
Definition spread (fit_intercept : bool) (data : list (vec * R)) : R := sqrt (rmean (map (fun z => (snd z - base fit_intercept data) ^ 2) data)).
(* average of (target - prediction) * features, the covariance of features and target when there is an intercept *)
Definition leverage (fit_intercept : bool) (d : nat) (data : list (vec * R)) : vec := vaverage d (fun y => y - base fit_intercept data) data.

(* ---------- lemmas ---------- *)
Lemma dot_maps {A} (f g : A -> R) l : dot (map f l) (map g l) = rsum (map (fun a => f a * g a) l).
Proof. unfold dot. induction l as [|a l IH]; simpl; [reflexivity|]. rewrite IH. reflexivity. Qed.
Lemma mean_cs {A} (f g : A -> R) l : l <> [] -> rmean (map (fun a => f a * g a) l) <= rms (map f l) * rms (map g l).
Proof.
  intros H. pose proof (INR_length_pos l H) as N. unfold rms. rewrite !map_length.
  assert (S : sqrt (INR (length l)) * sqrt (INR (length l)) = INR (length l)) by (apply sqrt_sqrt; lra).
  assert (S0 : 0 < sqrt (INR (length l))) by (apply sqrt_lt_R0; exact N).
  replace (norm2 (map f l) / sqrt (INR (length l)) * (norm2 (map g l) / sqrt (INR (length l)))) with (norm2 (map f l) * norm2 (map g l) / INR (length l)) by (rewrite <- S at 1; field; lra).
  unfold rmean. rewrite map_length. unfold Rdiv. apply Rmult_le_compat_r; [left; apply Rinv_0_lt_compat; exact N|].
  rewrite <- dot_maps. apply cauchy_schwarz. rewrite !map_length. reflexivity.
Qed.
Lemma rms_sqrt {A} (f : A -> R) l : l <> [] -> rms (map f l) = sqrt (rmean (map (fun a => f a ^ 2) l)).
Proof.
  intros H. symmetry. assert (E : map f l <> []) by (destruct l; [congruence|discriminate]). apply sqrt_lem_1.
  - rewrite <- (rmean_map_const 0 l) by exact H. apply rmean_map_le. intros a _. apply pow2_ge_0.
  - apply rms_nonneg.
  - rewrite (rms_sq _ E), map_map. f_equal. apply map_ext. intros a. ring.
Qed.

Section Lin.
Variables (fi : bool) (d : nat) (data : list (vec * R)) (rho : R).
Hypothesis T : tabular d data.
Hypothesis Hr : 0 <= rho.
Let m := base fi data.
Let sg := spread fi data.
Let g := leverage fi d data.
Let e := fun z : vec * R => snd z - m.

Lemma Hd : data <> []. Proof. apply T. Qed.
Lemma map_nonempty {B} (f : vec * R -> B) : map f data <> [].
Proof. intros E. apply Hd. exact (map_eq_nil f data E). Qed.
Lemma sg_rms : sg = rms (map e data).
Proof. unfold sg, spread. rewrite (rms_sqrt e data Hd). reflexivity. Qed.
Lemma sg_nonneg : 0 <= sg. Proof. apply sqrt_pos. Qed.
Lemma sg_sq : sg * sg = rmean (map (fun z => e z * e z) data).
Proof. rewrite sg_rms, rms_sq, map_map; [reflexivity|]. apply map_nonempty. Qed.
Lemma g_len : length g = d. Proof. apply vaverage_length. apply T. Qed.
Lemma g_dot_lin h : length h = d -> dot g h = rmean (map (fun z => e z * dot (fst z) h) data).
Proof. intros L. apply (vaverage_dot d (fun y => y - m) data h (proj2 T) L). Qed.
Lemma e_mean : fi = true -> rmean (map e data) = 0.
Proof.
  intros F. unfold e. rewrite (rmean_map_minus (fun z : vec * R => snd z) (fun _ => m)), rmean_map_const by exact Hd.
  unfold m, base. rewrite F. change (map (fun z : vec * R => snd z) data) with (map snd data). ring.
Qed.
Lemma split_obj coeff b : lin_objective rho data coeff b = rms (map (lin_residual coeff b) data) + rho * norm2 coeff.
Proof. unfold lin_objective, rms. rewrite map_length. reflexivity. Qed.

Lemma lin_low coeff b : lin_feasible d fi coeff b -> sg * sg - dot g coeff <= sg * rms (map (lin_residual coeff b) data).
Proof.
  intros [Lc Hb]. pose proof (mean_cs (fun z => - e z) (lin_residual coeff b) data Hd) as C.
  assert (E1 : rms (map (fun z => - e z) data) = sg).
  { rewrite sg_rms, !rms_sqrt by exact Hd. f_equal. f_equal. apply map_ext. intros z. ring. }
  rewrite E1 in C. eapply Rle_trans; [|exact C]. right.
  rewrite (map_ext (fun z => - e z * lin_residual coeff b z) (fun z => e z * e z - (e z * dot (fst z) coeff + (b - m) * e z))) by (intros z; unfold lin_residual, e; ring).
  rewrite (rmean_map_minus (fun z => e z * e z)), (rmean_map_plus (fun z => e z * dot (fst z) coeff)), rmean_map_scal, <- (g_dot_lin coeff Lc), <- sg_sq.
  assert (Z : (b - m) * rmean (map e data) = 0).
  { destruct (Bool.bool_dec fi true) as [F|F]; [rewrite (e_mean F); ring|]. apply Bool.not_true_is_false in F. rewrite (Hb F). unfold m, base. rewrite F. ring. }
  lra.
Qed.
Lemma lin_over coeff b : lin_feasible d fi coeff b -> norm2 g <= rho * sg ->
  sg <= lin_objective rho data coeff b /\ (norm2 g < rho * sg -> lin_objective rho data coeff b = sg -> Forall (fun w => w = 0) coeff).
Proof.
  intros F C. pose proof (lin_low coeff b F) as Low. rewrite split_obj. set (A := rms (map (lin_residual coeff b) data)) in *.
  assert (AN : 0 <= A) by apply rms_nonneg. pose proof sg_nonneg as SN. pose proof (norm2_nonneg coeff) as CN. pose proof (norm2_nonneg g) as GN.
  assert (G : dot g coeff <= norm2 g * norm2 coeff) by (apply cauchy_schwarz; etransitivity; [exact g_len|symmetry; apply F]).
  assert (K : norm2 g * norm2 coeff <= rho * sg * norm2 coeff) by (apply Rmult_le_compat_r; assumption).
  assert (RC : 0 <= rho * norm2 coeff) by (apply Rmult_le_pos; assumption).
  destruct SN as [SP|S0].
  - assert (B : sg <= A + rho * norm2 coeff) by (apply Rmult_le_reg_l with sg; [exact SP|]; lra). split; [exact B|]. intros Cs E.
    destruct CN as [CP|C0]; [|apply norm2_zero; symmetry; exact C0]. exfalso.
    assert (norm2 g * norm2 coeff < rho * sg * norm2 coeff) by (apply Rmult_lt_compat_r; assumption).
    assert (sg * sg < sg * (A + rho * norm2 coeff)) by lra. assert (sg < A + rho * norm2 coeff) by (apply Rmult_lt_reg_l with sg; assumption). lra.
  - rewrite <- S0 in *. split; [lra|]. intros Cs. lra.
Qed.
Lemma lin_below : rho * sg < norm2 g -> exists eps, 0 < eps /\ lin_objective rho data (vscal eps g) m < sg.
Proof.
  intros C. pose proof sg_nonneg as SN. pose proof g_len as Lg. set (nn := norm2 g) in *.
  assert (NP : 0 < nn) by (assert (0 <= rho * sg) by (apply Rmult_le_pos; assumption); lra).
  assert (N2 : nn * nn = dot g g) by (unfold nn; apply norm2_sq).
  assert (SP : 0 < sg).
  { destruct SN as [SP|S0]; [exact SP|exfalso]. pose proof (mean_cs e (fun z => dot (fst z) g) data Hd) as K. pose proof (g_dot_lin g Lg) as GG. rewrite <- sg_rms, <- S0, Rmult_0_l in K. assert (dot g g <= 0) by (rewrite GG; exact K). nra. }
  set (S := rmean (map (fun z => dot (fst z) g * dot (fst z) g) data)).
  assert (SS : 0 <= S) by (unfold S; rewrite <- (rmean_map_const 0 data) by exact Hd; apply rmean_map_le; intros; apply Rle_0_sqr).
  set (dl := nn * nn - rho * sg * nn). assert (DP : 0 < dl) by (unfold dl; nra).
  set (eps := dl / (S + 1)). assert (EP : 0 < eps) by (unfold eps; apply Rdiv_lt_0_compat; lra).
  assert (Small : eps * S < 2 * dl).
  { unfold eps. apply Rmult_lt_reg_r with (S + 1); [lra|]. replace (dl / (S + 1) * S * (S + 1)) with (dl * S) by (field; lra). nra. }
  exists eps. split; [exact EP|]. rewrite split_obj, norm2_vscal, Rabs_pos_eq by lra. fold nn.
  set (A := rms (map (lin_residual (vscal eps g) m) data)). assert (AN : 0 <= A) by apply rms_nonneg.
  assert (A2 : A * A = sg * sg - 2 * eps * (nn * nn) + eps * eps * S).
  { unfold A. rewrite rms_sq, map_map by apply map_nonempty.
    rewrite (map_ext _ (fun z => e z * e z - ((2 * eps) * (e z * dot (fst z) g) - (eps * eps) * (dot (fst z) g * dot (fst z) g)))) by (intros z; unfold lin_residual, e; rewrite dot_vscal_r; ring).
    rewrite (rmean_map_minus (fun z => e z * e z)), (rmean_map_minus (fun z => 2 * eps * (e z * dot (fst z) g))), !rmean_map_scal, <- (g_dot_lin g Lg), <- sg_sq, <- N2. fold S. ring. }
  (* A <= (A^2 + sg^2) / (2 sg) *)
  assert (Q : 2 * sg * A <= A * A + sg * sg) by (pose proof (Rle_0_sqr (A - sg)); unfold Rsqr in *; lra).
  assert (W : 2 * sg * A + 2 * sg * (rho * (eps * nn)) < 2 * sg * sg).
  { assert (eps * (eps * S) < eps * (2 * dl)) by (apply Rmult_lt_compat_l; assumption). unfold dl in *. nra. }
  apply Rmult_lt_reg_l with (2 * sg); [lra|]. lra.
Qed.
End Lin.

(* ---------- theorems ---------- *)
(* The constant model has the objective [spread], and no coefficients do better exactly from the critical radius |leverage| / spread on. *)
Theorem C158_constant :
  forall fi d rho data, tabular d data -> lin_feasible d fi (repeat 0 d) (base fi data) /\ lin_objective rho data (repeat 0 d) (base fi data) = spread fi data.
Proof.
  intros fi d rho data T. split; [split; [apply repeat_length|intros ->; reflexivity]|]. rewrite split_obj. unfold norm2 at 1, sqnorm. rewrite dot_repeat0, sqrt_0, Rmult_0_r, Rplus_0_r.
  rewrite (rms_sqrt _ data (proj1 T)). unfold spread. f_equal. f_equal. apply map_ext. intros z. unfold lin_residual. rewrite (dot_comm (fst z)), dot_repeat0. ring.
Qed.
Print Assumptions C158_constant.

Theorem C158_critical :
  forall fi d rho data, tabular d data -> 0 <= rho ->
    ((forall coeff b, lin_feasible d fi coeff b -> spread fi data <= lin_objective rho data coeff b) <-> norm2 (leverage fi d data) <= rho * spread fi data).
Proof.
  intros fi d rho data T Hr. split.
  - intros W. apply Rnot_lt_le. intros C. destruct (lin_below fi d data rho T Hr C) as (eps & _ & L).
    assert (F : lin_feasible d fi (vscal eps (leverage fi d data)) (base fi data)) by (split; [rewrite vscal_length; apply g_len; exact T|intros ->; reflexivity]).
    specialize (W _ _ F). lra.
  - intros C coeff b F. apply (lin_over fi d data rho T Hr coeff b F C).
Qed.
Print Assumptions C158_critical.

(* Strictly over it the solver can only return zero coefficients. *)
Theorem C158_only_constants :
  forall fi d rho data coeff b, tabular d data -> 0 <= rho -> norm2 (leverage fi d data) < rho * spread fi data -> lin_feasible d fi coeff b ->
    (forall coeff' b', lin_feasible d fi coeff' b' -> lin_objective rho data coeff b <= lin_objective rho data coeff' b') -> Forall (fun w => w = 0) coeff.
Proof.
  intros fi d rho data coeff b T Hr C F O. destruct (lin_over fi d data rho T Hr coeff b F (Rlt_le _ _ C)) as [L U]. apply U; [exact C|].
  destruct (C158_constant fi d rho data T) as [F0 E0]. specialize (O _ _ F0). rewrite E0 in O. lra.
Qed.
Print Assumptions C158_only_constants.

(* And below it every solution has a coefficient that is not zero. *)
Theorem C158_below :
  forall fi d rho data coeff b, tabular d data -> 0 <= rho -> rho * spread fi data < norm2 (leverage fi d data) -> lin_feasible d fi coeff b ->
    (forall coeff' b', lin_feasible d fi coeff' b' -> lin_objective rho data coeff b <= lin_objective rho data coeff' b') -> ~ Forall (fun w => w = 0) coeff.
Proof.
  intros fi d rho data coeff b T Hr C F O Z. destruct (lin_below fi d data rho T Hr C) as (eps & _ & L).
  assert (F1 : lin_feasible d fi (vscal eps (leverage fi d data)) (base fi data)) by (split; [rewrite vscal_length; apply g_len; exact T|intros ->; reflexivity]).
  specialize (O _ _ F1).
  assert (E : coeff = repeat 0 d).
  { destruct F as [Lc _]. clear -Z Lc. revert d Lc. induction Z as [|w l Hw Z IH]; intros d Lc; destruct d as [|d]; try discriminate; [reflexivity|]. simpl. f_equal; [exact Hw|]. apply IH. injection Lc as Lc. exact Lc. }
  pose proof (lin_low fi d data T coeff b F) as Low. subst coeff. rewrite (dot_comm (leverage fi d data)), dot_repeat0, Rminus_0_r in Low.
  rewrite split_obj in O at 1. unfold norm2 at 1, sqnorm in O. rewrite dot_repeat0, sqrt_0, Rmult_0_r, Rplus_0_r in O.
  assert (S : 0 < spread fi data).
  { pose proof (sg_nonneg fi data) as [S|S]; [exact S|exfalso]. rewrite split_obj in L. rewrite <- S in L.
    pose proof (rms_nonneg (map (lin_residual (vscal eps (leverage fi d data)) (base fi data)) data)). pose proof (norm2_nonneg (vscal eps (leverage fi d data))). nra. }
  apply Rmult_le_reg_l in Low; [lra|exact S].
Qed.
Print Assumptions C158_below.

(* The same for the exact worst case over all plans that move the features by rho in the mean square (C50). *)
Theorem C158_worst_case :
  forall fi d rho data, tabular d data -> 0 <= rho ->
    ((forall coeff b c, lin_feasible d fi coeff b -> lin_worst_le d rho data coeff b c -> spread fi data <= c) <-> norm2 (leverage fi d data) <= rho * spread fi data).
Proof.
  intros fi d rho data T Hr. rewrite <- (C158_critical fi d rho data T Hr). split; intros W.
  - intros coeff b F. apply (W coeff b); [exact F|]. apply (Props_DedProg.C50_objective_is_worst_case d rho data coeff b); [exact Hr|apply T|apply T|apply F|lra].
  - intros coeff b c F K. eapply Rle_trans; [apply (W coeff b F)|]. apply (Props_DedProg.C50_objective_is_worst_case d rho data coeff b); [exact Hr|apply T|apply T|apply F|exact K].
Qed.
Print Assumptions C158_worst_case.

(* targets 1 and 3 at -2 and 2: covariance 2, standard deviation 1, critical radius 2; without intercept mean square 5, mean product 2 *)
Definition two_points : list (vec * R) := [([-2], 1); ([2], 3)].
Lemma two_ok : tabular 1 two_points.
Proof. split; [discriminate|]. repeat (apply Forall_cons || apply Forall_nil); reflexivity. Qed.
Lemma two_base : base true two_points = 2.
Proof. unfold base, rmean, two_points. simpl. field. Qed.
Lemma two_spread : spread true two_points = 1.
Proof. unfold spread. rewrite two_base. unfold rmean, two_points. simpl. replace (((1 - 2) * ((1 - 2) * 1) + ((3 - 2) * ((3 - 2) * 1) + 0)) / (1 + 1)) with (1 * 1) by field. apply sqrt_square. lra. Qed.
Lemma two_leverage fi : leverage fi 1 two_points = [2].
Proof. unfold leverage, vaverage. destruct fi; [rewrite two_base|]; unfold vscal, vadd, two_points; simpl; f_equal; field. Qed.
Lemma norm_two : norm2 [2] = 2.
Proof. unfold norm2, sqnorm, dot. simpl. replace (2 * 2 + 0) with (2 * 2) by ring. apply sqrt_square. lra. Qed.
Lemma two_spread0 : spread false two_points = sqrt 5.
Proof. unfold spread, base, rmean, two_points. simpl. f_equal. field. Qed.
Example C158_constant_case : lin_objective 7 two_points [0] 2 = 1.
Proof. pose proof (proj2 (C158_constant true 1 7 two_points two_ok)) as C. rewrite two_base, two_spread in C. exact C. Qed.
Example C158_critical_case : forall rho, 0 <= rho -> ((forall coeff b, lin_feasible 1 true coeff b -> 1 <= lin_objective rho two_points coeff b) <-> 2 <= rho).
Proof. intros rho Hr. pose proof (C158_critical true 1 rho two_points two_ok Hr) as C. rewrite two_spread, two_leverage, norm_two in C. rewrite C. split; lra. Qed.
(* without intercept the radius 1 is already over the critical radius 2 / sqrt 5, with intercept it is below *)
Example C158_only_constants_case : forall coeff b, lin_feasible 1 false coeff b ->
  (forall coeff' b', lin_feasible 1 false coeff' b' -> lin_objective 1 two_points coeff b <= lin_objective 1 two_points coeff' b') -> Forall (fun w => w = 0) coeff.
Proof.
  intros coeff b. apply (C158_only_constants false 1 1 two_points coeff b two_ok); [lra|]. rewrite two_leverage, norm_two, two_spread0.
  assert (sqrt 4 < sqrt 5) by (apply sqrt_lt_1; lra). replace 4 with (2 * 2) in * by ring. rewrite sqrt_square in * by lra. lra.
Qed.
Example C158_below_case : forall coeff b, lin_feasible 1 true coeff b ->
  (forall coeff' b', lin_feasible 1 true coeff' b' -> lin_objective 1 two_points coeff b <= lin_objective 1 two_points coeff' b') -> ~ Forall (fun w => w = 0) coeff.
Proof. intros coeff b. apply (C158_below true 1 1 two_points coeff b two_ok); [lra|]. rewrite two_leverage, norm_two, two_spread. lra. Qed.
Example C158_worst_case_case : forall coeff b c, lin_feasible 1 true coeff b -> lin_worst_le 1 2 two_points coeff b c -> 1 <= c.
Proof. pose proof (C158_worst_case true 1 2 two_points two_ok ltac:(lra)) as C. rewrite two_spread, two_leverage, norm_two in C. apply C. lra. Qed.
