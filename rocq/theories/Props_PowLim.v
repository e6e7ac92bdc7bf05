(* C23 at infinite values: the power of the starting multiplier is the limit of powers of positive reals, wherever there is one. *)
From Coq Require Import Reals List Lra.
From Verif Require Import PyBase RList XReal InitGuess_Model.
Local Open Scope R_scope.

(* ---------- specification: limits at infinity, with values in the extended reals ---------- *)
Definition lim (f : R -> R) (l : xr) : Prop :=
  match l with
  | Fin v => forall eps, 0 < eps -> exists T, forall t, T < t -> Rabs (f t - v) < eps
  | PInf => forall M, exists T, forall t, T < t -> M < f t
  | MInf => forall M, exists T, forall t, T < t -> f t < M
  | NaN => False
  end.
(* paths of positive numbers: x t stands for the base, and runs to 0, to infinity or stays; likewise the exponent *)
Inductive base : (R -> R) -> xr -> Prop :=
| BStay : forall r, 0 < r -> base (fun _ => r) (Fin r)
| BZero : base (fun t => / t) (Fin 0)
| BInf : base (fun t => t) PInf.
Inductive expo : (R -> R) -> xr -> Prop :=
| EStay : forall e, expo (fun _ => e) (Fin e)
| EInf : expo (fun t => t) PInf
| EMinf : expo (fun t => - t) MInf.

Lemma lim_ext f g l : (forall t, 1 < t -> f t = g t) -> lim g l -> lim f l.
Proof.
  intros E H. destruct l; cbn in *; try exact H.
  - intros eps He. destruct (H eps He) as [T HT]. exists (Rmax T 1). intros t Ht. pose proof (Rmax_l T 1). pose proof (Rmax_r T 1). rewrite E by lra. apply HT. lra.
  - intros M. destruct (H M) as [T HT]. exists (Rmax T 1). intros t Ht. pose proof (Rmax_l T 1). pose proof (Rmax_r T 1). rewrite E by lra. apply HT. lra.
  - intros M. destruct (H M) as [T HT]. exists (Rmax T 1). intros t Ht. pose proof (Rmax_l T 1). pose proof (Rmax_r T 1). rewrite E by lra. apply HT. lra.
Qed.
Lemma lim_const v : lim (fun _ => v) (Fin v).
Proof. intros eps He. exists 0. intros t _. replace (v - v) with 0 by lra. rewrite Rabs_R0. exact He. Qed.
Lemma exp_above x : x < exp x.
Proof. destruct (Req_dec x 0) as [->|N]; [rewrite exp_0; lra|]. pose proof (exp_ineq1 x N). lra. Qed.
Lemma lim_up g : lim g PInf -> lim (fun t => exp (g t)) PInf.
Proof. intros H M. destruct (H M) as [T HT]. exists T. intros t Ht. specialize (HT t Ht). pose proof (exp_above (g t)). lra. Qed.
Lemma lim_down g : lim g PInf -> lim (fun t => exp (- g t)) (Fin 0).
Proof.
  intros H eps He. destruct (H (/ eps)) as [T HT]. exists T. intros t Ht. specialize (HT t Ht). pose proof (exp_above (g t)). pose proof (Rinv_0_lt_compat _ He) as P.
  rewrite Rminus_0_r, Rabs_pos_eq by (left; apply exp_pos). rewrite exp_Ropp, <- (Rinv_inv eps). apply Rinv_lt_contravar; [apply Rmult_lt_0_compat; lra|lra].
Qed.
Lemma up_lin c : 0 < c -> lim (fun t => c * t) PInf.
Proof. intros Hc M. exists (M / c). intros t Ht. apply (Rmult_lt_compat_l c) in Ht; [|exact Hc]. replace (c * (M / c)) with M in Ht by (field; lra). exact Ht. Qed.
Lemma ln_above M t : exp M < t -> M < ln t.
Proof. intros H. rewrite <- (ln_exp M). apply ln_increasing; [apply exp_pos|exact H]. Qed.
Lemma up_ln c : 0 < c -> lim (fun t => c * ln t) PInf.
Proof.
  intros Hc M. exists (exp (M / c)). intros t Ht. apply ln_above in Ht. apply (Rmult_lt_compat_l c) in Ht; [|exact Hc]. replace (c * (M / c)) with M in Ht by (field; lra). exact Ht.
Qed.
Lemma up_tln : lim (fun t => t * ln t) PInf.
Proof.
  intros M. exists (Rmax (exp 1) M). intros t Ht. pose proof (Rmax_l (exp 1) M). pose proof (Rmax_r (exp 1) M). assert (L : 1 < ln t) by (apply ln_above; lra). pose proof (exp_pos 1). nra.
Qed.
Ltac inv_ln := intros t Ht; unfold Rpower; rewrite ?ln_Rinv by lra; f_equal; ring.

(* whatever positive base and exponent do along these paths, the powers tend to the value of the model. Along other paths 1^inf, inf^0 and 0^0 can have other limits: the finite part is held still here, which is the convention of IEEE *)
Theorem C23_power_limits : forall x xl e el, base x xl -> expo e el -> lim (fun t => Rpower (x t) (e t)) (xpow xl el).
Proof.
  intros x xl e el B E. destruct B as [r Hr| |]; destruct E as [e| |]; unfold xpow.
  - destruct (Reqb e 0) eqn:Z.
    + apply Reqb_true in Z. subst e. apply (lim_ext _ (fun _ => 1)); [|apply lim_const]. intros t _. apply Rpower_O. exact Hr.
    + assert (N : Reqb r 0 = false) by (apply Reqb_false; lra). rewrite N. apply lim_const.
  - destruct (Rltb r 1) eqn:L.
    + apply Rltb_true in L. assert (Hl : ln r < 0) by (rewrite <- ln_1; apply ln_increasing; lra).
      apply (lim_ext _ (fun t => exp (- (- ln r * t)))); [inv_ln|]. apply (lim_down (fun t => - ln r * t)), up_lin. lra.
    + apply Rltb_false in L. destruct (Reqb r 1) eqn:O.
      * apply Reqb_true in O. subst r. apply (lim_ext _ (fun _ => 1)); [|apply lim_const]. intros t _. unfold Rpower. rewrite ln_1, Rmult_0_r. apply exp_0.
      * apply Reqb_false in O. assert (Hl : 0 < ln r) by (rewrite <- ln_1; apply ln_increasing; lra).
        apply (lim_ext _ (fun t => exp (ln r * t))); [inv_ln|]. apply (lim_up (fun t => ln r * t)), up_lin. exact Hl.
  - destruct (Rltb r 1) eqn:L.
    + apply Rltb_true in L. assert (Hl : ln r < 0) by (rewrite <- ln_1; apply ln_increasing; lra).
      apply (lim_ext _ (fun t => exp (- ln r * t))); [inv_ln|]. apply (lim_up (fun t => - ln r * t)), up_lin. lra.
    + apply Rltb_false in L. destruct (Reqb r 1) eqn:O.
      * apply Reqb_true in O. subst r. apply (lim_ext _ (fun _ => 1)); [|apply lim_const]. intros t _. unfold Rpower. rewrite ln_1, Rmult_0_r. apply exp_0.
      * apply Reqb_false in O. assert (Hl : 0 < ln r) by (rewrite <- ln_1; apply ln_increasing; lra).
        apply (lim_ext _ (fun t => exp (- (ln r * t)))); [inv_ln|]. apply (lim_down (fun t => ln r * t)), up_lin. exact Hl.
  - destruct (Reqb e 0) eqn:Z.
    + apply Reqb_true in Z. subst e. apply (lim_ext _ (fun _ => 1)); [|apply lim_const]. intros t Ht. apply Rpower_O. apply Rinv_0_lt_compat. lra.
    + apply Reqb_false in Z. assert (N : Reqb 0 0 = true) by (apply Reqb_true; reflexivity). rewrite N. destruct (Rltb 0 e) eqn:L.
      * apply Rltb_true in L. apply (lim_ext _ (fun t => exp (- (e * ln t)))); [inv_ln|]. apply (lim_down (fun t => e * ln t)), up_ln. exact L.
      * apply Rltb_false in L. apply (lim_ext _ (fun t => exp (- e * ln t))); [inv_ln|]. apply (lim_up (fun t => - e * ln t)), up_ln. lra.
  - assert (L : Rltb 0 1 = true) by (apply Rltb_true; lra). rewrite L. apply (lim_ext _ (fun t => exp (- (t * ln t)))); [inv_ln|]. apply (lim_down (fun t => t * ln t)), up_tln.
  - assert (L : Rltb 0 1 = true) by (apply Rltb_true; lra). rewrite L. apply (lim_ext _ (fun t => exp (t * ln t))); [inv_ln|]. apply (lim_up (fun t => t * ln t)), up_tln.
  - destruct (Reqb e 0) eqn:Z.
    + apply Reqb_true in Z. subst e. apply (lim_ext _ (fun _ => 1)); [|apply lim_const]. intros t Ht. apply Rpower_O. lra.
    + apply Reqb_false in Z. destruct (Rltb 0 e) eqn:L.
      * apply Rltb_true in L. apply (lim_ext _ (fun t => exp (e * ln t))); [inv_ln|]. apply (lim_up (fun t => e * ln t)), up_ln. exact L.
      * apply Rltb_false in L. apply (lim_ext _ (fun t => exp (- (- e * ln t)))); [inv_ln|]. apply (lim_down (fun t => - e * ln t)), up_ln. lra.
  - apply (lim_ext _ (fun t => exp (t * ln t))); [inv_ln|]. apply (lim_up (fun t => t * ln t)), up_tln.
  - apply (lim_ext _ (fun t => exp (- (t * ln t)))); [inv_ln|]. apply (lim_down (fun t => t * ln t)), up_tln.
Qed.
(* a limit is unique, so that the theorem leaves no freedom in the value *)
Theorem C23_power_limit_unique : forall f l m, lim f l -> lim f m -> l = m.
Proof.
  intros f l m H K. destruct l as [v| | |], m as [w| | |]; cbn in H, K; try contradiction; try reflexivity.
  - destruct (Req_dec v w) as [->|N]; [reflexivity|exfalso]. assert (P : 0 < Rabs (v - w) / 2) by (pose proof (Rabs_pos_lt (v - w)); lra).
    destruct (H _ P) as [T HT]. destruct (K _ P) as [S HS]. pose proof (Rmax_l T S). pose proof (Rmax_r T S). specialize (HT (Rmax T S + 1) ltac:(lra)). specialize (HS (Rmax T S + 1) ltac:(lra)).
    revert HT HS. generalize (f (Rmax T S + 1)). intros y A B. pose proof (Rabs_triang (v - y) (y - w)) as Q. replace (v - y + (y - w)) with (v - w) in Q by lra. rewrite (Rabs_minus_sym v y) in Q. lra.
  - exfalso. destruct (H 1 ltac:(lra)) as [T HT]. destruct (K (v + 1)) as [S HS]. pose proof (Rmax_l T S). pose proof (Rmax_r T S). specialize (HT (Rmax T S + 1) ltac:(lra)). specialize (HS (Rmax T S + 1) ltac:(lra)). apply Rabs_def2 in HT. lra.
  - exfalso. destruct (H 1 ltac:(lra)) as [T HT]. destruct (K (v - 1)) as [S HS]. pose proof (Rmax_l T S). pose proof (Rmax_r T S). specialize (HT (Rmax T S + 1) ltac:(lra)). specialize (HS (Rmax T S + 1) ltac:(lra)). apply Rabs_def2 in HT. lra.
  - exfalso. destruct (K 1 ltac:(lra)) as [T HT]. destruct (H (w + 1)) as [S HS]. pose proof (Rmax_l T S). pose proof (Rmax_r T S). specialize (HT (Rmax T S + 1) ltac:(lra)). specialize (HS (Rmax T S + 1) ltac:(lra)). apply Rabs_def2 in HT. lra.
  - exfalso. destruct (H 0) as [T HT]. destruct (K 0) as [S HS]. pose proof (Rmax_l T S). pose proof (Rmax_r T S). specialize (HT (Rmax T S + 1) ltac:(lra)). specialize (HS (Rmax T S + 1) ltac:(lra)). lra.
  - exfalso. destruct (K 1 ltac:(lra)) as [T HT]. destruct (H (w - 1)) as [S HS]. pose proof (Rmax_l T S). pose proof (Rmax_r T S). specialize (HT (Rmax T S + 1) ltac:(lra)). specialize (HS (Rmax T S + 1) ltac:(lra)). apply Rabs_def2 in HT. lra.
  - exfalso. destruct (H 0) as [T HT]. destruct (K 0) as [S HS]. pose proof (Rmax_l T S). pose proof (Rmax_r T S). specialize (HT (Rmax T S + 1) ltac:(lra)). specialize (HS (Rmax T S + 1) ltac:(lra)). lra.
Qed.
(* not a number spreads, but for the two values that do not depend on it: anything to the power 0, and 1 to any power *)
Theorem C23_power_nan : (forall e, xpow NaN e <> NaN <-> e = Fin 0) /\ (forall x, xpow x NaN <> NaN <-> x = Fin 1) /\
  (forall e v, xpow NaN e = v -> v = NaN \/ v = Fin 1) /\ (forall x v, xpow x NaN = v -> v = NaN \/ v = Fin 1).
Proof.
  split; [|split; [|split]].
  - intros [e| | |]; cbn; try (split; [congruence|discriminate]). destruct (Reqb e 0) eqn:Z.
    + apply Reqb_true in Z. subst e. split; [reflexivity|discriminate].
    + apply Reqb_false in Z. split; [congruence|]. intros Q. injection Q as ->. contradiction.
  - intros [r| | |]; cbn; try (split; [congruence|discriminate]). destruct (Reqb r 1) eqn:Z.
    + apply Reqb_true in Z. subst r. split; [reflexivity|discriminate].
    + apply Reqb_false in Z. split; [congruence|]. intros Q. injection Q as ->. contradiction.
  - intros [e| | |] v <-; cbn; try tauto. destruct (Reqb e 0); tauto.
  - intros [r| | |] v <-; cbn; try tauto. destruct (Reqb r 1); tauto.
Qed.
Example C23_power_limits_case : base (fun t => / t) (Fin 0) /\ expo (fun t => - t) MInf /\ xpow (Fin 0) MInf = PInf /\ lim (fun t => Rpower (/ t) (- t)) PInf.
Proof.
  split; [constructor|]. split; [constructor|]. assert (E : xpow (Fin 0) MInf = PInf) by (cbn; destruct (Rltb 0 1) eqn:L; [reflexivity|apply Rltb_false in L; lra]).
  split; [exact E|]. rewrite <- E. apply C23_power_limits; constructor.
Qed.
Example C23_power_limit_unique_case : lim (fun _ => 2) (Fin 2) /\ ~ lim (fun _ => 2) PInf.
Proof. split; [apply lim_const|]. intros H. discriminate (C23_power_limit_unique _ _ _ (lim_const 2) H). Qed.
Print Assumptions C23_power_limits.
Print Assumptions C23_power_limit_unique.
Print Assumptions C23_power_nan.
