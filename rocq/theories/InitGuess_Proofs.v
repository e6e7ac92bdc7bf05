From Coq Require Import Reals List Bool Lra Lia.
From Verif Require Import PyBase RList XReal Costs_Model Costs_Proofs InitGuess_Model InitGuess_Spec.
Import ListNotations.
Local Open Scope R_scope.

Lemma norm2_nil_zero d : Forall (fun a => a = 0) d -> norm2 d = 0.
Proof. intros H. rewrite <- pnorm_2. apply pnorm_all0. exact H. Qed.

Lemma conj_gt1 p q : 1 < p -> / p + / q = 1 -> 1 < q /\ p * (q - 1) = q /\ q = p / (p - 1).
Proof.
  intros Hp Hpq. assert (H1 : / q = 1 - / p) by lra.
  assert (Hip : 0 < / p < 1).
  { split; [apply Rinv_0_lt_compat; lra|]. rewrite <- Rinv_1. apply Rinv_lt_contravar; lra. }
  assert (Hq0 : q <> 0). { intros ->. rewrite Rinv_0 in H1. lra. }
  assert (Hq : q = p / (p - 1)).
  { rewrite <- (Rinv_inv q), H1. field. split; lra. }
  assert (Hq1 : q - 1 = / (p - 1)) by (rewrite Hq; field; lra).
  assert (0 < / (p - 1)) by (apply Rinv_0_lt_compat; lra).
  split; [lra|]. split; [|exact Hq]. rewrite Hq1, Hq. reflexivity.
Qed.

Lemma nonzero_norm g : nonzero g -> 0 < norm2 g.
Proof.
  intros [a [Ha Hn]]. destruct (norm2_nonneg g) as [H|H]; [exact H|]. exfalso.
  symmetry in H. apply norm2_zero in H. rewrite Forall_forall in H. apply Hn, H, Ha.
Qed.

Lemma Rpower_pow_split x a b : 0 < x -> Rpower x (a + b) = Rpower x a * Rpower x b.
Proof. intros _. apply Rpower_plus. Qed.

Lemma gain_upper p q lam G t :
  1 < p -> / p + / q = 1 -> 0 < lam -> 0 <= G -> 0 <= t ->
  G * t - lam * ppow t p <= ppow G q * Rpower (p * lam) (1 - q) / q.
Proof.
  intros Hp Hpq Hl HG Ht. destruct (conj_gt1 p q Hp Hpq) as [Hq [Hpq' _]].
  assert (Hpl : 0 < p * lam) by nra.
  set (c := Rpower (p * lam) (/ p)). assert (Hc : 0 < c) by apply exp_pos.
  pose proof (young (t * c) (G * / c) p q Hp Hpq) as Y.
  assert (0 < / c) by (apply Rinv_0_lt_compat; exact Hc).
  specialize (Y ltac:(nra) ltac:(nra)).
  replace (t * c * (G * / c)) with (G * t) in Y by (field; lra).
  rewrite !ppow_mult in Y by lra.
  rewrite (ppow_pos c), (ppow_pos (/ c)) in Y by lra.
  assert (E1 : Rpower c p = p * lam).
  { unfold c. rewrite Rpower_mult, Rinv_l, Rpower_1 by lra. reflexivity. }
  assert (E2 : Rpower (/ c) q = Rpower (p * lam) (1 - q)).
  { unfold c. rewrite <- Rpower_Ropp, Rpower_mult. f_equal.
    replace q with (p * (q - 1)) at 1 by exact Hpq'. field. lra. }
  rewrite E1, E2 in Y. replace (ppow t p * (p * lam) / p) with (lam * ppow t p) in Y by (field; lra). lra.
Qed.

Lemma gain_attained p q lam G :
  1 < p -> / p + / q = 1 -> 0 < lam -> 0 < G ->
  exists t, 0 <= t /\ G * t - lam * ppow t p = ppow G q * Rpower (p * lam) (1 - q) / q.
Proof.
  intros Hp Hpq Hl HG. destruct (conj_gt1 p q Hp Hpq) as [Hq [Hpq' _]].
  assert (Hpl : 0 < p * lam) by nra.
  exists (Rpower (G / (p * lam)) (q - 1)). split; [left; apply exp_pos|].
  rewrite ppow_pos by apply exp_pos. rewrite Rpower_mult.
  replace ((q - 1) * p) with q by lra.
  assert (Hd : 0 < / (p * lam)) by (apply Rinv_0_lt_compat; exact Hpl).
  unfold Rdiv at 1 2. rewrite <- !Rpower_mult_distr by lra.
  rewrite ppow_pos by exact HG.
  rewrite <- (Rpower_1 (p * lam)) at 1 2 by exact Hpl. rewrite <- !Rpower_Ropp, !Rpower_mult.
  replace (-1 * (q - 1)) with (1 - q) by lra.
  replace (- (1) * (q - 1)) with (1 - q) by ring. replace (- (1) * q) with (1 - q + - (1)) by ring.
  rewrite Rpower_plus. rewrite (Rpower_Ropp (p * lam) 1), (Rpower_1 (p * lam)) by exact Hpl.
  replace (G * (Rpower G (q - 1) * Rpower (p * lam) (1 - q))) with (Rpower G q * Rpower (p * lam) (1 - q)).
  2:{ replace q with (1 + (q - 1)) at 1 by ring. rewrite Rpower_plus, (Rpower_1 G) by exact HG. ring. }
  unfold Rdiv. replace (/ q) with (1 - / p) by lra. rewrite (Rpower_mult_distr p lam) by lra. field. lra.
Qed.

Lemma gain_value p q lam g :
  1 < p -> / p + / q = 1 -> 0 < lam ->
  lin_gain norm2 p lam g (ppow (norm2 g) q * Rpower (p * lam) (1 - q) / q).
Proof.
  intros Hp Hpq Hl. split.
  - intros x [d [Hd ->]]. pose proof (cauchy_schwarz g d (eq_sym Hd)).
    pose proof (gain_upper p q lam (norm2 g) (norm2 d) Hp Hpq Hl (norm2_nonneg g) (norm2_nonneg d)). lra.
  - intros b Hb. destruct (norm2_nonneg g) as [HG|HG].
    + destruct (gain_attained p q lam (norm2 g) Hp Hpq Hl HG) as [t [Ht E]]. rewrite <- E. apply Hb.
      exists (vscal (t / norm2 g) g). split; [apply vscal_length|].
      rewrite dot_vscal_r, norm2_vscal. fold (sqnorm g). rewrite <- norm2_sq.
      rewrite Rabs_right. 2:{ apply Rle_ge. unfold Rdiv. apply Rmult_le_pos; [exact Ht|]. left. apply Rinv_0_lt_compat, HG. }
      replace (t / norm2 g * norm2 g) with t by (field; lra). f_equal. field. lra.
    + rewrite <- HG, ppow_0. apply Hb. exists (vscal 0 g). split; [apply vscal_length|].
      rewrite dot_vscal_r, norm2_vscal, Rabs_R0, !Rmult_0_l, ppow_0. unfold Rdiv. ring.
Qed.

Lemma lub_unique E a b : is_lub E a -> is_lub E b -> a = b.
Proof. intros [H1 H2] [H3 H4]. apply Rle_antisym; auto. Qed.

Lemma gains_unique p q lam grads gains :
  1 < p -> / p + / q = 1 -> 0 < lam -> Forall2 (lin_gain norm2 p lam) grads gains ->
  gains = map (fun g => ppow (norm2 g) q * Rpower (p * lam) (1 - q) / q) grads.
Proof.
  intros Hp Hpq Hl H. induction H as [|g s l l' Hg H IH]; [reflexivity|]. simpl. f_equal; [|exact IH].
  exact (lub_unique _ _ _ Hg (gain_value p q lam g Hp Hpq Hl)).
Qed.

Definition moment (q : R) (grads : list vec) : R := rmean (map (fun g => ppow (norm2 g) q) grads).

Lemma gains_forall p q lam grads :
  1 < p -> / p + / q = 1 -> 0 < lam ->
  Forall2 (lin_gain norm2 p lam) grads (map (fun g => ppow (norm2 g) q * Rpower (p * lam) (1 - q) / q) grads).
Proof. intros Hp Hpq Hl. induction grads as [|g r IH]; simpl; constructor; [apply gain_value; assumption|exact IH]. Qed.

Lemma lin_dual_value p q rho grads lam v :
  1 < p -> / p + / q = 1 -> 0 < lam ->
  (lin_dual norm2 p rho grads lam v <-> v = lam * Rpower rho p + moment q grads * Rpower (p * lam) (1 - q) / q).
Proof.
  intros Hp Hpq Hl.
  assert (E : rmean (map (fun g => ppow (norm2 g) q * Rpower (p * lam) (1 - q) / q) grads)
              = moment q grads * Rpower (p * lam) (1 - q) / q).
  { unfold moment. rewrite (map_ext _ (fun g => (Rpower (p * lam) (1 - q) / q) * ppow (norm2 g) q)).
    - rewrite rmean_map_scal. unfold Rdiv. ring.
    - intros g. unfold Rdiv. ring. }
  split.
  - intros [gains [H ->]]. rewrite (gains_unique p q lam grads gains Hp Hpq Hl H), E. reflexivity.
  - intros ->. eexists. split; [apply gains_forall; eassumption|]. rewrite E. reflexivity.
Qed.

Lemma moment_pos q grads : Exists nonzero grads -> 0 < moment q grads.
Proof.
  intros H. assert (Hne : grads <> []) by (intros ->; inversion H).
  unfold moment, rmean. apply Rdiv_lt_0_compat; [|rewrite map_length; apply INR_length_pos, Hne].
  clear Hne. induction H as [g l Hg|g l H IH]; simpl.
  - pose proof (ppow_gt0 _ q (nonzero_norm g Hg)).
    assert (0 <= rsum (map (fun g => ppow (norm2 g) q) l)) by (apply rsum_map_nonneg; intros; apply ppow_nonneg). lra.
  - pose proof (ppow_nonneg (norm2 g) q). lra.
Qed.

(* s/p + s^(1-q)/q >= 1 with equality only at s = 1 *)
Lemma scalar_strict p q s : 1 < p -> / p + / q = 1 -> 0 < s -> s <> 1 -> 1 < s / p + Rpower s (1 - q) / q.
Proof.
  intros Hp Hpq Hs Hn. destruct (conj_gt1 p q Hp Hpq) as [Hq _].
  assert (Hx : ln s <> 0). { intros E. apply Hn. rewrite <- (exp_ln s Hs), E. apply exp_0. }
  assert (Hip : 0 < / p) by (apply Rinv_0_lt_compat; lra). assert (Hiq : 0 < / q) by (apply Rinv_0_lt_compat; lra).
  pose proof (exp_ineq1 (ln s) Hx) as H1. rewrite exp_ln in H1 by exact Hs.
  assert (H2 : 1 + (1 - q) * ln s < Rpower s (1 - q)).
  { unfold Rpower. apply exp_ineq1. intros E. apply Rmult_integral in E. destruct E as [E|E]; lra. }
  unfold Rdiv.
  assert (H3 : 1 = (1 + ln s) * / p + (1 + (1 - q) * ln s) * / q).
  { replace (/ p) with (1 - / q) by lra. field. lra. }
  rewrite H3 at 1.
  apply Rplus_lt_compat; apply Rmult_lt_compat_r; assumption.
Qed.

Definition best_mult (p q rho : R) (grads : list vec) : R := Rpower (moment q grads / Rpower rho p) (/ q) / p.

Lemma best_value p q rho grads :
  1 < p -> / p + / q = 1 -> 0 < moment q grads ->
  0 < best_mult p q rho grads /\
  lin_dual norm2 p rho grads (best_mult p q rho grads) (p * best_mult p q rho grads * Rpower rho p) /\
  forall s, 0 < s ->
    lin_dual norm2 p rho grads (s * best_mult p q rho grads)
      (p * best_mult p q rho grads * Rpower rho p * (s / p + Rpower s (1 - q) / q)).
Proof.
  intros Hp Hpq HA. destruct (conj_gt1 p q Hp Hpq) as [Hq _].
  set (A := moment q grads) in *. set (r := Rpower rho p). assert (Hr : 0 < r) by apply exp_pos.
  assert (Hb : 0 < best_mult p q rho grads).
  { unfold best_mult. apply Rdiv_lt_0_compat; [apply exp_pos|lra]. }
  set (b := best_mult p q rho grads) in *.
  assert (Hbq : Rpower (p * b) q = A / r).
  { unfold b, best_mult. fold A r. replace (p * (Rpower (A / r) (/ q) / p)) with (Rpower (A / r) (/ q)) by (field; lra).
    rewrite Rpower_mult, Rinv_l, Rpower_1; [reflexivity|apply Rdiv_lt_0_compat; assumption|lra]. }
  assert (Hb1 : A * Rpower (p * b) (1 - q) = p * b * r).
  { unfold Rminus. rewrite Rpower_plus, Rpower_Ropp, Hbq, Rpower_1 by nra. field. lra. }
  assert (HS : forall s, 0 < s -> lin_dual norm2 p rho grads (s * b) (p * b * r * (s / p + Rpower s (1 - q) / q))).
  { intros s Hs. rewrite (lin_dual_value p q) by (try assumption; nra). fold A r.
    replace (p * (s * b)) with (s * (p * b)) by ring. rewrite <- Rpower_mult_distr by nra.
    replace (A * (Rpower s (1 - q) * Rpower (p * b) (1 - q)) / q) with ((A * Rpower (p * b) (1 - q)) * Rpower s (1 - q) / q)
      by (unfold Rdiv; ring). rewrite Hb1. field. lra. }
  split; [exact Hb|]. split; [|exact HS].
  pose proof (HS 1 ltac:(lra)) as H1. rewrite Rmult_1_l in H1.
  replace (p * b * r) with (p * b * r * (1 / p + Rpower 1 (1 - q) / q)); [exact H1|].
  replace (Rpower 1 (1 - q)) with 1. 2:{ unfold Rpower. rewrite ln_1, Rmult_0_r, exp_0. reflexivity. }
  unfold Rdiv. rewrite <- Rmult_plus_distr_l, Hpq. ring.
Qed.

Lemma best_strict p q rho grads lam v :
  1 < p -> / p + / q = 1 -> 0 < moment q grads -> 0 < lam -> lam <> best_mult p q rho grads ->
  lin_dual norm2 p rho grads lam v -> p * best_mult p q rho grads * Rpower rho p < v.
Proof.
  intros Hp Hpq HA Hl Hn Hv. destruct (best_value p q rho grads Hp Hpq HA) as [Hb [_ HS]].
  set (b := best_mult p q rho grads) in *.
  assert (Hs : 0 < lam / b) by (apply Rdiv_lt_0_compat; assumption).
  specialize (HS (lam / b) Hs). replace (lam / b * b) with lam in HS by (field; lra).
  assert (E : v = p * b * Rpower rho p * (lam / b / p + Rpower (lam / b) (1 - q) / q)).
  { rewrite (lin_dual_value p q) in Hv, HS by assumption. congruence. }
  rewrite E. assert (H0 : 0 < p * b * Rpower rho p).
  { apply Rmult_lt_0_compat; [nra|apply exp_pos]. }
  pose proof (scalar_strict p q (lam / b) Hp Hpq Hs) as H. assert (lam / b <> 1).
  { intros E1. apply Hn. apply (Rmult_eq_compat_r b) in E1. replace (lam / b * b) with lam in E1 by (field; lra). lra. }
  specialize (H H1). nra.
Qed.

(* at lam = 0 the linearised dual is infinite *)
Lemma zero_mult_infinite p rho grads v : Exists nonzero grads -> ~ lin_dual norm2 p rho grads 0 v.
Proof.
  intros H [gains [HF _]]. revert gains HF. induction H as [g l Hg|g l H IH]; intros gains HF; inversion HF as [|? s ? ss Hgs Hr]; subst.
  - destruct Hgs as [Hub _]. pose proof (nonzero_norm g Hg) as HG.
    assert (Hq : 0 < sqnorm g) by (rewrite <- norm2_sq; nra).
    specialize (Hub (dot g (vscal ((Rabs s + 1) / sqnorm g) g) - 0 * ppow (norm2 (vscal ((Rabs s + 1) / sqnorm g) g)) p)).
    assert (X : dot g (vscal ((Rabs s + 1) / sqnorm g) g) - 0 * ppow (norm2 (vscal ((Rabs s + 1) / sqnorm g) g)) p <= s).
    { apply Hub. eexists. split; [apply vscal_length|reflexivity]. }
    rewrite dot_vscal_r, Rmult_0_l in X. fold (sqnorm g) in X.
    replace ((Rabs s + 1) / sqnorm g * sqnorm g) with (Rabs s + 1) in X by (field; lra).
    pose proof (Rle_abs s). lra.
  - eapply IH. exact Hr.
Qed.

(* ---- the value computed by the code ---- *)
Lemma vsub_zeros g : vsub g (zeros_like g) = g.
Proof. unfold vsub, zeros_like. induction g as [|a g IH]; simpl; [reflexivity|]. f_equal; [ring|exact IH]. Qed.

Lemma grads_norms_2 p grads : 0 < p -> grads_norms (PFin 2) p grads = map (fun g => ppow (norm2 g) p) grads.
Proof.
  intros Hp. unfold grads_norms. apply map_ext. intros g. unfold nc_value. rewrite vsub_zeros, pnorm_2. apply tpow_pos, Hp.
Qed.

Lemma xpow_fin x e : 0 <= x -> 0 < e -> xpow (Fin x) (Fin e) = Fin (ppow x e).
Proof.
  intros Hx He. simpl. destruct (Reqb e 0) eqn:E; [apply Reqb_true in E; lra|].
  destruct (Reqb x 0) eqn:E0.
  - apply Reqb_true in E0. subst. assert (E1 : Rltb 0 e = true) by (apply Rltb_true; exact He). rewrite E1, ppow_0. reflexivity.
  - apply Reqb_false in E0. rewrite ppow_pos by lra. reflexivity.
Qed.

Lemma xsum_fin {A} (f : A -> R) l : xsum (map (fun a => Fin (f a)) l) = Fin (rsum (map f l)).
Proof. induction l as [|a l IH]; [reflexivity|]. unfold xsum in *. simpl. rewrite IH. reflexivity. Qed.

Lemma guess_value p q rho lam grads :
  1 < p -> / p + / q = 1 -> 0 < rho -> Exists nonzero grads ->
  initial_guess (Fin rho) (Fin lam) true p (grads_norms (PFin 2) p grads) = Ok (Fin (best_mult p q rho grads)).
Proof.
  intros Hp Hpq Hr Hex. destruct (conj_gt1 p q Hp Hpq) as [Hq [Hpq' Hqe]].
  assert (Hne : grads <> []) by (intros ->; inversion Hex).
  pose proof (moment_pos q grads Hex) as HA.
  unfold initial_guess. simpl xlt. assert (E : Rltb 0 rho = true) by (apply Rltb_true; exact Hr). rewrite E.
  assert (E1 : Reqb p 1 = false) by (apply Reqb_false; lra). rewrite E1, <- Hqe.
  rewrite grads_norms_2, map_length by lra. rewrite xpow_fin by lra. rewrite ppow_pos by exact Hr.
  set (m := INR (length grads)). assert (Hm : 0 < m) by apply INR_length_pos, Hne.
  set (r := Rpower rho p). assert (Hrp : 0 < r) by apply exp_pos.
  cbn [xmul xsub xopp xadd]. rewrite map_map. change (q + - (1)) with (q - 1).
  assert (Hmr : 0 < m * r) by nra.
  rewrite (map_ext _ (fun g => Fin (ppow (norm2 g) q * Rpower (m * r) (q - 1)))).
  2:{ intros g. rewrite xpow_fin by (try lra; pose proof (ppow_nonneg (norm2 g) p); nra). f_equal.
      rewrite ppow_mult by (try apply ppow_nonneg; lra). rewrite ppow_ppow, Hpq', (ppow_pos (m * r)) by exact Hmr. reflexivity. }
  rewrite xsum_fin.
  rewrite (map_ext _ (fun g => Rpower (m * r) (q - 1) * ppow (norm2 g) q)) by (intros; ring).
  rewrite rsum_map_scal.
  assert (ES : rsum (map (fun g => ppow (norm2 g) q) grads) = m * moment q grads).
  { unfold moment, rmean. rewrite map_length. fold m. field. lra. }
  rewrite ES. simpl xdiv at 2. assert (Eq0 : Reqb q 0 = false) by (apply Reqb_false; lra). rewrite Eq0.
  assert (Hs : 0 < Rpower (m * r) (q - 1) * (m * moment q grads)).
  { apply Rmult_lt_0_compat; [apply exp_pos|nra]. }
  rewrite xpow_fin by (try lra; apply Rdiv_lt_0_compat; lra). rewrite ppow_pos by exact Hs.
  simpl. assert (Ez : Reqb (p * (m * r)) 0 = false) by (apply Reqb_false; nra). rewrite Ez. do 2 f_equal.
  rewrite Rmult_0_r, Rplus_0_l. unfold best_mult. fold r.
  replace (Rpower (m * r) (q - 1) * (m * moment q grads)) with (moment q grads / r * Rpower (m * r) q).
  2:{ replace q with (q - 1 + 1) at 2 by ring. rewrite Rpower_plus, (Rpower_1 (m * r)) by exact Hmr. field. lra. }
  rewrite <- Rpower_mult_distr; [|apply Rdiv_lt_0_compat; assumption|apply exp_pos].
  rewrite Rpower_mult. replace (q * (1 / q)) with 1 by (field; lra). rewrite (Rpower_1 (m * r)) by exact Hmr.
  replace (1 / q) with (/ q) by (unfold Rdiv; ring). field. lra.
Qed.

Theorem guess_optimal p rho lam grads :
  1 < p -> 0 < rho -> Exists nonzero grads ->
  exists lam0 v0,
    initial_guess (Fin rho) (Fin lam) true p (grads_norms (PFin 2) p grads) = Ok (Fin lam0) /\
    0 < lam0 /\ lin_dual norm2 p rho grads lam0 v0 /\
    forall l v, 0 <= l -> l <> lam0 -> lin_dual norm2 p rho grads l v -> v0 < v.
Proof.
  intros Hp Hr Hex. set (q := p / (p - 1)).
  assert (Hpq : / p + / q = 1) by (unfold q; field; lra).
  pose proof (moment_pos q grads Hex) as HA.
  exists (best_mult p q rho grads), (p * best_mult p q rho grads * Rpower rho p).
  split; [apply guess_value; assumption|].
  destruct (best_value p q rho grads Hp Hpq HA) as [Hb [H1 _]]. split; [exact Hb|]. split; [exact H1|].
  intros l v [Hl|Hl] Hn Hv.
  - exact (best_strict p q rho grads l v Hp Hpq HA Hl Hn Hv).
  - exfalso. subst l. exact (zero_mult_infinite p rho grads v Hex Hv).
Qed.

(* the optimal value is rho times the q-mean of the gradient norms *)
Lemma guess_best_value p rho lam grads :
  1 < p -> 0 < rho -> Exists nonzero grads ->
  exists lam0, initial_guess (Fin rho) (Fin lam) true p (grads_norms (PFin 2) p grads) = Ok (Fin lam0) /\
    lin_dual norm2 p rho grads lam0
      (rho * ppow (rmean (map (fun g => ppow (norm2 g) (p / (p - 1))) grads)) (1 - / p)).
Proof.
  intros Hp Hr Hex. set (q := p / (p - 1)).
  assert (Hpq : / p + / q = 1) by (unfold q; field; lra).
  pose proof (moment_pos q grads Hex) as HA. destruct (conj_gt1 p q Hp Hpq) as [Hq [Hpq' _]].
  exists (best_mult p q rho grads). split; [apply guess_value; assumption|].
  destruct (best_value p q rho grads Hp Hpq HA) as [Hb [H1 _]].
  fold (moment q grads). rewrite ppow_pos by exact HA. replace (1 - / p) with (/ q) by lra.
  replace (rho * Rpower (moment q grads) (/ q)) with (p * best_mult p q rho grads * Rpower rho p); [exact H1|].
  unfold best_mult. unfold Rdiv at 2. rewrite <- Rpower_mult_distr; [|exact HA|apply Rinv_0_lt_compat, exp_pos].
  rewrite <- Rpower_Ropp, Rpower_mult.
  replace (p * (Rpower (moment q grads) (/ q) * Rpower rho (- p * / q) / p) * Rpower rho p)
    with (Rpower (moment q grads) (/ q) * (Rpower rho (- p * / q) * Rpower rho p)) by (field; lra).
  rewrite <- Rpower_plus. replace (- p * / q + p) with 1.
  2:{ replace (/ q) with (1 - / p) by lra. field. lra. }
  rewrite Rpower_1 by exact Hr. ring.
Qed.

Lemma guess_no_radius rho lam norm_cost power gn : xlt (Fin 0) rho = false -> initial_guess rho (Fin lam) norm_cost power gn = Ok (Fin 0).
Proof. intros H. unfold initial_guess. rewrite H. simpl. rewrite Rmult_0_r. reflexivity. Qed.

Lemma guess_zero_gradients p rho lam grads :
  1 < p -> 0 < rho -> grads <> [] -> Forall (Forall (fun a => a = 0)) grads ->
  initial_guess (Fin rho) (Fin lam) true p (grads_norms (PFin 2) p grads) = Ok (Fin 0).
Proof.
  intros Hp Hr Hne H0. set (q := p / (p - 1)).
  assert (Hpq : / p + / q = 1) by (unfold q; field; lra). destruct (conj_gt1 p q Hp Hpq) as [Hq [Hpq' _]].
  unfold initial_guess. simpl xlt. assert (E : Rltb 0 rho = true) by (apply Rltb_true; exact Hr). rewrite E.
  assert (E1 : Reqb p 1 = false) by (apply Reqb_false; lra). rewrite E1. fold q.
  rewrite grads_norms_2, map_length by lra. rewrite xpow_fin by lra. rewrite ppow_pos by exact Hr.
  set (m := INR (length grads)). assert (Hm : 0 < m) by apply INR_length_pos, Hne.
  set (r := Rpower rho p). assert (Hrp : 0 < r) by apply exp_pos.
  cbn [xmul xsub xopp xadd]. rewrite map_map. change (q + - (1)) with (q - 1).
  rewrite (map_ext_in _ (fun g => Fin 0)).
  2:{ intros g Hg. rewrite Forall_forall in H0. rewrite (norm2_nil_zero g (H0 g Hg)), ppow_0, Rmult_0_l, xpow_fin, ppow_0 by lra. reflexivity. }
  rewrite (xsum_fin (fun _ => 0)), rsum_map_const, Rmult_0_r.
  simpl xdiv at 2. assert (Eq0 : Reqb q 0 = false) by (apply Reqb_false; lra). rewrite Eq0.
  rewrite (xpow_fin 0 (1 / q)), ppow_0 by (try lra; apply Rdiv_lt_0_compat; lra). match goal with |- context [xdiv (Fin 0) (Fin ?x)] => change x with (p * (m * r)) end.
  assert (Hmr : 0 < m * r) by nra. unfold xdiv; assert (Ez : Reqb (p * (m * r)) 0 = false) by (apply Reqb_false; nra). rewrite Ez. do 2 f_equal. unfold Rdiv. ring.
Qed.

Lemma guess_not_norm rho lam power gn : 0 < rho -> initial_guess (Fin rho) lam false power gn = Raise RuntimeError.
Proof. intros H. unfold initial_guess. simpl. assert (E : Rltb 0 rho = true) by (apply Rltb_true; exact H). rewrite E. reflexivity. Qed.

(* ---- power 1 ---- *)
Lemma guess_power_one rho lam gn :
  0 < rho -> gn <> [] -> initial_guess (Fin rho) (Fin lam) true 1 gn = Ok (Fin (/ (INR (length gn) * rho))).
Proof.
  intros Hr Hne. unfold initial_guess. simpl xlt. assert (E : Rltb 0 rho = true) by (apply Rltb_true; exact Hr). rewrite E.
  assert (E1 : Reqb 1 1 = true) by (apply Reqb_true; reflexivity). rewrite E1.
  rewrite xpow_fin by lra. rewrite ppow_1 by lra. cbn [xdiv xmul].
  set (m := INR (length gn)). assert (Hm : 0 < m) by apply INR_length_pos, Hne.
  set (s := xsum _). assert (Es : xpow s (Fin 0) = Fin 1).
  { unfold xpow. assert (E0 : Reqb 0 0 = true) by (apply Reqb_true; reflexivity). rewrite E0. reflexivity. }
  rewrite Es. cbn [xdiv]. assert (Ez : Reqb (1 * (m * rho)) 0 = false) by (apply Reqb_false; nra). rewrite Ez.
  cbn [xadd]. do 2 f_equal. field. nra.
Qed.

(* the linearised dual of a power-1 cost: finite only when lam dominates every gradient norm, minimal at the largest one *)
Lemma gain_power_one lam g : 0 <= lam -> (exists v, lin_gain norm2 1 lam g v) <-> norm2 g <= lam.
Proof.
  intros Hlam. split.
  - intros [v [Hub _]]. destruct (Rle_or_lt (norm2 g) lam) as [H|H]; [exact H|]. exfalso.
    assert (HG : 0 < norm2 g) by lra.
    set (t := (Rabs v + 1) / (norm2 g - lam)).
    assert (Ht : 0 < t). { apply Rdiv_lt_0_compat; [pose proof (Rabs_pos v)|]; lra. }
    assert (X : dot g (vscal (t / norm2 g) g) - lam * ppow (norm2 (vscal (t / norm2 g) g)) 1 <= v).
    { apply Hub. eexists. split; [apply vscal_length|reflexivity]. }
    rewrite dot_vscal_r, norm2_vscal in X. fold (sqnorm g) in X. rewrite <- norm2_sq in X.
    rewrite Rabs_right in X by (apply Rle_ge; left; apply Rdiv_lt_0_compat; assumption).
    replace (t / norm2 g * norm2 g) with t in X by (field; lra). rewrite ppow_1 in X by lra.
    replace (t / norm2 g * (norm2 g * norm2 g)) with (t * norm2 g) in X by (field; lra).
    assert (E : t * (norm2 g - lam) = Rabs v + 1) by (unfold t; field; lra).
    pose proof (Rle_abs v). nra.
  - intros H. exists 0. split.
    + intros x [d [Hd ->]]. rewrite ppow_1 by apply norm2_nonneg.
      pose proof (cauchy_schwarz g d (eq_sym Hd)). pose proof (norm2_nonneg d). nra.
    + intros b Hb. apply Hb. exists (vscal 0 g). split; [apply vscal_length|].
      rewrite dot_vscal_r, norm2_vscal, Rabs_R0, !Rmult_0_l, ppow_0. ring.
Qed.

Lemma gain_power_one_value lam g v : 0 <= lam -> lin_gain norm2 1 lam g v -> v = 0.
Proof.
  intros Hlam H. assert (Hle : norm2 g <= lam) by (apply gain_power_one; [exact Hlam|exists v; exact H]).
  apply (lub_unique _ _ _ H). split.
  - intros x [d [Hd ->]]. rewrite ppow_1 by apply norm2_nonneg.
    pose proof (cauchy_schwarz g d (eq_sym Hd)). pose proof (norm2_nonneg d). nra.
  - intros b Hb. apply Hb. exists (vscal 0 g). split; [apply vscal_length|].
    rewrite dot_vscal_r, norm2_vscal, Rabs_R0, !Rmult_0_l, ppow_0. ring.
Qed.

Lemma lin_dual_power_one rho grads lam v :
  0 < rho -> 0 <= lam ->
  (lin_dual norm2 1 rho grads lam v <-> (Forall (fun g => norm2 g <= lam) grads /\ v = lam * rho)).
Proof.
  intros Hr Hl. split.
  - intros [gains [H ->]]. rewrite Rpower_1 by exact Hr.
    assert (Hg : Forall (fun g => norm2 g <= lam) grads /\ rsum gains = 0).
    { clear Hr. induction H as [|g s l l' Hg H [IH1 IH2]]; [split; [constructor|reflexivity]|]. split.
      - constructor; [|exact IH1]. apply gain_power_one; [exact Hl|exists s; exact Hg].
      - simpl. rewrite IH2, (gain_power_one_value lam g s Hl Hg). ring. }
    destruct Hg as [H1 H2]. split; [exact H1|]. unfold rmean. rewrite H2. unfold Rdiv. ring.
  - intros [H ->]. exists (map (fun _ => 0) grads). split.
    + induction H as [|g l Hg H IH]; simpl; constructor; [|exact IH].
      destruct (proj2 (gain_power_one lam g Hl) Hg) as [v Hv]. rewrite <- (gain_power_one_value lam g v Hl Hv). exact Hv.
    + rewrite Rpower_1 by exact Hr. unfold rmean. rewrite rsum_map_const, Rmult_0_r. unfold Rdiv. ring.
Qed.

Lemma norm2_single a : 0 <= a -> norm2 [a] = a.
Proof. intros H. unfold norm2, sqnorm, dot; simpl. rewrite Rplus_0_r. apply sqrt_square, H. Qed.

(* one sample with gradient 3 and radius 1: the linearised dual is finite for lam >= 3 only; the code starts at 1 *)
Lemma power_one_witness :
  exists rho lam grads lam0 best,
    0 < rho /\ initial_guess (Fin rho) (Fin lam) true 1 (grads_norms (PFin 2) 1 grads) = Ok (Fin lam0) /\
    0 <= lam0 /\ 0 <= best /\
    (exists v, lin_dual norm2 1 rho grads best v /\ forall l v', 0 <= l -> lin_dual norm2 1 rho grads l v' -> v <= v') /\
    (forall v, ~ lin_dual norm2 1 rho grads lam0 v).
Proof.
  exists 1, 1, [[3]], (/ (INR 1 * 1)), 3. assert (HN : norm2 [3] = 3) by (apply norm2_single; lra).
  split; [lra|]. split; [apply guess_power_one; [lra|discriminate]|].
  assert (E1 : / (INR 1 * 1) = 1) by (simpl; field). rewrite E1.
  split; [lra|]. split; [lra|]. split.
  - exists 3. split.
    + apply lin_dual_power_one; [lra|lra|]. split; [constructor; [lra|constructor]|ring].
    + intros l v' Hl H. apply lin_dual_power_one in H; [|lra|exact Hl]. destruct H as [H ->]. inversion H; subst. lra.
  - intros v H. apply lin_dual_power_one in H; [|lra|lra]. destruct H as [H _]. inversion H; subst. lra.
Qed.

Lemma power_one_blind rho lam gn gn' :
  0 < rho -> gn <> [] -> length gn = length gn' ->
  initial_guess (Fin rho) (Fin lam) true 1 gn = initial_guess (Fin rho) (Fin lam) true 1 gn'.
Proof.
  intros Hr Hne Hl. rewrite !guess_power_one; try assumption; [rewrite Hl; reflexivity|].
  intros ->. destruct gn; [contradiction|discriminate].
Qed.

(* ---- other norms ---- *)
Definition maxnorm (d : vec) : R := rmax0 (map Rabs d).

Lemma gain_max lam : 0 < lam -> lin_gain maxnorm 2 lam [1; 1] (/ lam).
Proof.
  intros Hl. split.
  - intros x [d [Hd ->]]. destruct d as [|a [|b [|c d]]]; try discriminate. unfold maxnorm, dot; simpl.
    set (t := Rmax (Rabs a) (Rmax (Rabs b) 0)).
    assert (Ha : Rabs a <= t) by apply Rmax_l.
    assert (Hb : Rabs b <= t). { eapply Rle_trans; [apply Rmax_l|apply Rmax_r]. }
    assert (Ht : 0 <= t). { pose proof (Rabs_pos a). lra. }
    rewrite ppow_2 by exact Ht. pose proof (Rle_abs a). pose proof (Rle_abs b).
    apply Rle_trans with (2 * t - lam * (t * t)); [lra|].
    assert (E : / lam - (2 * t - lam * (t * t)) = lam * ((t - / lam) * (t - / lam))) by (field; lra).
    assert (0 <= lam * ((t - / lam) * (t - / lam))) by (apply Rmult_le_pos; [lra|apply Rle_0_sqr]). lra.
  - intros u Hu. apply Hu. exists [/ lam; / lam]. split; [reflexivity|].
    assert (0 < / lam) by (apply Rinv_0_lt_compat; exact Hl).
    unfold maxnorm, dot; simpl. rewrite (Rabs_right (/ lam)) by lra.
    rewrite (Rmax_left (/ lam) 0), Rmax_left by lra. rewrite ppow_2 by lra. field. lra.
Qed.

Lemma other_norm_witness :
  exists p rho lam grads lam0 v0 best vbest,
    initial_guess (Fin rho) (Fin lam) true p (grads_norms PInfty p grads) = Ok (Fin lam0) /\
    0 < rho /\ 1 < p /\ 0 < lam0 /\ 0 < best /\
    lin_dual maxnorm p rho grads lam0 v0 /\ lin_dual maxnorm p rho grads best vbest /\ vbest < v0.
Proof.
  exists 2, 1, 1, [[1; 1]], (/ 2), (5 / 2), 1, 2.
  assert (Hone : Rpower 1 2 = 1). { unfold Rpower. rewrite ln_1, Rmult_0_r. apply exp_0. }
  split; [|split; [lra|split; [lra|split; [lra|split; [lra|split; [|split; [|lra]]]]]]].
  - assert (EN : grads_norms PInfty 2 [[1; 1]] = [1]).
    { unfold grads_norms, nc_value, tpow, pnorm, zeros_like; simpl.
      assert (E : Reqb 2 0 = false) by (apply Reqb_false; lra). rewrite E.
      rewrite !Rminus_0_r, Rabs_R1, (Rmax_left 1 0), Rmax_left by lra. rewrite ppow_one. reflexivity. }
    rewrite EN. unfold initial_guess. simpl xlt.
    assert (E : Rltb 0 1 = true) by (apply Rltb_true; lra). rewrite E.
    assert (E1 : Reqb 2 1 = false) by (apply Reqb_false; lra). rewrite E1.
    rewrite xpow_fin by lra. rewrite ppow_one. cbn [xmul xsub xopp xadd map].
    replace (2 / (2 - 1) + - (1)) with 1 by field. replace (1 * (INR (length [1]) * 1)) with 1 by (simpl; ring).
    rewrite xpow_fin by lra. rewrite ppow_one. unfold xsum; simpl fold_right. cbn [xadd].
    replace (1 + 0) with 1 by ring. cbn [xdiv]. assert (E2 : Reqb (2 / (2 - 1)) 0 = false) by (apply Reqb_false; lra). rewrite E2.
    rewrite xpow_fin by lra. rewrite ppow_one. replace (2 * (INR (length [1]) * 1)) with 2 by (simpl; ring).
    cbn [xdiv]. assert (E3 : Reqb 2 0 = false) by (apply Reqb_false; lra). rewrite E3. cbn [xadd]. do 2 f_equal. field.
  - exists [/ / 2]. split; [constructor; [apply gain_max; lra|constructor]|]. rewrite Hone. unfold rmean; simpl. field.
  - exists [/ 1]. split; [constructor; [apply gain_max; lra|constructor]|]. rewrite Hone. unfold rmean; simpl. field.
Qed.
