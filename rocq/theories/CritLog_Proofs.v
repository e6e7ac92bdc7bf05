(* Logistic losses against adversaries who move the features at squared Euclidean price: when is a constant model best? *)
From Coq Require Import Reals List Lra Lia Psatz.
From Verif Require Import PyBase RList XReal Costs_Model Costs_Proofs Transport_Spec Transport_Proofs DedProg_Model DedProg_Spec DedLin_Proofs DedLog_Proofs DedPf_Proofs Multiplier_Proofs.
Import ListNotations.
Local Open Scope R_scope.

(* ---------- one sample ---------- *)
Definition sig (c : R) : R := exp c / (1 + exp c).
Lemma sig_pos c : 0 < sig c < 1.
Proof.
  unfold sig. pose proof (exp_pos c). split; [apply Rdiv_lt_0_compat; lra|]. apply Rmult_lt_reg_r with (1 + exp c); [lra|].
  unfold Rdiv. rewrite Rmult_assoc, Rinv_l by lra. lra.
Qed.
Lemma lg_move c u : cp_logistic (c + u) = cp_logistic c + ln (1 + sig c * (exp u - 1)).
Proof.
  unfold cp_logistic, sig. pose proof (exp_pos c). pose proof (exp_pos u). rewrite <- ln_mult; [|lra|].
  - f_equal. rewrite exp_plus. field. lra.
  - replace (1 + exp c / (1 + exp c) * (exp u - 1)) with ((1 + exp c * exp u) / (1 + exp c)) by (field; lra). apply Rdiv_lt_0_compat; [|lra].
    pose proof (Rmult_lt_0_compat _ _ H H0). lra.
Qed.
Lemma mix_pos c u : 0 < 1 + sig c * (exp u - 1).
Proof. pose proof (sig_pos c). pose proof (exp_pos u). nra. Qed.

Lemma lg_tangent c u : cp_logistic c + sig c * u <= cp_logistic (c + u) /\ (u <> 0 -> cp_logistic c + sig c * u < cp_logistic (c + u)).
Proof.
  rewrite lg_move. set (s := sig c). pose proof (sig_pos c) as S. fold s in S.
  assert (T : forall a, exp (s * u) * (1 + (a - s * u)) <= exp a) by (intros a; apply exp_tangent).
  pose proof (exp_pos (s * u)) as E0.
  assert (L : exp (s * u) <= 1 + s * (exp u - 1)).
  { pose proof (T u) as T1. pose proof (T 0) as T0. rewrite exp_0 in T0. nra. }
  assert (B : s * u <= ln (1 + s * (exp u - 1))).
  { rewrite <- (ln_exp (s * u)). destruct L as [L|L]; [left; apply ln_increasing; [apply exp_pos|exact L]|right; congruence]. }
  split; [lra|]. intros Hu. assert (L' : exp (s * u) < 1 + s * (exp u - 1)).
  { pose proof (T 0) as T0. rewrite exp_0 in T0. assert (N : (1 - s) * u <> 0) by (apply Rmult_integral_contrapositive; split; lra).
    pose proof (exp_ineq1 ((1 - s) * u) N) as T1. assert (Eu : exp u = exp (s * u) * exp ((1 - s) * u)) by (rewrite <- exp_plus; f_equal; ring).
    assert (A1 : s * (exp (s * u) * (1 + (1 - s) * u)) < s * (exp (s * u) * exp ((1 - s) * u))) by (apply Rmult_lt_compat_l; [lra|]; apply Rmult_lt_compat_l; [exact E0|exact T1]).
    assert (A2 : (1 - s) * (exp (s * u) * (1 + (0 - s * u))) <= (1 - s) * 1) by (apply Rmult_le_compat_l; [lra|exact T0]). rewrite Eu. lra. }
  assert (s * u < ln (1 + s * (exp u - 1))) by (rewrite <- (ln_exp (s * u)) at 1; apply ln_increasing; [apply exp_pos|exact L']). lra.
Qed.

Lemma exp_quad u : u <= 1 / 2 -> exp u <= 1 + u + 2 * (u * u).
Proof.
  intros H. pose proof (exp_ineq1_le (- u)) as T. pose proof (exp_pos u) as P. assert (E : exp u * exp (- u) = 1) by (rewrite <- exp_plus; replace (u + - u) with 0 by ring; apply exp_0).
  assert (0 <= u * u) by apply Rle_0_sqr.
  assert (K : exp u * (1 - u) <= 1) by nra.
  assert (1 <= (1 - u) * (1 + u + 2 * (u * u))) by nra. assert (0 < 1 - u) by lra.
  apply Rmult_le_reg_r with (1 - u); [lra|]. lra.
Qed.
Lemma ln_le_minus x : 0 < x -> ln x <= x - 1.
Proof. intros H. pose proof (exp_ineq1_le (ln x)). rewrite exp_ln in H0 by exact H. lra. Qed.
Lemma lg_quad c u : cp_logistic (c + u) <= cp_logistic c + sig c * u + 2 * (u * u).
Proof.
  pose proof (sig_pos c) as S. destruct (Rle_dec u (1 / 2)) as [H|H].
  - rewrite lg_move. pose proof (ln_le_minus _ (mix_pos c u)). pose proof (exp_quad u H). assert (0 <= u * u) by apply Rle_0_sqr. nra.
  - pose proof (lg_shift c u ltac:(lra)). nra.
Qed.

(* ---------- a data set ---------- *)
(* average of weight * features *)
Fixpoint vtotal (d : nat) (r : R -> R) (data : list (vec * R)) : vec :=
  match data with [] => repeat 0 d | z :: rest => vadd (vscal (r (snd z)) (fst z)) (vtotal d r rest) end.
Definition vaverage (d : nat) (r : R -> R) (data : list (vec * R)) : vec := vscal (/ INR (length data)) (vtotal d r data).

Lemma vtotal_length d r data : Forall (fun z : vec * R => length (fst z) = d) data -> length (vtotal d r data) = d.
Proof. induction 1 as [|z data H F IH]; simpl; [apply repeat_length|]. rewrite vadd_length; rewrite vscal_length; [exact H|]. etransitivity; [exact H|symmetry; exact IH]. Qed.
Lemma vaverage_length d r data : Forall (fun z : vec * R => length (fst z) = d) data -> length (vaverage d r data) = d.
Proof. intros H. unfold vaverage. rewrite vscal_length. apply vtotal_length. exact H. Qed.
Lemma vtotal_dot d r data h : Forall (fun z : vec * R => length (fst z) = d) data -> length h = d -> dot (vtotal d r data) h = rsum (map (fun z => r (snd z) * dot (fst z) h) data).
Proof.
  intros F L. induction F as [|z data H F IH]; simpl; [apply dot_repeat0|]. rewrite dot_vadd_l, dot_vscal_l, IH; [reflexivity| |].
  - rewrite vscal_length, vtotal_length; assumption.
  - rewrite vtotal_length by exact F. symmetry. exact L.
Qed.
Lemma vaverage_dot d r data h : Forall (fun z : vec * R => length (fst z) = d) data -> length h = d -> dot (vaverage d r data) h = rmean (map (fun z => r (snd z) * dot (fst z) h) data).
Proof. intros F L. unfold vaverage. rewrite dot_vscal_l, vtotal_dot by assumption. unfold rmean. rewrite map_length. unfold Rdiv. ring. Qed.

Lemma nonempty_in {A} (l : list A) : l <> [] -> exists z, In z l.
Proof. destruct l as [|z l]; [congruence|]. exists z. left. reflexivity. Qed.

Section Data.
Variables (d : nat) (data : list (vec * R)) (s0 : R).
Hypothesis Hd : data <> [].
Hypothesis Hx : Forall (fun z : vec * R => length (fst z) = d) data.
Hypothesis Hy : Forall (fun z : vec * R => snd z = 1 \/ snd z = -1) data.
(* minus the slope of the loss of label y at the score s0 *)
Definition pulls (y : R) : R := y * sig (- (y * s0)).
Let r := pulls.
Let g := vaverage d r data.
Let V := rmean (map (fun z => r (snd z) * r (snd z)) data).
Let M := rmean (map (fun z => r (snd z)) data).
Let H := rmean (map (fun z => cp_logistic (- (snd z * s0))) data).

Lemma g_length : length g = d.
Proof. apply vaverage_length. exact Hx. Qed.
Lemma g_dot h : length h = d -> dot g h = rmean (map (fun z => r (snd z) * dot (fst z) h) data).
Proof. intros L. apply vaverage_dot; assumption. Qed.
Lemma label_sq z : In z data -> snd z * snd z = 1.
Proof. intros I. rewrite Forall_forall in Hy. destruct (Hy z I) as [-> | ->]; ring. Qed.
Lemma r_sq_pos z : In z data -> 0 < r (snd z) * r (snd z).
Proof.
  intros I. unfold r, pulls. pose proof (label_sq z I). pose proof (sig_pos (- (snd z * s0))) as S. set (s := sig _) in *.
  replace (snd z * s * (snd z * s)) with (snd z * snd z * (s * s)) by ring. rewrite H0. rewrite Rmult_1_l. apply Rmult_lt_0_compat; lra.
Qed.
Lemma V_pos : 0 < V.
Proof.
  unfold V. destruct data as [|z0 l] eqn:E; [congruence|]. rewrite <- E in *. rewrite <- (rmean_map_const 0 data) by exact Hd.
  apply rmean_strict with z0; [intros z I; left; apply r_sq_pos; exact I| |].
  - rewrite E. left. reflexivity.
  - apply r_sq_pos. rewrite E. left. reflexivity.
Qed.

Lemma loss_tangent beta b (z : vec * R) : log_loss beta b z >= cp_logistic (- (snd z * s0)) - r (snd z) * (dot beta (fst z) + b - s0).
Proof.
  unfold log_loss, r, pulls. set (s := dot beta (fst z) + b). change (ln (1 + exp (- (snd z * s)))) with (cp_logistic (- (snd z * s))).
  replace (- (snd z * s)) with (- (snd z * s0) + - (snd z * (s - s0))) by ring. apply Rle_ge.
  eapply Rle_trans; [|apply (proj1 (lg_tangent _ _))]. right. ring.
Qed.
Lemma loss_strict beta b (z : vec * R) : snd z * snd z = 1 -> dot beta (fst z) + b <> s0 -> log_loss beta b z > cp_logistic (- (snd z * s0)) - r (snd z) * (dot beta (fst z) + b - s0).
Proof.
  intros Y N. unfold log_loss, r, pulls. set (s := dot beta (fst z) + b) in *. change (ln (1 + exp (- (snd z * s)))) with (cp_logistic (- (snd z * s))).
  replace (- (snd z * s)) with (- (snd z * s0) + - (snd z * (s - s0))) by ring. apply Rlt_gt.
  eapply Rle_lt_trans; [|apply (proj2 (lg_tangent _ _))]; [right; ring|]. intros E. assert (K : snd z * (s - s0) = 0) by lra.
  apply Rmult_integral in K. destruct K as [K|K]; [rewrite K in Y; lra|apply N; lra].
Qed.
Lemma loss_quad beta b (z : vec * R) : snd z * snd z = 1 ->
  log_loss beta b z <= cp_logistic (- (snd z * s0)) - r (snd z) * (dot beta (fst z) + b - s0) + 2 * ((dot beta (fst z) + b - s0) * (dot beta (fst z) + b - s0)).
Proof.
  intros Y. unfold log_loss, r, pulls. set (s := dot beta (fst z) + b). change (ln (1 + exp (- (snd z * s)))) with (cp_logistic (- (snd z * s))).
  replace (- (snd z * s)) with (- (snd z * s0) + - (snd z * (s - s0))) by ring. eapply Rle_trans; [apply lg_quad|].
  replace (- (snd z * (s - s0)) * - (snd z * (s - s0))) with (snd z * snd z * ((s - s0) * (s - s0))) by ring. rewrite Y. right. ring.
Qed.

(* the adversary who makes the features useless, with a common shift t beta *)
Definition merge (e : vec) (z : vec * R) : vec * R := (vadd (fst z) (vadd (vscal (- (r (snd z) / V)) g) e), snd z).
Lemma merge_moved e z : length e = d -> In z data -> feature_only d z (merge e z) /\ vsub (fst (merge e z)) (fst z) = vadd (vscal (- (r (snd z) / V)) g) e.
Proof.
  intros Le I. pose proof (proj1 (Forall_forall _ _) Hx z I) as L. cbv beta in L.
  assert (L2 : length (vadd (vscal (- (r (snd z) / V)) g) e) = d) by (rewrite vadd_length; rewrite vscal_length, g_length; auto).
  assert (L3 : length (fst z) = length (vadd (vscal (- (r (snd z) / V)) g) e)) by (etransitivity; [exact L|symmetry; exact L2]).
  split; [split; [|reflexivity]|]; simpl; [rewrite vadd_length by exact L3; exact L|apply vsub_vadd_l; exact L3].
Qed.
Lemma merge_cost e : length e = d -> rmean (map (fun z => feature_sq z (merge e z)) data) = sqnorm g / V - 2 * M * dot g e / V + sqnorm e.
Proof.
  intros Le. pose proof V_pos as VP.
  rewrite (map_ext_in _ (fun z => (sqnorm g / (V * V)) * (r (snd z) * r (snd z)) + ((- (2 * dot g e / V)) * r (snd z) + sqnorm e))).
  - rewrite (rmean_map_plus (fun z : vec * R => sqnorm g / (V * V) * (r (snd z) * r (snd z))) (fun z => - (2 * dot g e / V) * r (snd z) + sqnorm e)).
    rewrite (rmean_map_plus (fun z : vec * R => - (2 * dot g e / V) * r (snd z)) (fun _ => sqnorm e)). rewrite !rmean_map_scal, rmean_map_const by exact Hd. fold V M. field. lra.
  - intros z I. unfold feature_sq. rewrite (proj2 (merge_moved e z Le I)). rewrite sqnorm_vadd by (rewrite vscal_length, g_length; auto). rewrite sqnorm_vscal, dot_vscal_l. field. lra.
Qed.
Lemma merge_score beta e z : length beta = d -> length e = d -> In z data ->
  dot beta (fst (merge e z)) = dot (fst z) beta - r (snd z) / V * dot g beta + dot beta e.
Proof.
  intros Lb Le I. pose proof (proj1 (Forall_forall _ _) Hx z I) as L. cbv beta in L. simpl.
  assert (L2 : length (vadd (vscal (- (r (snd z) / V)) g) e) = d) by (rewrite vadd_length; rewrite vscal_length, g_length; auto).
  rewrite dot_vadd_r; [|etransitivity; [exact Lb|symmetry; exact L]|etransitivity; [exact L|symmetry; exact L2]].
  rewrite dot_vadd_r; [|rewrite vscal_length, g_length; exact Lb|rewrite vscal_length, g_length; auto]. rewrite dot_vscal_r, (dot_comm beta g), (dot_comm beta (fst z)). ring.
Qed.
Lemma merge_pull beta b e : length beta = d -> length e = d -> (b = s0 \/ M = 0) -> dot beta e = 0 \/ M = 0 ->
  rmean (map (fun z => r (snd z) * (dot beta (fst (merge e z)) + b - s0)) data) = 0.
Proof.
  intros Lb Le B E. pose proof V_pos as VP.
  rewrite (map_ext_in _ (fun z => r (snd z) * dot (fst z) beta + ((- (dot g beta / V)) * (r (snd z) * r (snd z)) + (dot beta e + b - s0) * r (snd z)))).
  - rewrite (rmean_map_plus (fun z : vec * R => r (snd z) * dot (fst z) beta) (fun z => - (dot g beta / V) * (r (snd z) * r (snd z)) + (dot beta e + b - s0) * r (snd z))).
    rewrite (rmean_map_plus (fun z : vec * R => - (dot g beta / V) * (r (snd z) * r (snd z))) (fun z => (dot beta e + b - s0) * r (snd z))). rewrite !rmean_map_scal, <- g_dot by exact Lb. fold V M.
    assert (Z : (dot beta e + b - s0) * M = 0) by (destruct B as [->|M0]; [destruct E as [->|M0]; [ring|rewrite M0; ring]|rewrite M0; ring]). rewrite Z. field. lra.
  - intros z I. rewrite (merge_score beta e z Lb Le I). field. lra.
Qed.
Lemma merge_value beta b e : length beta = d -> length e = d -> (b = s0 \/ M = 0) -> dot beta e = 0 \/ M = 0 ->
  H <= rmean (map (fun z => log_loss beta b (merge e z)) data) /\
  (forall z, In z data -> dot beta (fst (merge e z)) + b <> s0 -> H < rmean (map (fun z => log_loss beta b (merge e z)) data)).
Proof.
  intros Lb Le B E.
  assert (T : H = rmean (map (fun z => cp_logistic (- (snd z * s0)) - r (snd z) * (dot beta (fst (merge e z)) + b - s0)) data)).
  { rewrite (rmean_map_minus (fun z : vec * R => cp_logistic (- (snd z * s0))) (fun z => r (snd z) * (dot beta (fst (merge e z)) + b - s0))). rewrite merge_pull by assumption. fold H. ring. }
  split.
  - rewrite T. apply rmean_map_le. intros z I. pose proof (loss_tangent beta b (merge e z)) as L. cbn [merge snd] in L |- *. unfold merge in L |- *. lra.
  - intros z I N. rewrite T. apply rmean_strict with z; [|exact I|].
    + intros z' I'. pose proof (loss_tangent beta b (merge e z')) as L. unfold merge in L |- *. cbn [snd fst] in L |- *. lra.
    + pose proof (loss_strict beta b (merge e z)) as L. unfold merge in L, N |- *. cbn [snd fst] in L, N |- *. specialize (L (label_sq z I) N). lra.
Qed.

(* over the critical radius nothing does better than the constant s0 *)
Lemma over cost allowed rho beta b c : (forall u v, feature_only d u v -> allowed u v /\ cost u v <= feature_sq u v) ->
  length beta = d -> (b = s0 \/ M = 0) -> sqnorm g <= rho * rho * V -> tworst_le cost allowed data (rho * rho) (log_loss beta b) c -> H <= c.
Proof.
  intros A Lb B C W. pose proof V_pos as VP. set (e := repeat 0 d). assert (Le : length e = d) by apply repeat_length.
  assert (De : forall u, dot u e = 0) by (intros u; rewrite dot_comm; apply dot_repeat0).
  assert (P : tplan_ok cost allowed data (rho * rho) (move (merge e) data)).
  { apply move_ok; [intros z I; apply A; apply merge_moved; assumption|]. eapply Rle_trans; [apply rmean_map_le; intros z I; apply (proj2 (A _ _ (proj1 (merge_moved e z Le I))))|].
    rewrite merge_cost by exact Le. rewrite De. replace (sqnorm e) with 0 by (symmetry; apply De).
    apply Rmult_le_reg_r with V; [exact VP|]. replace ((sqnorm g / V - 2 * M * 0 / V + 0) * V) with (sqnorm g) by (field; lra). exact C. }
  specialize (W _ P). rewrite move_value in W. pose proof (proj1 (merge_value beta b e Lb Le B (or_introl (De beta)))). lra.
Qed.

(* strictly over it, with an intercept, only constants reach H *)
Lemma over_strict rho beta b : length beta = d -> M = 0 -> sqnorm g < rho * rho * V ->
  tworst_le feature_sq (feature_only d) data (rho * rho) (log_loss beta b) H -> Forall (fun w => w = 0) beta.
Proof.
  intros Lb M0 C W. pose proof V_pos as VP. destruct (Req_dec (sqnorm beta) 0) as [Z|N]; [apply sqnorm_zero; exact Z|]. exfalso.
  assert (BP : 0 < sqnorm beta) by (pose proof (sqnorm_nonneg beta); lra).
  set (h := sqrt ((rho * rho - sqnorm g / V) / sqnorm beta)).
  assert (K : 0 < rho * rho - sqnorm g / V).
  { assert (sqnorm g / V < rho * rho); [|lra]. apply Rmult_lt_reg_r with V; [exact VP|]. replace (sqnorm g / V * V) with (sqnorm g) by (field; lra). exact C. }
  assert (HP : 0 < h) by (apply sqrt_lt_R0; apply Rdiv_lt_0_compat; assumption).
  assert (Hs : h * h * sqnorm beta = rho * rho - sqnorm g / V) by (unfold h; rewrite sqrt_sqrt by (left; apply Rdiv_lt_0_compat; assumption); field; lra).
  assert (P : forall t, t * t = h * h -> tplan_ok feature_sq (feature_only d) data (rho * rho) (move (merge (vscal t beta)) data)).
  { intros t Ht. assert (Le : length (vscal t beta) = d) by (rewrite vscal_length; exact Lb). apply move_ok; [intros z I; apply merge_moved; assumption|].
    rewrite merge_cost by exact Le. rewrite M0, sqnorm_vscal, Ht, Hs. right. field. lra. }
  destruct (nonempty_in data Hd) as [z0 I].
  assert (Q : forall t, t * t = h * h -> dot beta (fst (merge (vscal t beta) z0)) + b = s0).
  { intros t Ht. destruct (Req_dec (dot beta (fst (merge (vscal t beta) z0)) + b) s0) as [X|X]; [exact X|exfalso].
    assert (Le : length (vscal t beta) = d) by (rewrite vscal_length; exact Lb).
    pose proof (proj2 (merge_value beta b (vscal t beta) Lb Le (or_intror M0) (or_intror M0)) z0 I X) as S. specialize (W _ (P t Ht)). rewrite move_value in W. lra. }
  pose proof (Q h eq_refl) as Q1. pose proof (Q (- h) ltac:(ring)) as Q2.
  rewrite merge_score in Q1, Q2 by (try rewrite vscal_length; assumption). rewrite dot_vscal_r in Q1, Q2. fold (sqnorm beta) in Q1, Q2.
  assert (0 < h * sqnorm beta) by (apply Rmult_lt_0_compat; assumption). lra.
Qed.

(* below it some model does better *)
Lemma below rho : rho * rho * V < sqnorm g ->
  exists eps c, 0 < eps /\ c < H /\ tworst_le feature_sq (feature_only d) data (rho * rho) (log_loss (vscal eps g) s0) c.
Proof.
  intros C. pose proof V_pos as VP. set (N := sqnorm g) in *. pose proof g_length as Lg.
  assert (NP : 0 < N) by (pose proof (Rle_0_sqr rho); unfold Rsqr in *; nra).
  set (S := rmean (map (fun z => dot g (fst z) * dot g (fst z)) data)).
  assert (SP : 0 <= S) by (unfold S; rewrite <- (rmean_map_const 0 data) by exact Hd; apply rmean_map_le; intros; apply Rle_0_sqr).
  set (B := 4 * S + 4 * N * (rho * rho)). set (dl := (N - rho * rho * V) / 2).
  assert (BP : 0 <= B) by (unfold B; pose proof (Rle_0_sqr rho); unfold Rsqr in *; nra).
  assert (DP : 0 < dl) by (unfold dl; lra).
  set (eps := dl / (2 * (B + 1))). assert (EP : 0 < eps) by (unfold eps; apply Rdiv_lt_0_compat; lra).
  assert (Small : eps * B < dl).
  { unfold eps. apply Rmult_lt_reg_r with (2 * (B + 1)); [lra|]. replace (dl / (2 * (B + 1)) * B * (2 * (B + 1))) with (dl * B) by (field; lra). nra. }
  exists eps, (H - eps * dl + eps * eps * B). split; [exact EP|]. split; [nra|]. intros p P.
  set (al := N / (2 * V)). assert (AP : 0 < al) by (unfold al; apply Rdiv_lt_0_compat; lra).
  set (lam := eps * (V / 2) + 4 * (eps * eps) * N).
  set (si := fun z : vec * R => cp_logistic (- (snd z * s0)) + ((- eps) * (r (snd z) * dot (fst z) g) + ((eps * al) * (r (snd z) * r (snd z)) + (4 * (eps * eps)) * (dot g (fst z) * dot g (fst z))))).
  assert (X := weak_duality feature_sq (feature_only d) data (rho * rho) (log_loss (vscal eps g) s0) lam (map si data) p).
  eapply Rle_trans; [apply X; clear X|]; [| |exact P|].
  - unfold lam. assert (0 < eps * (V / 2)) by (apply Rmult_lt_0_compat; lra). assert (0 < eps * eps * N) by (apply Rmult_lt_0_compat; [apply Rmult_lt_0_compat|]; assumption). lra.
  - assert (F : Forall (fun z : vec * R => length (fst z) = d /\ snd z * snd z = 1) data).
    { apply Forall_forall. intros z I. split; [rewrite Forall_forall in Hx; apply Hx; exact I|apply label_sq; exact I]. }
    apply (Forall2_map_self _ _ _ _ F). intros z [Lz Yz] v [Lv Ev]. pose proof (loss_quad (vscal eps g) s0 v ltac:(rewrite Ev; exact Yz)) as Q. rewrite Ev in Q.
    set (w := dot g (vsub (fst v) (fst z))). set (t := dot g (fst z)).
    assert (Dv : dot (vscal eps g) (fst v) + s0 - s0 = eps * (t + w)).
    { rewrite dot_vscal_l. unfold w. rewrite dot_vsub_r; [unfold t; ring|etransitivity; [exact Lg|symmetry; exact Lv]|etransitivity; [exact Lv|symmetry; exact Lz]]. }
    rewrite Dv in Q. assert (Wc : w * w <= N * feature_sq z v).
    { unfold w, N, feature_sq. apply cauchy_schwarz_sq. rewrite vsub_length by (etransitivity; [exact Lv|symmetry; exact Lz]). etransitivity; [exact Lg|symmetry; exact Lv]. }
    set (cst := feature_sq z v) in *. set (rr := r (snd z)) in *. unfold si. fold t rr. rewrite (dot_comm (fst z) g). fold t. cbv beta.
    assert (Y1 : - (rr * w) <= al * (rr * rr) + V / 2 * cst).
    { assert (Sq : 0 <= (2 * al * rr + w) * (2 * al * rr + w) * / (4 * al)) by (apply Rmult_le_pos; [apply Rle_0_sqr|left; apply Rinv_0_lt_compat; lra]).
      replace ((2 * al * rr + w) * (2 * al * rr + w) * / (4 * al)) with (al * (rr * rr) + rr * w + w * w / (4 * al)) in Sq by (field; lra).
      assert (w * w / (4 * al) <= V / 2 * cst).
      { replace (V / 2 * cst) with (N * cst / (4 * al)) by (unfold al; field; lra). unfold Rdiv. apply Rmult_le_compat_r; [left; apply Rinv_0_lt_compat; lra|exact Wc]. }
      lra. }
    assert (Y2 : 2 * (eps * (t + w) * (eps * (t + w))) <= 4 * (eps * eps) * (t * t) + 4 * (eps * eps) * (N * cst)).
    { assert (0 <= eps * eps) by apply Rle_0_sqr. assert ((t + w) * (t + w) <= 2 * (t * t) + 2 * (N * cst)) by (pose proof (Rle_0_sqr (t - w)); unfold Rsqr in *; nra).
      replace (2 * (eps * (t + w) * (eps * (t + w)))) with (2 * (eps * eps) * ((t + w) * (t + w))) by ring. nra. }
    assert (Y3 : - (eps * (rr * w)) <= eps * (al * (rr * rr)) + eps * (V / 2 * cst)) by nra. unfold lam. nra.
  - right. unfold si.
    rewrite (rmean_map_plus (fun z : vec * R => cp_logistic (- (snd z * s0)))), (rmean_map_plus (fun z : vec * R => - eps * (r (snd z) * dot (fst z) g))),
      (rmean_map_plus (fun z : vec * R => eps * al * (r (snd z) * r (snd z)))), !rmean_map_scal, <- (g_dot g) by exact Lg.
    fold V H S. change (dot g g) with N. unfold lam, al, dl, B. field. lra.
Qed.
End Data.

(* ---------- the dedicated programme ---------- *)
Section Dedicated.
Variables (d : nat) (data : list (vec * R)) (s0 : R).
Hypothesis Hd : data <> [].
Hypothesis Hx : Forall (fun z : vec * R => length (fst z) = d) data.
Hypothesis Hy : Forall (fun z : vec * R => snd z = 1 \/ snd z = -1) data.
Let r := pulls s0.
Let g := vaverage d r data.
Let M := rmean (map (fun z => r (snd z)) data).
Let H := rmean (map (fun z => cp_logistic (- (snd z * s0))) data).

Lemma ded_over fi kappa rho beta b lam s : log_feasible d fi kappa data beta b lam s -> (b = s0 \/ M = 0) -> norm2 g <= rho -> H <= log_objective rho lam s.
Proof.
  intros (Lb & _ & NB & F) B C. unfold log_objective.
  assert (K : rmean (map (log_loss beta b) data) <= rmean s /\ length data = length s).
  { unfold rmean. rewrite map_length. assert (Z : rsum (map (log_loss beta b) data) <= rsum s /\ length data = length s).
    { clear -F. induction F as [|z si l s0 [F1 F2] F [IH L]]; simpl; [split; [lra|reflexivity]|]. split; [|congruence].
      assert (log_loss beta b z <= si); [|lra]. unfold log_loss. unfold cp_logistic in F2. rewrite (dot_comm beta).
      replace (- (snd z * (dot (fst z) beta + b))) with (- snd z * (dot (fst z) beta + b)) by ring. exact F2. }
    destruct Z as [Z1 Z2]. split; [|exact Z2]. rewrite Z2. unfold Rdiv. apply Rmult_le_compat_r; [|exact Z1].
    left. apply Rinv_0_lt_compat. rewrite <- Z2. apply INR_length_pos. exact Hd. }
  destruct K as [K _]. unfold rmean in K at 2.
  assert (T : H - dot g beta <= rmean (map (log_loss beta b) data)).
  { assert (E : rmean (map (fun z => cp_logistic (- (snd z * s0)) - r (snd z) * (dot beta (fst z) + b - s0)) data) = H - dot g beta).
    { rewrite (map_ext _ (fun z => cp_logistic (- (snd z * s0)) - (r (snd z) * dot (fst z) beta + (b - s0) * r (snd z)))) by (intros z; rewrite (dot_comm beta); ring).
      rewrite (rmean_map_minus (fun z : vec * R => cp_logistic (- (snd z * s0)))), (rmean_map_plus (fun z : vec * R => r (snd z) * dot (fst z) beta)), rmean_map_scal.
      rewrite <- (vaverage_dot d r data beta Hx Lb). fold g M H. assert ((b - s0) * M = 0) by (destruct B as [->|M0]; [ring|rewrite M0; ring]). lra. }
    rewrite <- E. apply rmean_map_le. intros z _. pose proof (loss_tangent s0 beta b z). unfold r. lra. }
  assert (G : dot g beta <= norm2 g * norm2 beta) by (apply cauchy_schwarz; unfold g; rewrite vaverage_length by exact Hx; symmetry; exact Lb).
  assert (norm2 g * norm2 beta <= rho * lam).
  { pose proof (norm2_nonneg g). pose proof (norm2_nonneg beta). nra. }
  replace (1 / INR (length s) * rsum s) with (rsum s / INR (length s)) by (unfold Rdiv; ring). lra.
Qed.
End Dedicated.

Section DedicatedBelow.
Variables (d : nat) (data : list (vec * R)).
Hypothesis Hd : data <> [].
Hypothesis Hx : Forall (fun z : vec * R => length (fst z) = d) data.
Hypothesis Hy : Forall (fun z : vec * R => snd z = 1 \/ snd z = -1) data.
Let g := vaverage d (pulls 0) data.

Lemma ded_below fi kappa rho L : norm2 g <= L -> (forall z, In z data -> snd z * dot g (fst z) <= kappa * L) -> rho * L < sqnorm g ->
  exists beta lam s, log_feasible d fi kappa data beta 0 lam s /\ log_objective rho lam s < ln 2.
Proof.
  intros HL Hk C. pose proof (g_length d data 0 Hx) as Lg. fold g in Lg. set (N := sqnorm g) in *.
  set (S := rmean (map (fun z => dot g (fst z) * dot g (fst z)) data)).
  assert (SP : 0 <= S) by (unfold S; rewrite <- (rmean_map_const 0 data) by exact Hd; apply rmean_map_le; intros; apply Rle_0_sqr).
  set (dl := N - rho * L). set (eps := dl / (2 * (2 * S + 1))).
  assert (DP : 0 < dl) by (unfold dl; lra). assert (EP : 0 < eps) by (unfold eps; apply Rdiv_lt_0_compat; lra).
  assert (Small : eps * (2 * S) < dl).
  { unfold eps. apply Rmult_lt_reg_r with (2 * (2 * S + 1)); [lra|]. replace (dl / (2 * (2 * S + 1)) * (2 * S) * (2 * (2 * S + 1))) with (dl * (2 * S)) by (field; lra). nra. }
  exists (vscal eps g), (eps * L), (map (log_loss (vscal eps g) 0) data). split.
  - split; [rewrite vscal_length; exact Lg|]. split; [reflexivity|]. split; [rewrite norm2_vscal, Rabs_pos_eq by lra; apply Rmult_le_compat_l; lra|].
    assert (F : Forall (fun z => In z data) data) by (apply Forall_forall; auto). apply (Forall2_map_self _ _ _ _ F). intros z I.
    assert (E : forall t, log_loss (vscal eps g) 0 z = cp_logistic (- (snd z * (dot (fst z) (vscal eps g) + 0))) -> t = snd z * (dot (fst z) (vscal eps g) + 0) -> cp_logistic t = log_loss (vscal eps g) 0 z + t)
      by (intros t E ->; rewrite E; apply lg_sym).
    assert (E0 : log_loss (vscal eps g) 0 z = cp_logistic (- (snd z * (dot (fst z) (vscal eps g) + 0)))) by (unfold log_loss; rewrite (dot_comm (vscal eps g)); reflexivity).
    split.
    + rewrite (E _ E0 eq_refl). rewrite dot_vscal_r, (dot_comm (fst z)). specialize (Hk z I). nra.
    + right. rewrite E0. f_equal. ring.
  - unfold log_objective. rewrite map_length. replace (1 / INR (length data) * rsum (map (log_loss (vscal eps g) 0) data)) with (rmean (map (log_loss (vscal eps g) 0) data)) by (unfold rmean; rewrite map_length; unfold Rdiv; ring).
    assert (Q : rmean (map (log_loss (vscal eps g) 0) data) <= ln 2 - eps * N + eps * eps * (2 * S)).
    { eapply Rle_trans; [apply rmean_map_le with (g := fun z => ln 2 + ((- eps) * (pulls 0 (snd z) * dot (fst z) g) + (2 * (eps * eps)) * (dot g (fst z) * dot g (fst z))))|].
      - intros z I. pose proof (loss_quad 0 (vscal eps g) 0 z (label_sq data Hy z I)) as Q. rewrite dot_vscal_l in Q.
        replace (cp_logistic (- (snd z * 0))) with (ln 2) in Q by (unfold cp_logistic; rewrite Rmult_0_r, Ropp_0, exp_0; reflexivity). rewrite (dot_comm (fst z)). lra.
      - right. rewrite (rmean_map_plus (fun _ : vec * R => ln 2)), (rmean_map_plus (fun z : vec * R => - eps * (pulls 0 (snd z) * dot (fst z) g))), !rmean_map_scal, rmean_map_const by exact Hd.
        rewrite <- (vaverage_dot d (pulls 0) data g Hx Lg). fold g S. change (dot g g) with N. ring. }
    assert (eps * (eps * (2 * S)) < eps * dl) by (apply Rmult_lt_compat_l; assumption). unfold dl in *. lra.
Qed.
End DedicatedBelow.
