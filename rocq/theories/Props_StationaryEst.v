(* C115, for the linear estimators: when the training of LinearRegression or of binary LogisticRegression reaches a stationary point,
   its parameters have the least robust objective. *)
From Coq Require Import Reals List Bool ZArith String Arith Lra Lia Psatz Sorted.
From Verif Require Import PyBase RList XReal LogMeanExp Tensor DedProg_Model Loss_Model Loss_Spec Loss_Proofs Costs_Model Costs_Proofs CostDecoder_Model OptCond_Model Samplers_Model Wrap_Model
  Estim_Model Estim_Proofs Handover_Proofs Dual_Model Dual_Spec Dual_Proofs Dual2_Proofs DualMinimax_Proofs Props_Dual2 TDual_Model TDual_Spec TDual_Proofs Props_Loss Props_TDual Props_Estim
  EstDual_Model EstDual_Spec EstDual_Proofs Props_EstDual Gradient Grads_Losses Stationary_Proofs Props_Stationary.
Import ListNotations.
Local Open Scope R_scope.
Local Notation length := List.length.

(* ---------- losses of a linear score ---------- *)
Lemma dot_snoc (w x : vec) b c : length w = length x -> dot (w ++ [b]) (x ++ [c]) = dot w x + b * c.
Proof.
  unfold dot. revert x. induction w as [|a w IH]; intros [|u x] E; try discriminate; [cbn; ring|]. cbn [app map2 rsum]. rewrite IH by (injection E; auto). ring.
Qed.
Lemma sqnorm_convex s : forall x y : vec, 0 <= s <= 1 -> length x = length y -> sqnorm (segment s x y) <= s * sqnorm x + (1 - s) * sqnorm y.
Proof.
  unfold segment, sqnorm, dot, vadd, vscal. induction x as [|a x IH]; intros [|b y] Hs E; try discriminate; [cbn; lra|]. cbn [map map2 rsum].
  assert (E' : length x = length y) by (injection E; auto). specialize (IH y Hs E').
  assert (0 <= s * (1 - s) * ((a - b) * (a - b))) by (apply Rmult_le_pos; [nra|apply Rle_0_sqr]).
  replace ((s * a + (1 - s) * b) * (s * a + (1 - s) * b)) with (s * (a * a) + (1 - s) * (b * b) - s * (1 - s) * ((a - b) * (a - b))) by ring. lra.
Qed.
Lemma vsub_zero : forall y : vec, vsub y (vscal 0 y) = y.
Proof. unfold vsub, vscal. induction y as [|a y IH]; [reflexivity|]. cbn. f_equal; [ring|exact IH]. Qed.
Lemma gradient_sqnorm t : is_gradient sqnorm t (vscal 2 t).
Proof.
  pose proof (gradient_sqdist (vscal 0 t) t ltac:(apply vscal_length)) as G. rewrite vsub_zero in G. apply (gradient_ext (fun y => sqnorm (vsub y (vscal 0 t)))); [|exact G].
  intros y Ly. f_equal. replace (vscal 0 t) with (vscal 0 y); [apply vsub_zero|]. clear -Ly. unfold vscal. revert t Ly. induction y as [|a y IH]; intros [|b t] E; try discriminate; [reflexivity|].
  cbn. f_equal; [ring|]. apply IH. injection E; auto.
Qed.
Lemma penalty_grad l2 t : is_gradient (penalty l2) t (vscal (Rmax 0 l2) t).
Proof.
  pose proof (gradient_scal (Rmax 0 l2 / 2) sqnorm t _ (gradient_sqnorm t)) as G. apply (gradient_same _ t _ _ G); [unfold vec in *; rewrite !vscal_length; reflexivity|].
  intros h _. rewrite !dot_vscal_l. field.
Qed.
Definition score_loss (phi : R -> R) (l2 : R) (f t : vec) : R := phi (dot t f) + penalty l2 t.
Lemma score_grad phi dphi l2 f t : length t = length f -> derivable_pt_lim phi (dot t f) dphi -> is_gradient (score_loss phi l2 f) t (vadd (vscal dphi f) (vscal (Rmax 0 l2) t)).
Proof.
  intros E D. apply (gradient_plus (fun t => phi (dot t f)) (penalty l2)); [|apply penalty_grad].
  apply (gradient_ext (fun t => phi (dot f t + 0))); [intros y _; rewrite dot_comm, Rplus_0_r; reflexivity|].
  apply gradient_affine; [symmetry; exact E|]. rewrite Rplus_0_r, dot_comm. exact D.
Qed.
Lemma dot_segment s (x y f : vec) : length x = length y -> length y = length f -> dot (segment s x y) f = s * dot x f + (1 - s) * dot y f.
Proof. intros E1 E2. unfold segment. rewrite dot_vadd_l by (rewrite ?vscal_length; congruence). rewrite !dot_vscal_l. reflexivity. Qed.
Lemma score_convex phi l2 f d : (forall s a b, 0 <= s <= 1 -> phi (s * a + (1 - s) * b) <= s * phi a + (1 - s) * phi b) -> length f = d -> convex_on d (score_loss phi l2 f).
Proof.
  intros C Lf s x y Hs Lx Ly. unfold score_loss, penalty. rewrite dot_segment by congruence. specialize (C s (dot x f) (dot y f) Hs).
  pose proof (sqnorm_convex s x y Hs ltac:(congruence)) as Q. pose proof (Rmax_l 0 l2) as M. nra.
Qed.
Lemma square_convex v : forall s a b, 0 <= s <= 1 -> (s * a + (1 - s) * b - v) ^ 2 <= s * (a - v) ^ 2 + (1 - s) * (b - v) ^ 2.
Proof. intros s a b Hs. assert (0 <= s * (1 - s) * (a - b) ^ 2) by (apply Rmult_le_pos; [nra|apply pow2_ge_0]). nra. Qed.
Lemma square_deriv v a : derivable_pt_lim (fun s => (s - v) ^ 2) a (2 * (a - v)).
Proof.
  pose proof (derivable_pt_lim_minus id (fct_cte v) a 1 0 (derivable_pt_lim_id a) (derivable_pt_lim_const v a)) as D.
  pose proof (derivable_pt_lim_comp _ (fun t => t ^ 2) a _ _ D (derivable_pt_lim_pow (a - v) 2)) as Q. cbn in Q. replace (2 * (a - v)) with ((1 + 1) * ((a - v) * 1) * (1 - 0)) by ring. exact Q.
Qed.
Lemma softplus_convex v : forall s a b, 0 <= s <= 1 -> ln (1 + exp (- (v * (s * a + (1 - s) * b)))) <= s * ln (1 + exp (- (v * a))) + (1 - s) * ln (1 + exp (- (v * b))).
Proof. intros s a b Hs. pose proof (lg_convex s (- (v * a)) (- (v * b)) Hs) as Q. unfold cp_logistic in Q. replace (- (v * (s * a + (1 - s) * b))) with (s * - (v * a) + (1 - s) * - (v * b)) by ring. exact Q. Qed.

(* ---------- from the objective on tensors to rows ---------- *)
Definition labelled_rows (xs ys : list vec) (zs zls : list (list vec)) : list (row (vec * vec)) := point_rows ([], []) (pairs xs ys) (pairs xs ys) (map2 pairs zs zls).

Lemma pair_nth (xs ys : list vec) j : length ys = length xs -> nth j (pairs xs ys) ([], []) = (nth j xs [], nth j ys []).
Proof. intros E. unfold pairs. apply combine_nth. symmetry. exact E. Qed.
Lemma rows_ok n k kl xs ys zs zls : length ys = length xs -> xs <> [] -> is_grid n (length xs) k zs -> is_grid n (length xs) kl zls -> zs <> [] -> batch_ok n (labelled_rows xs ys zs zls).
Proof.
  intros E Nx [G1 _] [G2 _] Nz. split; [destruct zs; [contradiction|cbn in G1; lia]|]. split.
  - unfold labelled_rows, point_rows. apply map_neq_nil. rewrite pairs_length by (symmetry; exact E). destruct xs; [contradiction|discriminate].
  - unfold labelled_rows, point_rows. apply Forall_map, Forall_forall. intros j _. cbn [r_zeta]. rewrite map_length. unfold vec in *. rewrite map2_length; congruence.
Qed.
Lemma row_zeta n k kl xs ys zs zls r z : length ys = length xs -> is_grid n (length xs) k zs -> is_grid n (length xs) kl zls -> In r (labelled_rows xs ys zs zls) -> In z (r_zeta r) ->
  length (fst z) = k /\ length (snd z) = kl.
Proof.
  intros E [G1 F1] [G2 F2] Hr Hz. unfold labelled_rows, point_rows in Hr. apply in_map_iff in Hr. destruct Hr as (j & <- & Hj). cbn [r_zeta] in Hz.
  rewrite pairs_length in Hj by (symmetry; exact E). apply in_seq in Hj. apply in_map_iff in Hz. destruct Hz as (q & <- & Hq).
  assert (Q : exists a b, In a zs /\ In b zls /\ q = pairs a b).
  { clear -Hq. revert zls Hq. induction zs as [|a zs IH]; intros [|b zls] Hq; cbn in Hq; try contradiction. destruct Hq as [<-|Hq].
    - exists a, b. cbn. auto.
    - destruct (IH zls Hq) as (a' & b' & H1 & H2 & H3). exists a', b'. cbn. auto. }
  destruct Q as (za & zb & Ha & Hb & ->). rewrite Forall_forall in F1, F2. destruct (F1 za Ha) as [L1 W1]. destruct (F2 zb Hb) as [L2 W2].
  rewrite pair_nth by (unfold vec in *; congruence). cbn [fst snd]. unfold widths in W1, W2. rewrite Forall_forall in W1, W2.
  split; [apply W1|apply W2]; apply nth_In; unfold vec in *; lia.
Qed.
Lemma lme_mean f : f <> [] -> lme f = ln (rmean (map exp f)).
Proof.
  intros H. unfold lme, rmean. rewrite map_length. fold (sumexp f). unfold Rdiv. pose proof (sumexp_pos f H). pose proof (INR_length_pos f H).
  rewrite ln_mult, ln_Rinv; [ring|assumption|assumption|apply Rinv_0_lt_compat; assumption].
Qed.
Lemma robust_rows cost power rho e lam L xs ys zs zls n k kl : length ys = length xs -> is_grid n (length xs) k zs -> is_grid n (length xs) kl zls -> zs <> [] ->
  robust_labelled cost power rho e lam L xs ys zs zls = objective (vec * vec) (fun z => L (fst z) (snd z)) cost rho lam e power (labelled_rows xs ys zs zls).
Proof.
  intros E [G1 F1] [G2 F2] Nz. unfold robust_labelled, objective, labelled_rows, point_rows. f_equal. rewrite map_map, pairs_length by (symmetry; exact E). f_equal. apply map_ext. intros j.
  unfold soft, softmaximum, pen. cbn [r_xi r_zeta]. rewrite lme_mean.
  - do 4 f_equal. rewrite !map_map. rewrite pair_nth by exact E.
    assert (FF : Forall2 (fun a b : list vec => length b = length a) zs zls).
    { clear -G1 G2 F1 F2. rewrite <- G2 in G1. clear G2. revert zls G1 F2. induction zs as [|a zs IH]; intros [|b zls] G F2; try discriminate; constructor; inversion F1; inversion F2; subst.
      - unfold vec in *. destruct H1, H5. congruence.
      - apply IH; auto. }
    clear -FF. induction FF as [|a b zs zls H FF IH]; [reflexivity|]. cbn [map2 map]. rewrite IH. f_equal. rewrite pair_nth by exact H. reflexivity.
  - rewrite !map_map. apply map_neq_nil. destruct zs, zls; try contradiction; try discriminate. cbn in G1, G2. congruence.
Qed.

(* ---------- the estimators ---------- *)
(* LinearRegression. [value] is what the training evaluates for multiplier lam, weights wt and bias b. *)
Theorem C115_linear pf a X y d t k : lr_dispatch pf a X y = Ok (FTorch d t) -> X <> [] -> widths k X -> length y = length X -> 0 < lr_rho a -> a_imp_samp d = false ->
  let ys := map (fun v => [v]) y in
  exists c, tcost_of (a_cost d) = Some c /\
  forall n zs zls e s grads, is_grid n (length X) k zs -> is_grid n (length X) 1 zls -> zs <> [] -> a_epsilon d = Fin e -> 0 < e ->
  let rows := labelled_rows X ys zs zls in
  let loss wt b z := (dot wt (fst z) + b - hd 0 (snd z)) ^ 2 + penalty (lr_l2_reg a) (wt ++ [b]) in
  let gradient wt b z := vadd (vscal (2 * (dot wt (fst z) + b - hd 0 (snd z))) (fst z ++ [1])) (vscal (Rmax 0 (lr_l2_reg a)) (wt ++ [b])) in
  let value lam wt b := t_compute_dual (lr_call wt b) (wrapped_of d [] [wt; [b]]) c s grads (dual_of d (tc_power c) e lam)
                          (Tensor.batch [length X] k X) (Some (Tensor.batch [length X] 1 ys)) (grid n (length X) k zs) (Some (grid n (length X) 1 zls)) in
  forall lam wt b A, length wt = k -> gibbs_adversary (loss wt b) (pt_cost c) e lam rows A ->
  stationary (pt_cost c) (lr_rho a) (tc_power c) rows (S k) (gradient wt b) lam A ->
  exists v, value lam wt b = Ok (Scalar (Fin v)) /\
    (forall A', adversary n A' rows -> adv_mean (pt_cost c) A' rows <= Rpower (lr_rho a) (tc_power c) -> adv_mean (fun _ z => loss wt b z) A' rows - e * adv_entropy A' <= v) /\
    (forall l wt' b', 0 <= l -> length wt' = k -> exists v', value l wt' b' = Ok (Scalar (Fin v')) /\ v <= v').
Proof.
  intros H Nx W E Hr Hi ys.
  assert (T : forall wt b, length wt = k -> trains_labelled d (lr_call wt b) (wrapped_of d [] [wt; [b]]) k 1 (fun x l => (dot wt x + b - hd 0 l) ^ 2 + penalty (lr_l2_reg a) (wt ++ [b])) X ys (lr_rho a)).
  { intros wt b <-. apply (C113_linear pf a X y d t wt b); auto. }
  destruct (T (repeat 0 k) 0 (repeat_length 0 k)) as (c & Hc & _). exists c. split; [exact Hc|].
  intros n zs zls e s grads G G' Nz He Hep rows loss gradient value lam wt b A Lw HA HS.
  assert (Ey : length ys = length X) by (unfold ys; rewrite map_length; exact E).
  assert (V : forall l wt b, length wt = k -> value l wt b = Ok (Scalar (Fin (objective (vec * vec) (loss wt b) (pt_cost c) (lr_rho a) l e (tc_power c) rows)))).
  { intros l wt' b' Lw'. destruct (T wt' b' Lw') as (c' & Hc' & Q). rewrite Hc in Hc'. injection Hc' as <-.
    destruct (Q n zs zls e l grads G G' Nz He ltac:(lra)) as [Q1 _]. specialize (Q1 Hi s). unfold value. refine (eq_trans Q1 _).
    rewrite (robust_rows _ _ _ _ _ _ X ys zs zls n k 1 Ey G G' Nz). reflexivity. }
  pose proof (rows_ok n k 1 X ys zs zls Ey Nx G G' Nz) as Hb. fold rows in Hb.
  set (LL := fun (th : vec) (z : vec * vec) => score_loss (fun s => (s - hd 0 (snd z)) ^ 2) (lr_l2_reg a) (fst z ++ [1]) th).
  assert (EL : forall wt b r z, length wt = k -> In r rows -> In z (r_zeta r) -> LL (wt ++ [b]) z = loss wt b z).
  { intros wt' b' r z Lw' Hrr Hz. destruct (row_zeta n k 1 X ys zs zls r z Ey G G' Hrr Hz) as [Z1 _]. unfold LL, score_loss, loss. rewrite dot_snoc by (unfold vec in *; congruence). rewrite Rmult_1_r. reflexivity. }
  assert (Ob : forall l wt b, length wt = k -> objective (vec * vec) (LL (wt ++ [b])) (pt_cost c) (lr_rho a) l e (tc_power c) rows = objective (vec * vec) (loss wt b) (pt_cost c) (lr_rho a) l e (tc_power c) rows).
  { intros l wt' b' Lw'. unfold objective. f_equal. apply rmean_map_ext. intros r Hrr. unfold soft, pen. f_equal. apply map_ext_in. intros z Hz. rewrite (EL wt' b' r z Lw' Hrr Hz). reflexivity. }
  assert (HA' : gibbs_adversary (LL (wt ++ [b])) (pt_cost c) e lam rows A).
  { unfold gibbs_adversary in *. pose proof (fun r z => EL wt b r z Lw) as EL'. clear -HA EL'. induction HA as [|q r A rows (Z & HZ & Eq & Sq) HA IH]; constructor.
    - exists Z. split; [exact HZ|]. split; [|exact Sq]. rewrite Eq. apply map_ext_in. intros z Hz. rewrite (EL' r z (or_introl eq_refl) Hz). reflexivity.
    - apply IH. intros r' z Hr Hz. apply (EL' r' z (or_intror Hr) Hz). }
  assert (Lt : length (wt ++ [b]) = S k) by (rewrite app_length; cbn; unfold vec in *; lia).
  destruct (C115_stationary LL (pt_cost c) (no_displace) (fun _ _ => 0) (fun _ _ _ => 0) n rows (lr_rho a) lam e (tc_power c) (wt ++ [b]) (gradient wt b) A
    (fun l th => objective (vec * vec) (LL th) (pt_cost c) (lr_rho a) l e (tc_power c) rows) Hb Hr Hep) as (S1 & S2 & S3 & S4).
  - intros r z Hrr Hz. destruct (row_zeta n k 1 X ys zs zls r z Ey G G' Hrr Hz) as [Z1 _].
    assert (Lf : length (fst z ++ [1]) = S k) by (rewrite app_length; cbn; unfold vec in *; lia). split.
    + apply (score_grad (fun s => (s - hd 0 (snd z)) ^ 2)); [transitivity (S k); [exact Lt|symmetry; exact Lf]|]. rewrite dot_snoc by (unfold vec in *; congruence). rewrite Rmult_1_r. apply square_deriv.
    + apply score_convex; [apply square_convex|]. transitivity (S k); [exact Lf|symmetry; exact Lt].
  - exact HA'.
  - unfold vec in *. rewrite Lt. exact HS.
  - intros l th _. apply value_iff; auto.
  - exists (objective (vec * vec) (loss wt b) (pt_cost c) (lr_rho a) lam e (tc_power c) rows). split; [apply V; exact Lw|]. split.
    + intros A' HA2 HC. specialize (S2 A' HA2 HC). rewrite Ob in S2 by exact Lw.
      replace (adv_mean (fun _ z => loss wt b z) A' rows) with (adv_mean (fun _ z => LL (wt ++ [b]) z) A' rows); [exact S2|].
      unfold adv_mean. f_equal. apply map2_in_length. intros q r _ Hrr. f_equal. apply map2_in_length. intros w z _ Hz. rewrite (EL wt b r z Lw Hrr Hz). reflexivity.
    + intros l wt' b' Hl Lw'. eexists. split; [apply V; exact Lw'|]. specialize (S4 l (wt' ++ [b']) Hl). rewrite !Ob in S4 by assumption. apply S4.
      rewrite !app_length. cbn [length]. unfold vec in *. lia.
Qed.
Print Assumptions C115_linear.

(* LogisticRegression with two classes, with or without an intercept. *)
Theorem C115_logistic pf a X y d t k c0 c1 : lg_dispatch pf a X y = Ok (FTorch d t) -> (c0 < c1)%Z -> (forall v, In v y <-> v = c0 \/ v = c1) ->
  X <> [] -> widths k X -> length y = length X -> 0 < lg_rho a -> a_imp_samp d = false ->
  let ys := map (fun v => [if Z.eq_dec v c0 then -1 else 1]) y in
  let bias b := if lg_fit_intercept a then b else 0 in
  let trained wt b := if lg_fit_intercept a then [wt; [b]] else [wt] in
  let params wt b := List.concat (trained wt b) in
  exists c, tcost_of (a_cost d) = Some c /\
  forall n zs zls e s grads, is_grid n (length X) k zs -> is_grid n (length X) 1 zls -> zs <> [] -> a_epsilon d = Fin e -> 0 < e ->
  let rows := labelled_rows X ys zs zls in
  let loss wt b z := ln (1 + exp (- (hd 0 (snd z) * (dot wt (fst z) + bias b)))) + penalty (lg_l2_reg a) (params wt b) in
  let gradient wt b z := vadd (vscal (- hd 0 (snd z) / (1 + exp (hd 0 (snd z) * (dot wt (fst z) + bias b)))) (if lg_fit_intercept a then fst z ++ [1] else fst z))
                              (vscal (Rmax 0 (lg_l2_reg a)) (params wt b)) in
  let value lam wt b := t_compute_dual (lg_call wt (bias b)) (wrapped_of d [] (trained wt b)) c s grads (dual_of d (tc_power c) e lam)
                          (Tensor.batch [length X] k X) (Some (Tensor.batch [length X] 1 ys)) (grid n (length X) k zs) (Some (grid n (length X) 1 zls)) in
  forall lam wt b A, length wt = k -> gibbs_adversary (loss wt b) (pt_cost c) e lam rows A ->
  stationary (pt_cost c) (lg_rho a) (tc_power c) rows (length (params wt b)) (gradient wt b) lam A ->
  exists v, value lam wt b = Ok (Scalar (Fin v)) /\
    (forall A', adversary n A' rows -> adv_mean (pt_cost c) A' rows <= Rpower (lg_rho a) (tc_power c) -> adv_mean (fun _ z => loss wt b z) A' rows - e * adv_entropy A' <= v) /\
    (forall l wt' b', 0 <= l -> length wt' = k -> exists v', value l wt' b' = Ok (Scalar (Fin v')) /\ v <= v').
Proof.
  intros H Hcc Hy Nx W E Hr Hi ys bias trained params.
  assert (T : forall wt b, length wt = k -> trains_labelled d (lg_call wt (bias b)) (wrapped_of d [] (trained wt b)) k 1
    (fun x l => ln (1 + exp (- (hd 0 l * (dot wt x + bias b)))) + penalty (lg_l2_reg a) (params wt b)) X ys (lg_rho a)).
  { intros wt b <-. apply (C113_logistic_binary pf a X y d t wt b c0 c1); auto. }
  destruct (T (repeat 0 k) 0 (repeat_length 0 k)) as (c & Hc & _). exists c. split; [exact Hc|].
  intros n zs zls e s grads G G' Nz He Hep rows loss gradient value lam wt b A Lw HA HS.
  assert (Ey : length ys = length X) by (unfold ys; rewrite map_length; exact E).
  assert (V : forall l wt b, length wt = k -> value l wt b = Ok (Scalar (Fin (objective (vec * vec) (loss wt b) (pt_cost c) (lg_rho a) l e (tc_power c) rows)))).
  { intros l wt' b' Lw'. destruct (T wt' b' Lw') as (c' & Hc' & Q). rewrite Hc in Hc'. injection Hc' as <-.
    destruct (Q n zs zls e l grads G G' Nz He ltac:(lra)) as [Q1 _]. specialize (Q1 Hi s). unfold value. refine (eq_trans Q1 _).
    rewrite (robust_rows _ _ _ _ _ _ X ys zs zls n k 1 Ey G G' Nz). reflexivity. }
  pose proof (rows_ok n k 1 X ys zs zls Ey Nx G G' Nz) as Hb. fold rows in Hb.
  set (feat := fun x : vec => if lg_fit_intercept a then x ++ [1] else x).
  set (LL := fun (th : vec) (z : vec * vec) => score_loss (fun s => ln (1 + exp (- (hd 0 (snd z) * s)))) (lg_l2_reg a) (feat (fst z)) th).
  assert (Sc : forall wt b (x : vec), length wt = length x -> dot (params wt b) (feat x) = dot wt x + bias b).
  { intros wt' b' x Lx. unfold params, trained, feat, bias. destruct (lg_fit_intercept a); cbn [List.concat]; [rewrite app_nil_r, dot_snoc by exact Lx|rewrite app_nil_r]; ring. }
  assert (EL : forall wt b r z, length wt = k -> In r rows -> In z (r_zeta r) -> LL (params wt b) z = loss wt b z).
  { intros wt' b' r z Lw' Hrr Hz. destruct (row_zeta n k 1 X ys zs zls r z Ey G G' Hrr Hz) as [Z1 _]. unfold LL, score_loss, loss. rewrite Sc by (unfold vec in *; congruence). reflexivity. }
  assert (Ob : forall l wt b, length wt = k -> objective (vec * vec) (LL (params wt b)) (pt_cost c) (lg_rho a) l e (tc_power c) rows = objective (vec * vec) (loss wt b) (pt_cost c) (lg_rho a) l e (tc_power c) rows).
  { intros l wt' b' Lw'. unfold objective. f_equal. apply rmean_map_ext. intros r Hrr. unfold soft, pen. f_equal. apply map_ext_in. intros z Hz. rewrite (EL wt' b' r z Lw' Hrr Hz). reflexivity. }
  assert (HA' : gibbs_adversary (LL (params wt b)) (pt_cost c) e lam rows A).
  { unfold gibbs_adversary in *. pose proof (fun r z => EL wt b r z Lw) as EL'. clear -HA EL'. induction HA as [|q r A rows (Z & HZ & Eq & Sq) HA IH]; constructor.
    - exists Z. split; [exact HZ|]. split; [|exact Sq]. rewrite Eq. apply map_ext_in. intros z Hz. rewrite (EL' r z (or_introl eq_refl) Hz). reflexivity.
    - apply IH. intros r' z Hr' Hz. apply (EL' r' z (or_intror Hr') Hz). }
  assert (Lf : forall wt b (x : vec), length wt = length x -> length (params wt b) = length (feat x)).
  { intros wt' b' x Lx. unfold params, trained, feat. destruct (lg_fit_intercept a); cbn [List.concat]; rewrite ?app_nil_r, ?app_length; cbn [length]; unfold vec in *; lia. }
  assert (Lp : forall wt b wt' b', length wt = k -> length wt' = k -> length (params wt' b') = length (params wt b)).
  { intros w1 b1 w2 b2 L1 L2. unfold params, trained. destruct (lg_fit_intercept a); cbn [List.concat]; rewrite ?app_nil_r, ?app_length; cbn [length]; unfold vec in *; lia. }
  destruct (C115_stationary LL (pt_cost c) (no_displace) (fun _ _ => 0) (fun _ _ _ => 0) n rows (lg_rho a) lam e (tc_power c) (params wt b) (gradient wt b) A
    (fun l th => objective (vec * vec) (LL th) (pt_cost c) (lg_rho a) l e (tc_power c) rows) Hb Hr Hep) as (S1 & S2 & S3 & S4).
  - intros r z Hrr Hz. destruct (row_zeta n k 1 X ys zs zls r z Ey G G' Hrr Hz) as [Z1 _]. assert (Lx : length wt = length (fst z)) by (unfold vec in *; congruence). split.
    + unfold gradient. apply (score_grad (fun s => ln (1 + exp (- (hd 0 (snd z) * s))))); [exact (Lf wt b (fst z) Lx)|]. pose proof (Sc wt b (fst z) Lx) as Q. unfold feat in Q. unfold vec in *.
      match goal with |- derivable_pt_lim _ ?u _ => replace u with (dot wt (fst z) + bias b) by (symmetry; exact Q) end. apply d_logistic.
    + apply score_convex; [apply softplus_convex|]. symmetry. exact (Lf wt b (fst z) Lx).
  - exact HA'.
  - exact HS.
  - intros l th _. apply value_iff; auto.
  - exists (objective (vec * vec) (loss wt b) (pt_cost c) (lg_rho a) lam e (tc_power c) rows). split; [apply V; exact Lw|]. split.
    + intros A' HA2 HC. specialize (S2 A' HA2 HC). rewrite Ob in S2 by exact Lw.
      replace (adv_mean (fun _ z => loss wt b z) A' rows) with (adv_mean (fun _ z => LL (params wt b) z) A' rows); [exact S2|].
      unfold adv_mean. f_equal. apply map2_in_length. intros q r _ Hrr. f_equal. apply map2_in_length. intros w z _ Hz. rewrite (EL wt b r z Lw Hrr Hz). reflexivity.
    + intros l wt' b' Hl Lw'. eexists. split; [apply V; exact Lw'|]. specialize (S4 l (params wt' b') Hl). rewrite !Ob in S4 by assumption. apply S4. apply Lp; assumption.
Qed.
Print Assumptions C115_logistic.
