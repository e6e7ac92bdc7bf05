(* C139: the losses written in the examples custom_models/regressors_comparison.py and classifiers_comparison.py. *)
From Coq Require Import Reals List Lra Lia Arith Bool.
From Verif Require Import RList XReal ExLoss_Model ExLoss_Proofs.
Import ListNotations.
Local Open Scope R_scope.

(* specification *)
Definition is_convex (f : R -> R) : Prop := forall a b t, 0 <= t <= 1 -> f (t * a + (1 - t) * b) <= t * f a + (1 - t) * f b.
Definition lipschitz (L : R) (f : R -> R) : Prop := forall a b, Rabs (f a - f b) <= L * Rabs (a - b).
(* number of labels below, or not above, a value *)
Definition number (keep : R -> bool) (l : list R) : nat := length (filter keep l).
(* the value q is a tau-quantile of the labels: at most a fraction tau of them is smaller, at least a fraction tau is not greater *)
Definition quantile_of (tau : R) (l : list R) (q : R) : Prop :=
  INR (number (fun y => Rltb y q) l) <= tau * INR (length l) <= INR (number (fun y => Rleb y q) l).
(* formulas displayed in the text of the examples, with a the residual or the margin *)
Definition doc_pinball (tau a : R) : R := if Rle_dec 0 a then - (1 - tau) * a else tau.
Definition doc_huber (delta a : R) : R := if Rle_dec (Rabs a) delta then Rabs a / 2 else delta * Rabs a - delta ^ 3 / 2.
Definition doc_l2_insensitive (a : R) : R := Rmax 0 (Rabs a) ^ 2.
Definition doc_smooth_hinge (a : R) : R := if Rle_dec 0 a then 1 / 2 * Rmax 0 (1 - a) ^ 2 else 1 / 2 - a.
Definition doc_perceptron (a : R) : R := doc_smooth_hinge a.

Lemma relu_convex f : convex f -> convex (fun x => ex_relu (f x)).
Proof. intros F. apply (convex_max (fun _ => 0) f); [|exact F]. intros a b t _. lra. Qed.
Lemma relu_pos a : 0 <= ex_relu a.
Proof. apply Rmax_l. Qed.

(* Every loss but Huber's is convex in the prediction, hence convex in the parameters of a linear model. *)
Theorem C139_convex : forall y, 
  is_convex (fun x => ex_quadratic x y) /\ is_convex (fun x => ex_l1 x y) /\
  (forall tau, is_convex (fun x => ex_insensitive tau x y) /\ is_convex (fun x => ex_l2_insensitive tau x y)) /\
  (forall tau, 0 <= tau <= 1 -> is_convex (fun x => ex_pinball tau x y)) /\
  is_convex (fun x => ex_hinge x y) /\ (forall g, 0 < g -> is_convex (fun x => ex_smooth_hinge g x y)) /\ is_convex (fun x => ex_perceptron x y) /\
  is_convex (fun x => ex_l2_margin x y) /\ is_convex (fun x => ex_l2_hinge x y) /\ is_convex (fun x => ex_exp x y).
Proof.
  intros y. assert (Ab : convex (fun x => Rabs (y - x))).
  { apply (convex_ext (fun x => Rabs (-1 * x + y))); [intros a; f_equal; ring|]. apply (convex_affine Rabs (-1) y). apply convex_abs. }
  assert (Ins : forall tau, convex (fun x => ex_insensitive tau x y)).
  { intros tau. apply relu_convex. intros a b t Ht. specialize (Ab a b t Ht). cbn beta in Ab. nra. }
  assert (Hin : convex (fun x => ex_hinge x y)).
  { apply (relu_convex (fun x => 1 - y * x)). apply (convex_ext (fun x => (- y) * x + 1)); [intros; ring|apply convex_lin]. }
  repeat split.
  - intros a b t Ht. unfold ex_quadratic. pose proof (pow2_ge_0 (a - b)). assert (0 <= t * (1 - t) * (a - b) ^ 2) by (apply Rmult_le_pos; nra). nra.
  - exact Ab.
  - apply Ins.
  - apply (convex_sq (fun x => ex_insensitive tau x y)); [intros; apply relu_pos|apply Ins].
  - intros tau Ht. apply (convex_ext (fun x => Rmax (- tau * x + tau * y) ((1 - tau) * x + - (1 - tau) * y))); [|apply convex_max; apply convex_lin].
    intros a. destruct (Rle_dec a y); [rewrite pinball_ge by lra; rewrite Rmax_left by nra; ring|rewrite pinball_lt by lra; rewrite Rmax_right by nra; ring].
  - exact Hin.
  - intros g Hg. apply (convex_ext (fun x => shinge g (y * x + 0))); [intros a; rewrite shinge_eq; f_equal; ring|]. apply (convex_affine (shinge g) y 0). apply shinge_convex; auto.
  - apply (relu_convex (fun x => - y * x)). apply (convex_ext (fun x => (- y) * x + 0)); [intros; ring|apply convex_lin].
  - intros a b t Ht. unfold ex_l2_margin. pose proof (pow2_ge_0 (y * (a - b))). assert (0 <= t * (1 - t) * (y * (a - b)) ^ 2) by (apply Rmult_le_pos; nra). nra.
  - apply (convex_sq (fun x => ex_hinge x y)); [intros; apply relu_pos|exact Hin].
  - intros a b t Ht. unfold ex_exp. set (m := - y * (t * a + (1 - t) * b)). set (u := - y * a). set (v := - y * b).
    assert (Em : m = t * u + (1 - t) * v) by (unfold m, u, v; ring).
    assert (T : forall w, exp m * (1 + (w - m)) <= exp w).
    { intros w. replace (exp w) with (exp m * exp (w - m)) by (rewrite <- exp_plus; f_equal; ring). apply Rmult_le_compat_l; [left; apply exp_pos|].
      destruct (Req_dec (w - m) 0) as [->|N]; [rewrite exp_0; lra|]. left. apply exp_ineq1. exact N. }
    pose proof (T u) as Tu. pose proof (T v) as Tv.
    assert (Z : exp m = t * (exp m * (1 + (u - m))) + (1 - t) * (exp m * (1 + (v - m)))) by (rewrite Em; ring). rewrite Z. nra.
Qed.
Print Assumptions C139_convex.

(* Huber's loss subtracts q^3/2 where q^2/2 is needed: it is convex, or Lipschitz, only for the threshold 1. *)
Theorem C139_huber : forall q y, 0 < q ->
  (is_convex (fun x => ex_huber q x y) <-> q = 1) /\ ((exists L, lipschitz L (fun x => ex_huber q x y)) <-> q = 1) /\
  (* the jump at the threshold *)
  (forall e, 0 < e -> exists d, 0 < d /\ forall a, q - d < Rabs (y - a) < q -> Rabs (ex_huber q (y - q) y - ex_huber q a y - q ^ 2 * (1 - q) / 2) < e).
Proof.
  intros q y Hq. assert (Sh : forall x, ex_huber q x y = ex_huber q 0 (y - x)) by (intros; apply ex_huber_shift).
  assert (Hu1 : convex (fun x => ex_huber 1 x y)).
  { apply (convex_ext (fun x => huber 1 (-1 * x + y))); [intros; rewrite ex_huber_one; f_equal; ring|]. apply (convex_affine (huber 1) (-1) y). apply huber_convex; lra. }
  assert (Jump : forall h, 0 < h < q -> ex_huber q 0 q - ex_huber q 0 (q - h) = q ^ 2 * (1 - q) / 2 + q * h - h ^ 2 / 2).
  { intros h Hh. rewrite ex_huber_out, ex_huber_in by (rewrite Rabs_pos_eq; lra). rewrite Rabs_pos_eq by lra. field. }
  split; [|split].
  - split.
    + intros C. destruct (Req_dec q 1) as [E|N]; [exact E|]. exfalso. apply (huber_not_convex q Hq N).
      apply (convex_ext (fun a => ex_huber q (-1 * a + y) y)); [intros a; rewrite Sh; f_equal; ring|]. apply (convex_affine (fun x => ex_huber q x y) (-1) y). exact C.
    + intros ->. exact Hu1.
  - split.
    + intros [L Lp]. destruct (Req_dec q 1) as [E|N]; [exact E|]. exfalso. set (J := q ^ 2 * (1 - q) / 2) in *.
      assert (HJ : 0 < Rabs J). { apply Rabs_pos_lt. unfold J. intros Z. assert (q ^ 2 * (1 - q) = 0) by lra. apply Rmult_integral in H. destruct H; [apply pow_nonzero in H; [exact H|lra]|lra]. }
      assert (L0 : 0 <= L). { specialize (Lp 1 0). rewrite Rminus_0_r, Rabs_R1 in Lp. pose proof (Rabs_pos (ex_huber q 1 y - ex_huber q 0 y)). lra. }
      set (h := Rmin (q / 2) (Rabs J / (2 * (L + 2 * q)))).
      assert (P : 0 < Rabs J / (2 * (L + 2 * q))) by (apply Rmult_lt_0_compat; [exact HJ|apply Rinv_0_lt_compat; lra]).
      assert (Hh : 0 < h <= q / 2) by (unfold h; split; [apply Rmin_glb_lt; lra|apply Rmin_l]).
      assert (Hj : h * (L + 2 * q) <= Rabs J / 2).
      { assert (M : h <= Rabs J / (2 * (L + 2 * q))) by apply Rmin_r. apply (Rmult_le_compat_r (L + 2 * q)) in M; [|lra]. replace (Rabs J / (2 * (L + 2 * q)) * (L + 2 * q)) with (Rabs J / 2) in M by (field; lra). exact M. }
      specialize (Lp (y - q) (y - (q - h))). cbn beta in Lp. rewrite !Sh in Lp. replace (y - (y - q)) with q in Lp by ring. replace (y - (y - (q - h))) with (q - h) in Lp by ring.
      rewrite Jump in Lp by lra. replace (y - q - (y - (q - h))) with (- h) in Lp by ring. rewrite Rabs_Ropp, (Rabs_pos_eq h) in Lp by lra.
      fold J in Lp. assert (Rabs J <= L * h + Rabs (q * h - h ^ 2 / 2)).
      { replace J with ((J + q * h - h ^ 2 / 2) - (q * h - h ^ 2 / 2)) at 1 by ring. eapply Rle_trans; [apply Rabs_triang|]. rewrite Rabs_Ropp. lra. }
      rewrite (Rabs_pos_eq (q * h - h ^ 2 / 2)) in H by nra. nra.
    + intros ->. exists 1. intros a b.
      assert (G : forall u v, huber 1 u - huber 1 v <= Rabs (u - v)).
      { intros u v. unfold huber. destruct (Rle_dec 1 (Rabs u)), (Rle_dec 1 (Rabs v)); unfold Rabs in *; destruct (Rcase_abs u), (Rcase_abs v), (Rcase_abs (u - v)); nra. }
      rewrite !ex_huber_one. pose proof (G (y - a) (y - b)) as G1. pose proof (G (y - b) (y - a)) as G2. replace (y - a - (y - b)) with (- (a - b)) in G1 by ring. replace (y - b - (y - a)) with (a - b) in G2 by ring.
      rewrite Rabs_Ropp in G1. rewrite Rmult_1_l. apply Rabs_le. lra.
  - intros e He. exists (Rmin (q / 2) (e / (2 * q))). assert (P : 0 < e / (2 * q)) by (apply Rmult_lt_0_compat; [exact He|apply Rinv_0_lt_compat; lra]).
    split; [apply Rmin_glb_lt; lra|]. intros a Ha. pose proof (Rmin_l (q / 2) (e / (2 * q))) as M1. pose proof (Rmin_r (q / 2) (e / (2 * q))) as M2. set (d := Rmin _ _) in *.
    rewrite !Sh. replace (y - (y - q)) with q by ring. set (r := y - a) in *.
    assert (Er : ex_huber q 0 r = ex_huber q 0 (Rabs r)). { rewrite !ex_huber_in by (rewrite ?Rabs_Rabsolu; lra). unfold Rabs. destruct (Rcase_abs r); field. }
    rewrite Er. set (h := q - Rabs r). replace (Rabs r) with (q - h) by (unfold h; ring). rewrite Jump by (unfold h; lra).
    replace (q ^ 2 * (1 - q) / 2 + q * h - h ^ 2 / 2 - q ^ 2 * (1 - q) / 2) with (q * h - h ^ 2 / 2) by ring. assert (0 < h < d) by (unfold h; lra).
    assert (q * d <= e / 2). { apply (Rmult_le_compat_l q) in M2; [|lra]. replace (q * (e / (2 * q))) with (e / 2) in M2 by (field; lra). exact M2. }
    rewrite Rabs_pos_eq by nra. nra.
Qed.
Print Assumptions C139_huber.

(* The threshold of the example is 0.95: two predictions are each better than the one halfway. *)
Theorem C139_huber_refuted : exists x x' y, (ex_huber (95 / 100) x y + ex_huber (95 / 100) x' y) / 2 < ex_huber (95 / 100) ((x + x') / 2) y.
Proof.
  exists (- (90 / 100)), (- 1), 0. rewrite (ex_huber_shift (95 / 100) (- (90 / 100))), (ex_huber_shift (95 / 100) (- 1)), (ex_huber_shift (95 / 100) ((- (90 / 100) + - 1) / 2)). rewrite (ex_huber_in _ (0 - - (90 / 100))), (ex_huber_out _ (0 - -1)), (ex_huber_out _ (0 - (- (90 / 100) + -1) / 2)) by (rewrite Rabs_pos_eq; lra).
  rewrite !Rabs_pos_eq by lra. lra.
Qed.
Print Assumptions C139_huber_refuted.

(* Lipschitz constants in the prediction. *)
Theorem C139_lipschitz : forall y,
  lipschitz 1 (fun x => ex_l1 x y) /\ (forall tau, lipschitz 1 (fun x => ex_insensitive tau x y)) /\
  (forall tau, 0 <= tau <= 1 -> lipschitz (Rmax tau (1 - tau)) (fun x => ex_pinball tau x y)) /\
  lipschitz (Rabs y) (fun x => ex_hinge x y) /\ (forall g, 0 < g -> lipschitz (Rabs y) (fun x => ex_smooth_hinge g x y)) /\ lipschitz (Rabs y) (fun x => ex_perceptron x y).
Proof.
  intros y. assert (Re : forall u v, Rabs (ex_relu u - ex_relu v) <= Rabs (u - v)) by (intros u v; apply Rabs_le; unfold ex_relu, Rmax, Rabs; destruct (Rle_dec 0 u), (Rle_dec 0 v), (Rcase_abs (u - v)); lra).
  assert (Ab : forall a b, Rabs (Rabs (y - a) - Rabs (y - b)) <= Rabs (a - b)).
  { intros a b. eapply Rle_trans; [apply Rabs_triang_inv2|]. replace (y - a - (y - b)) with (- (a - b)) by ring. rewrite Rabs_Ropp. lra. }
  assert (Sm : forall g u v, 0 < g -> u <= v -> 0 <= shinge g u - shinge g v <= v - u).
  { intros g u v Hg Huv. unfold shinge. assert (I : 0 < / (2 * g)) by (apply Rinv_0_lt_compat; lra).
    assert (Dv : forall w, w ^ 2 / (2 * g) = w * w * / (2 * g)) by (intros; unfold Rdiv; ring). assert (Ig : g * / (2 * g) = 1 / 2) by (field; lra). set (k := / (2 * g)) in *.
    destruct (ex_shinge_cases g u 1 Hg) as [[H ->]|[[H ->]|[H ->]]], (ex_shinge_cases g v 1 Hg) as [[H' ->]|[[H' ->]|[H' ->]]]; rewrite ?Dv, !Rmult_1_l in *; try lra.
    - assert (u = v) by lra. subst. assert (1 - v = 0) by lra. rewrite H0. lra.
    - assert (1 - u <= g) by lra. assert ((1 - u) * k <= 1 / 2) by (rewrite <- Ig; apply Rmult_le_compat_r; lra). assert (0 <= (1 - u) * k) by (apply Rmult_le_pos; lra). split; nra.
    - assert (E : (1 - u) * (1 - u) * k - (1 - v) * (1 - v) * k = (v - u) * (((1 - u) + (1 - v)) * k)) by ring. rewrite E.
      assert (((1 - u) + (1 - v)) * k <= 1) by (replace 1 with (2 * (g * k)) by (rewrite Ig; lra); nra). assert (0 <= ((1 - u) + (1 - v)) * k) by (apply Rmult_le_pos; lra). split; nra.
    - assert (u = 1 - g) by lra. assert (v = 1 - g) by lra. subst. replace ((1 - (1 - g)) * (1 - (1 - g)) * k) with (g * (g * k)) by ring. rewrite Ig. lra.
    - assert (E : (1 - v) * ((1 - v) * k) <= g * (1 / 2)). { assert ((1 - v) * k <= 1 / 2) by (rewrite <- Ig; apply Rmult_le_compat_r; lra). assert (0 <= (1 - v) * k) by (apply Rmult_le_pos; lra). nra. }
      assert (F : (1 - v) * (1 - v) * k >= (1 - v) - g / 2). { assert (0 <= (g - (1 - v)) * (g - (1 - v)) * k) by (apply Rmult_le_pos; [nra|lra]). assert (g * g * k = g / 2) by (rewrite Rmult_assoc, Ig; field). nra. }
      split; lra. }
  repeat split.
  - intros a b. unfold ex_l1. rewrite Rmult_1_l. apply Ab.
  - intros tau a b. unfold ex_insensitive. rewrite Rmult_1_l. eapply Rle_trans; [apply Re|]. replace (Rabs (y - a) - tau - (Rabs (y - b) - tau)) with (Rabs (y - a) - Rabs (y - b)) by ring. apply Ab.
  - intros tau Ht a b. pose proof (Rmax_l tau (1 - tau)). pose proof (Rmax_r tau (1 - tau)). set (L := Rmax _ _) in *. clearbody L.
    assert (L0 : 0 <= L) by lra. assert (M : forall c d, 0 <= d -> 0 <= c <= L -> 0 <= c * d <= L * d) by (intros c d Hd Hc; split; [apply Rmult_le_pos; lra|apply Rmult_le_compat_r; lra]).
    assert (W : forall u v, u <= v -> Rabs (ex_pinball tau u y - ex_pinball tau v y) <= L * (v - u)).
    { intros u v Huv. destruct (Rle_dec u y), (Rle_dec v y).
      - rewrite !pinball_ge by lra. pose proof (M tau (v - u) ltac:(lra) ltac:(lra)). apply Rabs_le. split; lra.
      - rewrite pinball_ge, pinball_lt by lra. pose proof (M tau (y - u) ltac:(lra) ltac:(lra)). pose proof (M (1 - tau) (v - y) ltac:(lra) ltac:(lra)). apply Rabs_le. split; lra.
      - lra.
      - rewrite !pinball_lt by lra. pose proof (M (1 - tau) (v - u) ltac:(lra) ltac:(lra)). apply Rabs_le. split; lra. }
    destruct (Rle_dec a b) as [H1|H1]; [rewrite (Rabs_minus_sym a b), (Rabs_pos_eq (b - a)) by lra; apply W; exact H1|].
    rewrite Rabs_minus_sym, (Rabs_pos_eq (a - b)) by lra. apply W. lra.
  - intros a b. unfold ex_hinge. eapply Rle_trans; [apply Re|]. right. replace (1 - y * a - (1 - y * b)) with (- (y * (a - b))) by ring. rewrite Rabs_Ropp, Rabs_mult. reflexivity.
  - intros g Hg a b. rewrite !shinge_eq. rewrite <- Rabs_mult. replace (y * (a - b)) with (y * a - y * b) by ring. set (u := y * a). set (v := y * b).
    destruct (Rle_dec u v); [pose proof (Sm g u v Hg r)|assert (r : v <= u) by lra; pose proof (Sm g v u Hg r)]; apply Rabs_le; unfold Rabs; destruct (Rcase_abs (u - v)); lra.
  - intros a b. unfold ex_perceptron. eapply Rle_trans; [apply Re|]. right. replace (- y * a - - y * b) with (- (y * (a - b))) by ring. rewrite Rabs_Ropp, Rabs_mult. reflexivity.
Qed.
Print Assumptions C139_lipschitz.

(* Losses that are L-Lipschitz in the prediction of a linear model stay bounded under every positive multiplier of the squared distance:
   the robust problem is finite for every radius. *)
Theorem C139_finite : forall f L theta xi lam zeta, lipschitz L f -> 0 <= L -> 0 < lam -> length xi = length theta -> length zeta = length theta ->
  f (dot theta zeta) - lam * sqnorm (vsub zeta xi) <= f (dot theta xi) + L ^ 2 * sqnorm theta / (4 * lam).
Proof.
  intros f L theta xi lam zeta Lp HL Hl L1 L2. pose proof (Lp (dot theta zeta) (dot theta xi)) as H. rewrite <- dot_vsub_r in H by lia. set (d := vsub zeta xi) in *.
  assert (F : f (dot theta zeta) - f (dot theta xi) <= L * Rabs (dot theta d)) by (eapply Rle_trans; [apply Rle_abs|exact H]).
  assert (Ld : length d = length theta) by (unfold d; rewrite vsub_length; lia).
  assert (CS : dot theta d * dot theta d <= sqnorm theta * sqnorm d).
  { apply cauchy_schwarz_sq. lia. }
  set (p := Rabs (dot theta d)) in *. assert (Pp : p * p = dot theta d * dot theta d) by (unfold p; rewrite <- Rabs_mult; apply Rabs_pos_eq; nra).
  rewrite <- Pp in CS. pose proof (Rabs_pos (dot theta d)) as P0. fold p in P0. pose proof (sqnorm_nonneg d) as D0. pose proof (sqnorm_nonneg theta) as T0. set (D := sqnorm d) in *. set (N := sqnorm theta) in *.
  assert (K : L * p - lam * D <= L ^ 2 * N / (4 * lam)).
  { apply (Rmult_le_reg_l (4 * lam)); [lra|]. replace (4 * lam * (L ^ 2 * N / (4 * lam))) with (L ^ 2 * N) by (field; lra).
    destruct (Req_dec N 0) as [Z|Z]; [assert (p = 0) by nra; subst p; rewrite Z; assert (0 <= lam * D) by (apply Rmult_le_pos; lra); rewrite H0; nra|].
    assert (M : 0 <= (L * N - 2 * lam * p) ^ 2) by apply pow2_ge_0. assert (NP : 0 < N) by lra.
    apply (Rmult_le_reg_l N); [exact NP|]. assert (lam * lam * (p * p) <= lam * lam * (N * D)) by (apply Rmult_le_compat_l; [nra|exact CS]). nra. }
  lra.
Qed.
Print Assumptions C139_finite.

(* The exponential loss is neither bounded, Lipschitz nor below any quadratic, as its text says; for every multiplier the penalised loss
   is unbounded, so the robust problem without regularisation is infinite whatever the radius unless the model is constant. *)
Theorem C139_exponential : forall theta xi y, length xi = length theta -> sqnorm theta <> 0 -> y <> 0 ->
  (forall lam M, exists zeta, length zeta = length theta /\ M < ex_exp (dot theta zeta) y - lam * sqnorm (vsub zeta xi)) /\
  (forall L, ~ lipschitz L (fun x => ex_exp x y)) /\ (forall A B C, exists x, A * x ^ 2 + B * x + C < ex_exp x y) /\
  (forall k, 0 < k -> ~ is_convex (fun x => ex_exp x y - k * x ^ 2)).
Proof.
  intros theta xi y L1 NT Ny. assert (Yp : 0 < y * y) by (destruct (Rtotal_order y 0) as [|[|]]; [nra|contradiction|nra]). assert (Np : 0 < sqnorm theta) by (pose proof (sqnorm_nonneg theta); lra).
  assert (G : forall A B C, exists x, A * x ^ 2 + B * x + C < ex_exp x y).
  { intros A B C. destruct (exp_beats (A / (y * y)) (- B / y) C) as (s & Hs & E). exists (- s / y). unfold ex_exp. replace (- y * (- s / y)) with s by (field; auto).
    replace (A * (- s / y) ^ 2 + B * (- s / y) + C) with (A / (y * y) * s ^ 2 + - B / y * s + C) by (field; auto). exact E. }
  split; [|split; [|split]].
  - intros lam M. set (N := sqnorm theta) in *. set (c := y * dot theta xi). set (k := lam / (y * y * N)).
    destruct (exp_beats k (2 * k * c) (k * c ^ 2 + M)) as (v & Hv & E). set (s := (v + c) / (y * y * N)).
    exists (vadd xi (vscal (- (s * y)) theta)). split; [rewrite vadd_length; rewrite ?vscal_length; lia|].
    rewrite dot_vadd_r by (rewrite ?vscal_length; lia). rewrite dot_vscal_r. change (dot theta theta) with (sqnorm theta). fold N.
    assert (Sq : sqnorm (vsub (vadd xi (vscal (- (s * y)) theta)) xi) = s * s * (y * y) * N).
    { rewrite sqnorm_vsub by (rewrite vadd_length; rewrite ?vscal_length; lia). rewrite sqnorm_vadd by (rewrite vscal_length; lia). rewrite sqnorm_vscal, dot_vadd_l by (rewrite ?vscal_length; lia).
      rewrite !dot_vscal_r, dot_vscal_l, (dot_comm theta xi). change (dot xi xi) with (sqnorm xi). fold N. ring. }
    rewrite Sq. unfold ex_exp. replace (- y * (dot theta xi + - (s * y) * N)) with v by (unfold s, c; field; split; lra).
    replace (lam * (s * s * (y * y) * N)) with (k * v ^ 2 + 2 * k * c * v + k * c ^ 2) by (unfold s, k; field; split; [lra|exact Ny]). lra.
  - intros L Lp. destruct (G 1 0 (L * L + 1)) as (x & E). specialize (Lp x 0). cbn beta in Lp. rewrite Rminus_0_r in Lp. unfold ex_exp at 2 in Lp. rewrite Rmult_0_r, exp_0 in Lp.
    pose proof (Rle_abs (ex_exp x y - 1)). assert (L * Rabs x <= L * L / 2 + x ^ 2 / 2) by (assert (X : x ^ 2 = Rabs x ^ 2) by (unfold Rabs; destruct (Rcase_abs x); ring); rewrite X; pose proof (pow2_ge_0 (L - Rabs x)); nra).
    pose proof (pow2_ge_0 x). nra.
  - exact G.
  - intros k Hk C. (* on the side where the exponential vanishes it is below every parabola *)
    set (u := / Rabs y). assert (Ya : 0 < Rabs y) by (apply Rabs_pos_lt; exact Ny). assert (Hu : 0 < u) by (apply Rinv_0_lt_compat; exact Ya).
    set (sgn := if Rle_dec 0 y then 1 else -1). assert (S2 : sgn * sgn = 1) by (unfold sgn; destruct (Rle_dec 0 y); lra). assert (Sy : sgn * y = Rabs y) by (unfold sgn, Rabs; destruct (Rle_dec 0 y), (Rcase_abs y); lra).
    assert (Small : forall x, 0 <= x -> ex_exp (sgn * x) y <= 1).
    { intros x Hx. unfold ex_exp. rewrite <- exp_0. assert (Q : - y * (sgn * x) <= 0) by (replace (- y * (sgn * x)) with (- (Rabs y * x)) by (rewrite <- Sy; ring); nra). destruct Q as [Q|Q]; [left; apply exp_increasing; exact Q|rewrite Q; lra]. }
    set (r := 2 / k + 2). assert (Hr : 2 < r) by (unfold r; assert (0 < 2 / k) by (apply Rmult_lt_0_compat; [lra|apply Rinv_0_lt_compat; exact Hk]); lra).
    specialize (C 0 (sgn * (2 * r)) (1 / 2) ltac:(lra)). cbn beta in C. replace (1 / 2 * 0 + (1 - 1 / 2) * (sgn * (2 * r))) with (sgn * r) in C by field.
    assert (E0 : ex_exp 0 y = 1) by (unfold ex_exp; rewrite Rmult_0_r; apply exp_0). rewrite E0 in C. pose proof (Small (2 * r) ltac:(lra)). assert (0 < ex_exp (sgn * r) y) by apply exp_pos.
    replace ((sgn * (2 * r)) ^ 2) with (4 * (r * r)) in C by (replace ((sgn * (2 * r)) ^ 2) with (sgn * sgn * (4 * (r * r))) by ring; rewrite S2; ring). replace ((sgn * r) ^ 2) with (r * r) in C by (replace ((sgn * r) ^ 2) with (sgn * sgn * (r * r)) by ring; rewrite S2; ring).
    assert (k * r = 2 + 2 * k) by (unfold r; field; lra). assert (1 < k * (r * r)) by (replace (k * (r * r)) with (k * r * r) by ring; nra). nra.
Qed.
Print Assumptions C139_exponential.

(* Quantile regression: with a constant model, the minimisers of the pinball loss are exactly the quantiles of the labels. *)
Theorem C139_pinball : forall tau labels x, 0 <= tau <= 1 ->
  ((forall x', rsum (map (ex_pinball tau x) labels) <= rsum (map (ex_pinball tau x') labels)) <-> quantile_of tau labels x).
Proof.
  intros tau labels x Ht. assert (A : at_most x labels = INR (number (fun y => Rleb y x) labels)).
  { unfold at_most, number. induction labels as [|y l IH]; [reflexivity|]. cbn. rewrite IH. unfold Rleb. destruct (Rle_dec y x); [cbn [length]; rewrite S_INR; lra|lra]. }
  assert (B : below x labels = INR (number (fun y => Rltb y x) labels)).
  { clear A. unfold below, number. induction labels as [|y l IH]; [reflexivity|]. cbn. rewrite IH. unfold Rltb. destruct (Rlt_dec y x); [cbn [length]; rewrite S_INR; lra|lra]. }
  unfold quantile_of. rewrite <- A, <- B. apply (pin_min tau labels x Ht).
Qed.
Print Assumptions C139_pinball.

(* Least absolute errors: the minimisers are the medians. *)
Theorem C139_median : forall labels x,
  (forall x', rsum (map (ex_l1 x) labels) <= rsum (map (ex_l1 x') labels)) <-> quantile_of (1 / 2) labels x.
Proof.
  intros labels x. assert (E : forall u, rsum (map (ex_l1 u) labels) = 2 * rsum (map (ex_pinball (1 / 2) u) labels)).
  { intros u. rewrite <- rsum_map_scal. f_equal. apply map_ext. intros y. apply l1_pin. }
  rewrite <- (C139_pinball (1 / 2) labels x) by lra. split; intros H x'; specialize (H x'); rewrite !E in *; lra.
Qed.
Print Assumptions C139_median.

(* When the losses vanish. *)
Theorem C139_vanish : forall x y,
  (forall tau, (ex_insensitive tau x y = 0 <-> Rabs (y - x) <= tau) /\ (ex_l2_insensitive tau x y = 0 <-> Rabs (y - x) <= tau)) /\
  (forall tau, 0 < tau < 1 -> (ex_pinball tau x y = 0 <-> x = y)) /\ (ex_quadratic x y = 0 <-> x = y) /\ (ex_l1 x y = 0 <-> x = y) /\
  (ex_hinge x y = 0 <-> 1 <= y * x) /\ (ex_l2_hinge x y = 0 <-> 1 <= y * x) /\ (forall g, 0 < g -> (ex_smooth_hinge g x y = 0 <-> 1 <= y * x)) /\
  (ex_l2_margin x y = 0 <-> y * x = 1) /\ (ex_perceptron x y = 0 <-> 0 <= y * x).
Proof.
  intros x y. assert (Re : forall a, ex_relu a = 0 <-> a <= 0) by (intros a; unfold ex_relu, Rmax; destruct (Rle_dec 0 a); split; lra).
  assert (Sq : forall a : R, a ^ 2 = 0 <-> a = 0) by (intros a; split; [intros H; nra|intros ->; ring]).
  repeat split; unfold ex_insensitive, ex_l2_insensitive, ex_hinge, ex_l2_hinge, ex_l2_margin, ex_perceptron, ex_quadratic, ex_l1 in *; cbv zeta.
  - rewrite Re. lra.
  - rewrite Re. lra.
  - rewrite Sq, Re. lra.
  - rewrite Sq, Re. lra.
  - destruct (Rle_dec x y); [rewrite pinball_ge by lra|rewrite pinball_lt by lra]; nra.
  - intros ->. rewrite pinball_ge by lra. ring.
  - intros H. assert (Z : (y - x) ^ 2 = 0) by lra. apply (proj1 (Sq _)) in Z. lra.
  - intros ->. replace (y - y) with 0 by ring. ring.
  - intros H. destruct (Req_dec (y - x) 0); [lra|]. exfalso. apply Rabs_no_R0 in H0. contradiction.
  - intros ->. replace (y - y) with 0 by ring. apply Rabs_R0.
  - rewrite Re. lra.
  - rewrite Re. lra.
  - rewrite Sq, Re. lra.
  - rewrite Sq, Re. lra.
  - intros E. destruct (ex_shinge_cases g x y H) as [[H1 _]|[[H1 Q]|[H1 Q]]]; [exact H1| |].
    + rewrite E in Q. assert (Z : (1 - y * x) ^ 2 = 0) by (apply (Rmult_eq_reg_r (/ (2 * g))); [rewrite Rmult_0_l; symmetry; exact Q|apply Rinv_neq_0_compat; lra]). apply (proj1 (Sq _)) in Z. lra.
    + rewrite E in Q. lra.
  - intros E. destruct (ex_shinge_cases g x y H) as [[_ Q]|[[H1 Q]|[H1 Q]]]; [exact Q| |].
    + rewrite Q. assert (Z : 1 - y * x = 0) by lra. rewrite Z. unfold Rdiv. ring.
    + lra.
  - rewrite Sq. lra.
  - rewrite Sq. lra.
  - rewrite Re. lra.
  - rewrite Re. lra.
Qed.
Print Assumptions C139_vanish.

(* The smooth hinge is within gamma/2 below the hinge, and for the default gamma it is the displayed formula. *)
Theorem C139_smooth_hinge : forall x y, (forall g, 0 < g -> ex_hinge x y - g / 2 <= ex_smooth_hinge g x y <= ex_hinge x y) /\ ex_smooth_hinge 1 x y = doc_smooth_hinge (y * x).
Proof.
  intros x y. split.
  - intros g Hg. unfold ex_hinge, ex_relu. destruct (ex_shinge_cases g x y Hg) as [[H ->]|[[H ->]|[H ->]]].
    + rewrite Rmax_left by lra. lra.
    + rewrite Rmax_right by lra. set (u := 1 - y * x) in *. assert (0 <= u <= g) by (unfold u; lra). pose proof (sq_div g u 1 Hg).
      assert (u ^ 2 / (2 * g) <= u). { apply (Rmult_le_reg_r (2 * g)); [lra|]. replace (u ^ 2 / (2 * g) * (2 * g)) with (u ^ 2) by (field; lra). nra. } lra.
    + rewrite Rmax_right by lra. lra.
  - unfold ex_smooth_hinge, doc_smooth_hinge, ex_float, ex_relu, Rleb. replace (1 - 1) with 0 by ring. destruct (Rle_dec 0 (y * x)); cbn [negb]; field.
Qed.
Print Assumptions C139_smooth_hinge.

(* The other displayed formulas are not the losses: the pinball formula is negative, Huber's is |a|/2 instead of a^2/2 inside, the quadratic
   SVR's forgets the insensitivity and the perceptron's is the smooth hinge. *)
Theorem C139_documented_refuted : exists x y,
  ex_pinball (5 / 100) x y <> doc_pinball (5 / 100) (y - x) /\ doc_pinball (5 / 100) (y - x) < 0 /\
  ex_huber (95 / 100) x y <> doc_huber (95 / 100) (y - x) /\ ex_l2_insensitive (3 / 10) x y <> doc_l2_insensitive (y - x) /\ ex_perceptron x y <> doc_perceptron (y * x).
Proof.
  exists (1 / 2), 1. rewrite pinball_ge by lra. unfold doc_pinball. destruct (Rle_dec 0 (1 - 1 / 2)); [|lra]. split; [lra|]. split; [lra|]. split; [|split].
  - rewrite ex_huber_shift, ex_huber_in by (rewrite Rabs_pos_eq; lra). unfold doc_huber. destruct (Rle_dec (Rabs (1 - 1 / 2)) (95 / 100)) as [H|H]; [|exfalso; apply H]; rewrite Rabs_pos_eq in * by lra; lra.
  - unfold ex_l2_insensitive, doc_l2_insensitive, ex_relu. rewrite (Rabs_pos_eq (1 - 1 / 2)), !Rmax_right by lra. lra.
  - unfold ex_perceptron, doc_perceptron, doc_smooth_hinge, ex_relu. destruct (Rle_dec 0 (1 * (1 / 2))); [|lra]. rewrite Rmax_left, Rmax_right by lra. lra.
Qed.
Print Assumptions C139_documented_refuted.

(* The model with zero weights already has the best possible perceptron loss at every perturbed point, whatever the data. *)
Theorem C139_perceptron_trivial : forall zeta y n, ex_perceptron (dot (repeat 0 n) zeta) y = 0 /\ forall theta, ex_perceptron (dot (repeat 0 n) zeta) y <= ex_perceptron (dot theta zeta) y.
Proof.
  intros zeta y n. assert (D : dot (repeat 0 n) zeta = 0).
  { unfold dot. revert zeta. induction n as [|n IH]; intros [|z zeta]; cbn; try reflexivity. rewrite IH. ring. }
  rewrite D. assert (Z : ex_perceptron 0 y = 0) by (unfold ex_perceptron, ex_relu; rewrite Rmult_0_r; apply Rmax_left; lra). rewrite Z. split; [reflexivity|]. intros. apply relu_pos.
Qed.
Print Assumptions C139_perceptron_trivial.

(* non-vacuity *)
Example C139_quantile_case : quantile_of (1 / 2) [3; 1; 2] 2 /\ ~ quantile_of (1 / 2) [3; 1; 2] 1.
Proof.
  unfold quantile_of, number, Rltb, Rleb. cbn [filter]. repeat match goal with |- context [Rlt_dec ?a ?b] => destruct (Rlt_dec a b); try lra end. repeat match goal with |- context [Rle_dec ?a ?b] => destruct (Rle_dec a b); try lra end. cbn. split; lra.
Qed.
Example C139_finite_case : lipschitz 1 (fun x => ex_hinge x 1) /\ ex_hinge (dot [1] [0]) 1 - 1 * sqnorm (vsub [0] [2]) <= ex_hinge (dot [1] [2]) 1 + 1 ^ 2 * sqnorm [1] / (4 * 1).
Proof.
  assert (L : lipschitz 1 (fun x => ex_hinge x 1)) by (destruct (C139_lipschitz 1) as (_ & _ & _ & H & _); rewrite Rabs_R1 in H; exact H).
  split; [exact L|]. apply (C139_finite (fun x => ex_hinge x 1) 1 [1] [2] 1 [0] L); try lra; reflexivity.
Qed.
Example C139_exponential_case : sqnorm [1; 1] <> 0 /\ length [0; 0] = length [1; 1].
Proof. split; [unfold sqnorm, dot; cbn; lra|reflexivity]. Qed.
Example C139_huber_case : ex_huber (95 / 100) 0 1 = 95 / 100 - (95 / 100) ^ 3 / 2.
Proof. rewrite ex_huber_out; rewrite Rabs_R1; lra. Qed.
