(* Proofs about torch's AdamW with the options of oracle_torch.py:196-204 (Oracle_Model.adamw_step): moments, bound on a step. *)
From Coq Require Import Reals List Bool Lra Lia Arith Psatz.
From Verif Require Import PyBase RList XReal Dual_Model Oracle_Model.
Import ListNotations.
Local Open Scope R_scope.

(* successive steps on one coordinate, one gradient per step *)
Definition adamw_run (lr : R) (s : adam) (x : R) (gs : list R) : adam * R :=
  fold_left (fun sx g => adamw_step lr (fst sx) (snd sx) g) gs (s, x).

Lemma run_app lr s x gs g : adamw_run lr s x (gs ++ [g]) = adamw_step lr (fst (adamw_run lr s x gs)) (snd (adamw_run lr s x gs)) g.
Proof. unfold adamw_run. rewrite fold_left_app. reflexivity. Qed.

(* ---------- the moments ---------- *)
Definition moments (t : nat) (s : adam) : Prop := a_t s = t /\ 0 <= a_v s /\ a_v s <= a_vmax s /\ a_m s * a_m s <= 53 / 10 * a_v s.
Lemma moments0 : moments 0 adam0.
Proof. unfold moments, adam0. cbn. repeat split; lra. Qed.
Lemma mix m g v : 0 <= v -> m * m <= 53 / 10 * v ->
  (99 / 100 * m + (1 - 99 / 100) * g) * (99 / 100 * m + (1 - 99 / 100) * g) <= 53 / 10 * (999 / 1000 * v + (1 - 999 / 1000) * (g * g)).
Proof.
  intros V M.
  (* (a + b)^2 <= a^2 / p + b^2 / (1 - p) with p = 0.9811 *)
  assert (S : 0 <= ((1 - 9811 / 10000) * (99 / 100 * m) - 9811 / 10000 * ((1 - 99 / 100) * g)) * ((1 - 9811 / 10000) * (99 / 100 * m) - 9811 / 10000 * ((1 - 99 / 100) * g))) by apply Rle_0_sqr.
  assert (G : 0 <= g * g) by apply Rle_0_sqr. nra.
Qed.
Lemma moments_step lr t s x g : moments t s -> moments (S t) (fst (adamw_step lr s x g)).
Proof.
  intros (T & V & L & M). assert (G : 0 <= g * g) by apply Rle_0_sqr. unfold moments, adamw_step. cbn [fst a_t a_m a_v a_vmax].
  split; [rewrite T; reflexivity|]. split; [nra|]. split; [apply Rmax_r|]. apply mix; assumption.
Qed.
Lemma moments_run lr x gs : moments (length gs) (fst (adamw_run lr adam0 x gs)).
Proof.
  induction gs as [|g gs IH] using rev_ind; [exact moments0|]. rewrite run_app, app_length, Nat.add_comm. cbn [length Nat.add].
  apply moments_step. exact IH.
Qed.

(* ---------- the corrections ---------- *)
Lemma pow_below b t : 0 <= b < 1 -> b ^ S t <= b /\ 0 <= b ^ t <= 1.
Proof.
  intros B. assert (P : 0 <= b ^ t <= 1). { split; [apply pow_le; lra|]. rewrite <- (pow1 t). apply pow_incr. lra. }
  split; [|exact P]. cbn. nra.
Qed.
Lemma corrections t : 1 - (999 / 1000) ^ S t <= 10 * ((1 - (99 / 100) ^ S t) * (1 - (99 / 100) ^ S t)).
Proof.
  induction t as [|t IH]; [cbn; lra|].
  set (a := (99 / 100) ^ S t) in *. set (b := (999 / 1000) ^ S t) in *.
  assert (A : a <= 99 / 100 /\ 0 <= a) by (split; [apply (pow_below (99 / 100) t); lra|apply (pow_below (99 / 100) (S t)); lra]).
  assert (B : b <= 999 / 1000 /\ 0 <= b) by (split; [apply (pow_below (999 / 1000) t); lra|apply (pow_below (999 / 1000) (S t)); lra]).
  change ((99 / 100) ^ S (S t)) with (99 / 100 * a). change ((999 / 1000) ^ S (S t)) with (999 / 1000 * b).
  destruct (Rle_dec a (1 / 2)) as [H|H]; nra.
Qed.

(* ---------- one step ---------- *)
Lemma step_bounded lr s x g t : 0 <= lr -> moments t s -> Rabs (snd (adamw_step lr s x g) - x) <= 8 * lr.
Proof.
  intros Hl Ms. pose proof (moments_step lr t s x g Ms) as (T' & V' & L' & M'). unfold adamw_step in *. cbn [fst snd a_t a_m a_v a_vmax] in *.
  set (m := 99 / 100 * a_m s + (1 - 99 / 100) * g) in *. set (v := 999 / 1000 * a_v s + (1 - 999 / 1000) * (g * g)) in *.
  set (w := Rmax (a_vmax s) v) in *. rewrite T'. pose proof (corrections t) as K.
  set (c1 := 1 - (99 / 100) ^ S t) in *. set (c2 := 1 - (999 / 1000) ^ S t) in *.
  assert (C1 : 0 < c1) by (unfold c1; destruct (pow_below (99 / 100) t); lra).
  assert (C2 : 0 < c2) by (unfold c2; destruct (pow_below (999 / 1000) t); lra).
  set (D := sqrt w / sqrt c2 + / 100000000).
  assert (Q2 : 0 < sqrt c2) by (apply sqrt_lt_R0; exact C2). assert (W0 : 0 <= sqrt w) by apply sqrt_pos.
  assert (D0 : 0 < D). { unfold D. assert (0 <= sqrt w / sqrt c2) by (apply Rle_mult_inv_pos; assumption). lra. }
  replace (x - lr / c1 * (m / D) - x) with (- (lr * (m / (c1 * D)))) by (field; lra). rewrite Rabs_Ropp, Rabs_mult, (Rabs_right lr) by lra.
  assert (B : Rabs (m / (c1 * D)) <= 8); [|nra].
  assert (CD : 0 < c1 * D) by nra.
  unfold Rdiv. rewrite Rabs_mult, (Rabs_right (/ (c1 * D))) by (left; apply Rinv_0_lt_compat; exact CD).
  apply (Rmult_le_reg_r (c1 * D)); [exact CD|]. rewrite Rmult_assoc, Rinv_l, Rmult_1_r by lra.
  (* |m| <= sqrt (53 w / 10) <= 8 c1 sqrt w / sqrt c2 *)
  assert (N : Rabs m * Rabs m <= 53 / 10 * (sqrt w * sqrt w)). { rewrite sqrt_sqrt by lra. rewrite <- Rabs_mult, Rabs_right by (apply Rle_ge, Rle_0_sqr). lra. }
  assert (E : Rabs m * sqrt c2 <= 8 * (c1 * sqrt w)).
  { apply Rsqr_incr_0_var; [|nra]. unfold Rsqr. replace (Rabs m * sqrt c2 * (Rabs m * sqrt c2)) with (Rabs m * Rabs m * (sqrt c2 * sqrt c2)) by ring. rewrite (sqrt_sqrt c2) by lra.
    replace (8 * (c1 * sqrt w) * (8 * (c1 * sqrt w))) with (64 * ((c1 * c1) * (sqrt w * sqrt w))) by ring.
    assert (Z : 0 <= sqrt w * sqrt w) by nra. assert (Z1 : 0 <= c1 * c1) by nra.
    apply Rle_trans with (53 / 10 * (sqrt w * sqrt w) * c2); [apply Rmult_le_compat_r; lra|].
    apply Rle_trans with (53 / 10 * (sqrt w * sqrt w) * (10 * (c1 * c1))); [apply Rmult_le_compat_l; nra|]. nra. }
  assert (F : sqrt c2 * D = sqrt w + sqrt c2 * / 100000000) by (unfold D; field; lra).
  apply (Rmult_le_reg_r (sqrt c2)); [exact Q2|]. replace (8 * (c1 * D) * sqrt c2) with (8 * (c1 * (sqrt c2 * D))) by ring. rewrite F.
  assert (0 <= c1 * (sqrt c2 * / 100000000)) by nra. nra.
Qed.
Lemma run_bounded lr x gs : 0 <= lr -> Rabs (snd (adamw_run lr adam0 x gs) - x) <= 8 * lr * INR (length gs).
Proof.
  intros Hl. induction gs as [|g gs IH] using rev_ind; [cbn; replace (x - x) with 0 by ring; rewrite Rabs_R0; lra|].
  rewrite run_app, app_length, plus_INR. cbn [length INR]. set (s := fst _) in *. set (y := snd (adamw_run lr adam0 x gs)) in *.
  pose proof (step_bounded lr s y g (length gs) Hl (moments_run lr x gs)) as B.
  replace (snd (adamw_step lr s y g) - x) with ((snd (adamw_step lr s y g) - y) + (y - x)) by ring.
  pose proof (Rabs_triang (snd (adamw_step lr s y g) - y) (y - x)). nra.
Qed.

(* ---------- constant gradients ---------- *)
Lemma const_state lr x g n : let s := fst (adamw_run lr adam0 x (repeat g n)) in
  a_t s = n /\ a_m s = (1 - (99 / 100) ^ n) * g /\ a_v s = (1 - (999 / 1000) ^ n) * (g * g) /\ a_vmax s = a_v s.
Proof.
  cbv zeta. induction n as [|n IH]; [cbn; repeat split; lra|].
  assert (E : repeat g (S n) = repeat g n ++ [g]) by (clear; induction n as [|n IH]; [reflexivity|cbn in *; f_equal; exact IH]).
  rewrite E, run_app. set (s := fst (adamw_run lr adam0 x (repeat g n))) in *. destruct IH as (T & M & V & W).
  unfold adamw_step. cbn [fst a_t a_m a_v a_vmax]. rewrite T, M, W, V. assert (G : 0 <= g * g) by apply Rle_0_sqr.
  destruct (pow_below (999 / 1000) n) as [_ P]; [lra|]. cbn [pow]. repeat split; [ring|ring|]. rewrite Rmax_right by nra. ring.
Qed.
Lemma const_step lr x g n : snd (adamw_run lr adam0 x (repeat g n)) = x - INR n * (lr * (g / (Rabs g + / 100000000))).
Proof.
  induction n as [|n IH]; [cbn; ring|].
  assert (E : repeat g (S n) = repeat g n ++ [g]) by (clear; induction n as [|n IH]; [reflexivity|cbn in *; f_equal; exact IH]).
  pose proof (const_state lr x g (S n)) as H. cbv zeta in H. rewrite E, run_app in H |- *. pose proof (const_state lr x g n) as H0. cbv zeta in H0.
  set (s := fst (adamw_run lr adam0 x (repeat g n))) in *. set (y := snd (adamw_run lr adam0 x (repeat g n))) in *.
  unfold adamw_step in *. cbn [fst snd a_t a_m a_v a_vmax] in *. destruct H as (T & M & V & W). rewrite T, W, V, M, IH.
  set (c1 := 1 - (99 / 100) ^ S n). set (c2 := 1 - (999 / 1000) ^ S n).
  assert (C1 : 0 < c1) by (unfold c1; destruct (pow_below (99 / 100) n); lra).
  assert (C2 : 0 < c2) by (unfold c2; destruct (pow_below (999 / 1000) n); lra).
  assert (Q2 : 0 < sqrt c2) by (apply sqrt_lt_R0; exact C2).
  rewrite sqrt_mult by (try apply Rle_0_sqr; lra). rewrite (sqrt_Rsqr_abs g : sqrt (g * g) = Rabs g).
  replace (sqrt c2 * Rabs g / sqrt c2) with (Rabs g) by (field; lra). pose proof (Rabs_pos g). rewrite S_INR. field. lra.
Qed.

(* ---------- momentum ---------- *)
Lemma second_step lr x g : snd (adamw_run lr adam0 x [g; 0]) - snd (adamw_run lr adam0 x [g]) = - (lr * (99 / 199) * (g / (Rabs g / sqrt (1999 / 1000) + / 100000000))).
Proof.
  unfold adamw_run, adamw_step, adam0. cbn [fold_left fst snd a_t a_m a_v a_vmax pow].
  assert (G : 0 <= g * g) by apply Rle_0_sqr.
  rewrite (Rmax_right 0 (999 / 1000 * 0 + (1 - 999 / 1000) * (g * g))) by nra.
  rewrite (Rmax_left (999 / 1000 * 0 + (1 - 999 / 1000) * (g * g))) by nra.
  replace (999 / 1000 * 0 + (1 - 999 / 1000) * (g * g)) with ((1 - 999 / 1000) * (g * g)) by ring.
  replace (1 - 999 / 1000 * (999 / 1000 * 1)) with ((1 - 999 / 1000) * (1999 / 1000)) by lra.
  rewrite (sqrt_mult (1 - 999 / 1000) (g * g)) by lra. rewrite (sqrt_mult (1 - 999 / 1000) (1999 / 1000)) by lra. rewrite (sqrt_Rsqr_abs g : sqrt (g * g) = Rabs g).
  assert (Q : 0 < sqrt (1 - 999 / 1000)) by (apply sqrt_lt_R0; lra). assert (Q' : 0 < sqrt (1999 / 1000)) by (apply sqrt_lt_R0; lra).
  replace (sqrt (1 - 999 / 1000) * Rabs g / (sqrt (1 - 999 / 1000) * sqrt (1999 / 1000))) with (Rabs g / sqrt (1999 / 1000)) by (field; lra).
  set (D := Rabs g / sqrt (1999 / 1000) + / 100000000). assert (0 < D). { unfold D. assert (0 <= Rabs g / sqrt (1999 / 1000)) by (apply Rle_mult_inv_pos; [apply Rabs_pos|exact Q']). lra. }
  set (y := x - _). field. lra.
Qed.
