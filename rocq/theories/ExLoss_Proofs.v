(* Lemmas about the losses of the examples. *)
From Coq Require Import Reals List Lra Lia Arith Bool.
From Verif Require Import RList XReal ExLoss_Model.
Import ListNotations.
Local Open Scope R_scope.

Definition convex (f : R -> R) : Prop := forall a b t, 0 <= t <= 1 -> f (t * a + (1 - t) * b) <= t * f a + (1 - t) * f b.

Lemma convex_ext f g : (forall a, f a = g a) -> convex f -> convex g.
Proof. intros H C a b t Ht. rewrite <- !H. apply C; auto. Qed.
Lemma convex_affine f u v : convex f -> convex (fun x => f (u * x + v)).
Proof. intros C a b t Ht. replace (u * (t * a + (1 - t) * b) + v) with (t * (u * a + v) + (1 - t) * (u * b + v)) by ring. apply C; auto. Qed.
Lemma convex_max f g : convex f -> convex g -> convex (fun x => Rmax (f x) (g x)).
Proof.
  intros F G a b t Ht. specialize (F a b t Ht). specialize (G a b t Ht).
  pose proof (Rmax_l (f a) (g a)). pose proof (Rmax_r (f a) (g a)). pose proof (Rmax_l (f b) (g b)). pose proof (Rmax_r (f b) (g b)).
  apply Rmax_lub; nra.
Qed.
Lemma convex_lin u v : convex (fun x => u * x + v).
Proof. intros a b t _. right. ring. Qed.
Lemma convex_abs : convex Rabs.
Proof.
  apply (convex_ext (fun x => Rmax (1 * x + 0) ((-1) * x + 0))); [|apply convex_max; apply convex_lin].
  intros a. unfold Rmax, Rabs. destruct (Rle_dec _ _), (Rcase_abs a); lra.
Qed.
Lemma convex_sq f : (forall a, 0 <= f a) -> convex f -> convex (fun x => f x ^ 2).
Proof.
  intros P F a b t Ht. specialize (F a b t Ht). pose proof (P a). pose proof (P b). pose proof (P (t * a + (1 - t) * b)).
  set (m := f (t * a + (1 - t) * b)) in *. clearbody m. set (u := f a) in *. set (v := f b) in *. clearbody u v.
  assert (m ^ 2 <= (t * u + (1 - t) * v) ^ 2) by (simpl; rewrite !Rmult_1_r; apply Rmult_le_compat; lra).
  assert (t * u ^ 2 + (1 - t) * v ^ 2 - (t * u + (1 - t) * v) ^ 2 = t * (1 - t) * (u - v) ^ 2) by ring.
  assert (0 <= t * (1 - t) * (u - v) ^ 2) by (apply Rmult_le_pos; [apply Rmult_le_pos; lra|apply pow2_ge_0]). lra.
Qed.
Lemma convex_sup (f : R -> R) (dom : R -> Prop) (c : R -> R) (v : R -> R) :
  (forall a u, dom u -> u * a - c u <= f a) -> (forall a, dom (v a) /\ f a = v a * a - c (v a)) -> convex f.
Proof.
  intros Up At a b t Ht. destruct (At (t * a + (1 - t) * b)) as [D ->]. set (w := v (t * a + (1 - t) * b)) in *. pose proof (Up a w D). pose proof (Up b w D). nra.
Qed.

(* Huber's function with the constant that makes it continuous *)
Definition huber (q a : R) : R := if Rle_dec q (Rabs a) then q * Rabs a - q ^ 2 / 2 else a ^ 2 / 2.
Lemma huber_convex q : 0 < q -> convex (huber q).
Proof.
  intros Hq. apply (convex_sup _ (fun u => - q <= u <= q) (fun u => u ^ 2 / 2) (fun a => if Rle_dec q (Rabs a) then (if Rle_dec 0 a then q else - q) else a)).
  - intros a u Hu. unfold huber. destruct (Rle_dec q (Rabs a)) as [H|H].
    + unfold Rabs in *. destruct (Rcase_abs a); nra.
    + pose proof (pow2_ge_0 (u - a)). nra.
  - intros a. unfold huber. destruct (Rle_dec q (Rabs a)) as [H|H].
    + unfold Rabs in *. destruct (Rcase_abs a), (Rle_dec 0 a); split; try lra.
    + apply Rnot_le_lt in H. apply Rabs_def2 in H. split; [lra|field].
Qed.
Lemma ex_huber_one x y : ex_huber 1 x y = huber 1 (y - x).
Proof. unfold ex_huber, huber, ex_float, Rleb. destruct (Rle_dec 1 (Rabs (y - x))); field. Qed.
Lemma ex_huber_out q a : q <= Rabs a -> ex_huber q 0 a = q * Rabs a - q ^ 3 / 2.
Proof. intros H. unfold ex_huber, ex_float. rewrite Rminus_0_r. rewrite (proj2 (Rleb_true q (Rabs a)) H). field. Qed.
Lemma ex_huber_in q a : Rabs a < q -> ex_huber q 0 a = a ^ 2 / 2.
Proof. intros H. unfold ex_huber, ex_float. rewrite Rminus_0_r. rewrite (proj2 (Rleb_false q (Rabs a)) H). field. Qed.
Lemma ex_huber_shift q x y : ex_huber q x y = ex_huber q 0 (y - x).
Proof. unfold ex_huber. rewrite Rminus_0_r. reflexivity. Qed.

Lemma huber_not_convex q : 0 < q -> q <> 1 -> ~ convex (fun a => ex_huber q 0 a).
Proof.
  intros Hq N C. destruct (Rlt_dec q 1) as [L|L].
  - set (h := q * (1 - q) / 2). assert (Hh : 0 < h < q) by (unfold h; split; nra).
    specialize (C (q - h) (q + h) (1 / 2) ltac:(lra)). replace (1 / 2 * (q - h) + (1 - 1 / 2) * (q + h)) with q in C by field.
    rewrite (ex_huber_out q q), (ex_huber_out q (q + h)), (ex_huber_in q (q - h)) in C by (rewrite Rabs_pos_eq; lra). rewrite !Rabs_pos_eq in C by lra.
    assert (E : h * h < q * q * (1 - q)) by (unfold h; assert (0 < q * q * (1 - q)) by (apply Rmult_lt_0_compat; nra); nra). nra.
  - assert (G : 1 < q) by lra. assert (K : exists h, 0 < h < q / 2 /\ h * h < (q - 1) / 2).
    { destruct (Rle_dec q 2) as [S|S].
      - exists ((q - 1) / 2). split; [lra|]. nra.
      - exists (1 / 2). split; lra. }
    destruct K as (h & Hh & Hs). specialize (C (q - 2 * h) q (1 / 2) ltac:(lra)). replace (1 / 2 * (q - 2 * h) + (1 - 1 / 2) * q) with (q - h) in C by field.
    rewrite (ex_huber_out q q), (ex_huber_in q (q - 2 * h)), (ex_huber_in q (q - h)) in C by (rewrite Rabs_pos_eq; lra). rewrite !Rabs_pos_eq in C by lra.
    assert (E : h * h < q * q * (q - 1) / 2) by (assert (1 < q * q) by nra; nra). nra.
Qed.

(* smooth hinge *)
Lemma ex_shinge_cases g x y : 0 < g ->
  (1 <= y * x /\ ex_smooth_hinge g x y = 0) \/
  (1 - g <= y * x <= 1 /\ ex_smooth_hinge g x y = (1 - y * x) ^ 2 / (2 * g)) \/
  (y * x <= 1 - g /\ ex_smooth_hinge g x y = 1 - g / 2 - y * x).
Proof.
  intros Hg. unfold ex_smooth_hinge, ex_float, ex_relu. destruct (Rleb (1 - g) (y * x)) eqn:D; cbn [negb].
  - apply Rleb_true in D. destruct (Rle_dec 1 (y * x)) as [H|H].
    + left. split; [exact H|]. rewrite Rmax_left by lra. field. lra.
    + right. left. split; [lra|]. rewrite Rmax_right by lra. field. lra.
  - apply Rleb_false in D. right. right. split; [lra|]. field. lra.
Qed.
Definition shinge (g a : R) : R := ex_smooth_hinge g a 1.
Lemma shinge_eq g x y : ex_smooth_hinge g x y = shinge g (y * x).
Proof. unfold shinge, ex_smooth_hinge. rewrite Rmult_1_l. reflexivity. Qed.
Lemma sq_div g u v : 0 < g -> v * u - g * v ^ 2 / 2 <= u ^ 2 / (2 * g).
Proof.
  intros Hg. assert (E : u ^ 2 / (2 * g) - (v * u - g * v ^ 2 / 2) = (u - g * v) ^ 2 * / (2 * g)) by (field; lra).
  assert (0 <= (u - g * v) ^ 2 * / (2 * g)) by (apply Rmult_le_pos; [apply pow2_ge_0|left; apply Rinv_0_lt_compat; lra]). lra.
Qed.
Lemma shinge_convex g : 0 < g -> convex (shinge g).
Proof.
  intros Hg. apply (convex_sup _ (fun u => -1 <= u <= 0) (fun u => u + g * u ^ 2 / 2) (fun a => if Rle_dec 1 a then 0 else if Rle_dec (1 - g) a then (a - 1) / g else -1)).
  - intros a u Hu. unfold shinge. destruct (ex_shinge_cases g a 1 Hg) as [[H ->]|[[H ->]|[H ->]]]; rewrite Rmult_1_l in *.
    + assert (0 <= g * u ^ 2 / 2) by (assert (0 <= u ^ 2) by apply pow2_ge_0; nra). nra.
    + pose proof (sq_div g (1 - a) (- u) Hg). replace ((- u) ^ 2) with (u ^ 2) in * by ring. lra.
    + assert (0 <= (u + 1) * (1 - a - g)) by (apply Rmult_le_pos; lra). assert (0 <= g * (u + 1) ^ 2 / 2) by (assert (0 <= (u + 1) ^ 2) by apply pow2_ge_0; nra). nra.
  - intros a. unfold shinge. assert (Z : (a - 1) / g * g = a - 1) by (field; lra). destruct (ex_shinge_cases g a 1 Hg) as [[H ->]|[[H ->]|[H ->]]]; rewrite Rmult_1_l in *.
    + destruct (Rle_dec 1 a); [|lra]. split; lra.
    + destruct (Rle_dec 1 a); [assert (a = 1) by lra; subst; split; [lra|field; lra]|]. destruct (Rle_dec (1 - g) a); [|lra]. set (w := (a - 1) / g) in *. split; [split; nra|].
      unfold w. field. lra.
    + destruct (Rle_dec 1 a); [lra|]. destruct (Rle_dec (1 - g) a); [|split; [lra|field]]. assert (a = 1 - g) by lra. subst a. split.
      * replace ((1 - g - 1) / g) with (-1) by (field; lra). lra.
      * field. lra.
Qed.

(* quantiles *)
Definition at_most (x : R) (l : list R) : R := rsum (map (fun y => if Rle_dec y x then 1 else 0) l).
Definition below (x : R) (l : list R) : R := rsum (map (fun y => if Rlt_dec y x then 1 else 0) l).
Definition pin (tau : R) (l : list R) (x : R) : R := rsum (map (ex_pinball tau x) l).
Lemma pinball_ge tau x y : x <= y -> ex_pinball tau x y = tau * (y - x).
Proof. intros H. unfold ex_pinball, ex_float. rewrite (proj2 (Rleb_true 0 (y - x))) by lra. rewrite Rabs_pos_eq by lra. ring. Qed.
Lemma pinball_lt tau x y : y <= x -> ex_pinball tau x y = (1 - tau) * (x - y).
Proof.
  intros H. destruct (Rle_dec x y) as [E|E]; [assert (x = y) by lra; subst; rewrite pinball_ge by lra; ring|].
  unfold ex_pinball, ex_float. rewrite (proj2 (Rleb_false 0 (y - x))) by lra. rewrite Rabs_left by lra. ring.
Qed.
Lemma pin_right tau l x x' : 0 <= tau <= 1 -> x <= x' -> (x' - x) * (at_most x l - tau * INR (length l)) <= pin tau l x' - pin tau l x.
Proof.
  intros Ht H. unfold at_most, pin. induction l as [|y l IH]; [cbn; lra|]. cbn [map rsum length]. rewrite S_INR.
  assert ((x' - x) * ((if Rle_dec y x then 1 else 0) - tau) <= ex_pinball tau x' y - ex_pinball tau x y); [|lra].
  destruct (Rle_dec y x) as [E|E].
  - rewrite !pinball_lt by lra. nra.
  - rewrite (pinball_ge tau x y) by lra. destruct (Rle_dec y x') as [F|F]; [rewrite pinball_lt by lra; nra|rewrite pinball_ge by lra; nra].
Qed.
Lemma pin_left tau l x x' : 0 <= tau <= 1 -> x' <= x -> (x - x') * (tau * INR (length l) - below x l) <= pin tau l x' - pin tau l x.
Proof.
  intros Ht H. unfold below, pin. induction l as [|y l IH]; [cbn; lra|]. cbn [map rsum length]. rewrite S_INR.
  assert ((x - x') * (tau - (if Rlt_dec y x then 1 else 0)) <= ex_pinball tau x' y - ex_pinball tau x y); [|lra].
  destruct (Rlt_dec y x) as [E|E].
  - rewrite (pinball_lt tau x y) by lra. destruct (Rle_dec y x') as [F|F]; [rewrite pinball_lt by lra; nra|rewrite pinball_ge by lra; nra].
  - rewrite !pinball_ge by lra. nra.
Qed.
Lemma gap_right l (x : R) : exists d, 0 < d /\ forall y, In y l -> y <= x \/ x + d <= y.
Proof.
  induction l as [|a l (d & Hd & H)]; [exists 1; split; [lra|intros y []]|]. destruct (Rle_dec a x) as [E|E].
  - exists d. split; [exact Hd|]. intros y [->|I]; auto.
  - exists (Rmin d (a - x)). split; [apply Rmin_glb_lt; lra|]. pose proof (Rmin_l d (a - x)). pose proof (Rmin_r d (a - x)).
    intros y [->|I]; [right; lra|]. destruct (H y I); [left; auto|right; lra].
Qed.
Lemma gap_left l (x : R) : exists d, 0 < d /\ forall y, In y l -> x <= y \/ y <= x - d.
Proof.
  induction l as [|a l (d & Hd & H)]; [exists 1; split; [lra|intros y []]|]. destruct (Rle_dec x a) as [E|E].
  - exists d. split; [exact Hd|]. intros y [->|I]; auto.
  - exists (Rmin d (x - a)). split; [apply Rmin_glb_lt; lra|]. pose proof (Rmin_l d (x - a)). pose proof (Rmin_r d (x - a)).
    intros y [->|I]; [right; lra|]. destruct (H y I); [left; auto|right; lra].
Qed.
Lemma pin_right_exact tau l x d : 0 <= d -> (forall y, In y l -> y <= x \/ x + d <= y) -> pin tau l (x + d) - pin tau l x = d * (at_most x l - tau * INR (length l)).
Proof.
  intros Hd H. unfold at_most, pin. induction l as [|y l IH]; [cbn; lra|]. cbn [map rsum length]. rewrite S_INR. rewrite <- (Rplus_0_r (d * _)).
  assert (E : ex_pinball tau (x + d) y - ex_pinball tau x y = d * ((if Rle_dec y x then 1 else 0) - tau)).
  { destruct (Rle_dec y x) as [E|E]; [rewrite !pinball_lt by lra; ring|]. destruct (H y (or_introl eq_refl)); [lra|]. rewrite !pinball_ge by lra. ring. }
  specialize (IH (fun z I => H z (or_intror I))). lra.
Qed.
Lemma pin_left_exact tau l x d : 0 <= d -> (forall y, In y l -> x <= y \/ y <= x - d) -> pin tau l (x - d) - pin tau l x = d * (tau * INR (length l) - below x l).
Proof.
  intros Hd H. unfold below, pin. induction l as [|y l IH]; [cbn; lra|]. cbn [map rsum length]. rewrite S_INR.
  assert (E : ex_pinball tau (x - d) y - ex_pinball tau x y = d * (tau - (if Rlt_dec y x then 1 else 0))).
  { destruct (Rlt_dec y x) as [E|E]; [|rewrite !pinball_ge by lra; ring]. destruct (H y (or_introl eq_refl)); [lra|]. rewrite !pinball_lt by lra. ring. }
  specialize (IH (fun z I => H z (or_intror I))). lra.
Qed.
Lemma pin_min tau l x : 0 <= tau <= 1 -> ((forall x', pin tau l x <= pin tau l x') <-> below x l <= tau * INR (length l) <= at_most x l).
Proof.
  intros Ht. split.
  - intros M. split; apply Rnot_lt_le; intros N.
    + destruct (gap_left l x) as (d & Hd & G). pose proof (pin_left_exact tau l x d ltac:(lra) G). specialize (M (x - d)). nra.
    + destruct (gap_right l x) as (d & Hd & G). pose proof (pin_right_exact tau l x d ltac:(lra) G). specialize (M (x + d)). nra.
  - intros [B A] x'. destruct (Rle_dec x x') as [H|H].
    + pose proof (pin_right tau l x x' Ht H). nra.
    + assert (H' : x' <= x) by lra. pose proof (pin_left tau l x x' Ht H'). nra.
Qed.
Lemma l1_pin x y : ex_l1 x y = 2 * ex_pinball (1 / 2) x y.
Proof.
  unfold ex_l1. destruct (Rle_dec x y); [rewrite pinball_ge, Rabs_pos_eq by lra; field|]. rewrite pinball_lt, Rabs_left by lra. field.
Qed.

(* the exponential *)
Lemma exp_ge_cube t : 0 <= t -> t ^ 3 / 27 <= exp t.
Proof.
  intros Ht. replace (exp t) with (exp (t / 3) ^ 3). 2:{ simpl. rewrite Rmult_1_r, <- !exp_plus. f_equal. field. }
  assert (1 + t / 3 <= exp (t / 3)). { destruct (Req_dec t 0) as [->|N]; [replace (0 / 3) with 0 by lra; rewrite exp_0; lra|]. left. apply exp_ineq1. lra. }
  assert (E : t / 3 <= exp (t / 3)) by lra. assert (P : 0 <= t / 3) by lra. pose proof (pow_incr (t / 3) (exp (t / 3)) 3 (conj P E)). replace ((t / 3) ^ 3) with (t ^ 3 / 27) in * by field. lra.
Qed.
Lemma exp_beats A B C : exists s, 0 < s /\ A * s ^ 2 + B * s + C < exp s.
Proof.
  set (K := 27 * (Rabs A + Rabs B + Rabs C + 1)). assert (a := Rabs_pos A). assert (b := Rabs_pos B). assert (c := Rabs_pos C).
  assert (HK : 1 <= K) by (unfold K; lra). exists K. split; [lra|]. eapply Rlt_le_trans; [|apply exp_ge_cube; lra].
  assert (E : K ^ 3 / 27 = K ^ 2 * (Rabs A + Rabs B + Rabs C + 1)) by (unfold K; field). rewrite E.
  assert (1 <= K ^ 2) by nra. assert (K <= K ^ 2) by nra. pose proof (Rle_abs A). pose proof (Rle_abs B). pose proof (Rle_abs C).
  assert (A * K ^ 2 <= Rabs A * K ^ 2) by nra. assert (B * K <= Rabs B * K ^ 2) by nra. assert (C <= Rabs C * K ^ 2) by nra. nra.
Qed.
