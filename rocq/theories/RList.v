(* Finite sums, vectors as lists of reals, convexity and norm inequalities. Pure mathematics, no code modelled. *)
From Coq Require Import Reals List Lra Lia Permutation.
Import ListNotations.
Local Open Scope R_scope.

(* ---------- sums ---------- *)
Fixpoint rsum (l : list R) : R := match l with [] => 0 | x :: r => x + rsum r end.
Definition rmean (l : list R) : R := rsum l / INR (length l).

Fixpoint map2 {A B C} (f : A -> B -> C) (l : list A) (m : list B) : list C :=
  match l, m with
  | a :: l', b :: m' => f a b :: map2 f l' m'
  | _, _ => []
  end.

Lemma map2_length {A B C} (f : A -> B -> C) l m : length l = length m -> length (map2 f l m) = length l.
Proof. revert m; induction l as [|a l IH]; intros [|b m]; simpl; intros H; try discriminate; auto. Qed.

Lemma map2_map_combine {A B C} (f : A -> B -> C) l m :
  map2 f l m = map (fun ab => f (fst ab) (snd ab)) (combine l m).
Proof. revert m; induction l as [|a l IH]; intros [|b m]; simpl; auto. rewrite IH; reflexivity. Qed.

Lemma map2_comm {A B C} (f : A -> B -> C) l m : map2 f l m = map2 (fun b a => f a b) m l.
Proof. revert m; induction l as [|a l IH]; intros [|b m]; simpl; auto. rewrite IH; reflexivity. Qed.

Lemma map2_ext {A B C} (f g : A -> B -> C) l m : (forall a b, f a b = g a b) -> map2 f l m = map2 g l m.
Proof. intros H; revert m; induction l as [|a l IH]; intros [|b m]; simpl; auto. rewrite IH, H; reflexivity. Qed.

Lemma map_map2 {A B C D} (g : C -> D) (f : A -> B -> C) l m : map g (map2 f l m) = map2 (fun a b => g (f a b)) l m.
Proof. revert m; induction l as [|a l IH]; intros [|b m]; simpl; auto. rewrite IH; reflexivity. Qed.

Lemma map2_map_l {A B C D} (f : A -> B -> C) (g : D -> A) l m : map2 f (map g l) m = map2 (fun d b => f (g d) b) l m.
Proof. revert m; induction l as [|a l IH]; intros [|b m]; simpl; auto. rewrite IH; reflexivity. Qed.

Lemma map2_map_r {A B C D} (f : A -> B -> C) (g : D -> B) l m : map2 f l (map g m) = map2 (fun a d => f a (g d)) l m.
Proof. revert m; induction l as [|a l IH]; intros [|b m]; simpl; auto. rewrite IH; reflexivity. Qed.

Lemma map2_same {A C} (f : A -> A -> C) l : map2 f l l = map (fun a => f a a) l.
Proof. induction l as [|a l IH]; simpl; auto. rewrite IH; reflexivity. Qed.

Lemma rsum_app l m : rsum (l ++ m) = rsum l + rsum m.
Proof. induction l as [|x l IH]; simpl; [lra|]. rewrite IH; lra. Qed.

Lemma rsum_map_plus {A} (f g : A -> R) l : rsum (map (fun a => f a + g a) l) = rsum (map f l) + rsum (map g l).
Proof. induction l as [|a l IH]; simpl; [lra|]. rewrite IH; lra. Qed.

Lemma rsum_map_minus {A} (f g : A -> R) l : rsum (map (fun a => f a - g a) l) = rsum (map f l) - rsum (map g l).
Proof. induction l as [|a l IH]; simpl; [lra|]. rewrite IH; lra. Qed.

Lemma rsum_map_scal {A} (c : R) (f : A -> R) l : rsum (map (fun a => c * f a) l) = c * rsum (map f l).
Proof. induction l as [|a l IH]; simpl; [lra|]. rewrite IH; lra. Qed.

Lemma rsum_map_const {A} (c : R) (l : list A) : rsum (map (fun _ => c) l) = INR (length l) * c.
Proof. induction l as [|a l IH]; [simpl; lra|]. simpl length. rewrite S_INR. simpl. rewrite IH. lra. Qed.

Lemma rsum_map_le {A} (f g : A -> R) l : (forall a, In a l -> f a <= g a) -> rsum (map f l) <= rsum (map g l).
Proof.
  induction l as [|a l IH]; simpl; intros H; [lra|].
  assert (f a <= g a) by auto. assert (rsum (map f l) <= rsum (map g l)) by auto. lra.
Qed.

Lemma rsum_map_nonneg {A} (f : A -> R) l : (forall a, In a l -> 0 <= f a) -> 0 <= rsum (map f l).
Proof.
  induction l as [|a l IH]; simpl; intros H; [lra|].
  assert (0 <= f a) by auto. assert (0 <= rsum (map f l)) by auto. lra.
Qed.

Lemma rsum_nonneg l : Forall (fun x => 0 <= x) l -> 0 <= rsum l.
Proof. induction 1; simpl; lra. Qed.

Lemma rsum_pos l : l <> [] -> Forall (fun x => 0 < x) l -> 0 < rsum l.
Proof.
  intros Hne H. destruct H as [|x l Hx Hl]; [contradiction|]. simpl.
  assert (0 <= rsum l). { apply rsum_nonneg. eapply Forall_impl; [|exact Hl]. simpl; intros; lra. }
  lra.
Qed.

Lemma rsum_zero_nonneg l : Forall (fun x => 0 <= x) l -> rsum l = 0 -> Forall (fun x => x = 0) l.
Proof.
  induction 1 as [|x l Hx Hl IH]; simpl; intros Hs; constructor.
  - assert (0 <= rsum l) by (apply rsum_nonneg; exact Hl). lra.
  - apply IH. assert (0 <= rsum l) by (apply rsum_nonneg; exact Hl). lra.
Qed.

Lemma rsum_perm l m : Permutation l m -> rsum l = rsum m.
Proof. induction 1; simpl; lra. Qed.

Lemma rsum_scal c l : rsum (map (fun x => c * x) l) = c * rsum l.
Proof. rewrite rsum_map_scal, map_id. reflexivity. Qed.

Lemma INR_length_pos {A} (l : list A) : l <> [] -> 0 < INR (length l).
Proof. intros H. apply lt_0_INR. destruct l; [contradiction|simpl; lia]. Qed.

Lemma rmean_le l m : length l = length m -> rsum l <= rsum m -> rmean l <= rmean m.
Proof.
  intros Hl H. unfold rmean. rewrite <- Hl.
  destruct l as [|x l].
  - simpl length in *. destruct m; [|discriminate]. simpl in *. lra.
  - apply Rmult_le_compat_r; [|exact H].
    apply Rlt_le, Rinv_0_lt_compat, INR_length_pos. discriminate.
Qed.

Lemma rmean_map_le {A} (f g : A -> R) l : (forall a, In a l -> f a <= g a) -> rmean (map f l) <= rmean (map g l).
Proof. intros H. apply rmean_le; [rewrite !map_length; reflexivity|]. apply rsum_map_le; exact H. Qed.

Lemma rmean_map_plus {A} (f g : A -> R) l : rmean (map (fun a => f a + g a) l) = rmean (map f l) + rmean (map g l).
Proof. unfold rmean. rewrite !map_length, rsum_map_plus. unfold Rdiv; ring. Qed.

Lemma rmean_map_minus {A} (f g : A -> R) l : rmean (map (fun a => f a - g a) l) = rmean (map f l) - rmean (map g l).
Proof. unfold rmean. rewrite !map_length, rsum_map_minus. unfold Rdiv; ring. Qed.

Lemma rmean_map_scal {A} c (f : A -> R) l : rmean (map (fun a => c * f a) l) = c * rmean (map f l).
Proof. unfold rmean. rewrite !map_length, rsum_map_scal. unfold Rdiv; ring. Qed.

Lemma rmean_map_const {A} c (l : list A) : l <> [] -> rmean (map (fun _ => c) l) = c.
Proof.
  intros H. unfold rmean. rewrite map_length, rsum_map_const. field.
  apply Rgt_not_eq. apply INR_length_pos; exact H.
Qed.

Lemma rmean_perm l m : Permutation l m -> rmean l = rmean m.
Proof. intros H. unfold rmean. rewrite (rsum_perm _ _ H), (Permutation_length H). reflexivity. Qed.

(* ---------- maximum of a non-empty list ---------- *)
Fixpoint rmax0 (l : list R) : R := match l with [] => 0 | x :: r => Rmax x (rmax0 r) end. (* max of 0 and the list *)
Fixpoint rmaxl (x : R) (l : list R) : R := match l with [] => x | y :: r => rmaxl (Rmax x y) r end.

Lemma rmaxl_ge x l : x <= rmaxl x l /\ Forall (fun y => y <= rmaxl x l) l.
Proof.
  revert x; induction l as [|y l IH]; simpl; intros x; [split; [lra|constructor]|].
  destruct (IH (Rmax x y)) as [H1 H2].
  pose proof (Rmax_l x y); pose proof (Rmax_r x y).
  split; [lra|]. constructor; [lra|exact H2].
Qed.

Lemma rmaxl_in x l : In (rmaxl x l) (x :: l).
Proof.
  revert x; induction l as [|y l IH]; simpl; intros x; [auto|].
  destruct (IH (Rmax x y)) as [H|H]; [|auto].
  rewrite <- H. unfold Rmax. destruct (Rle_dec x y); auto.
Qed.

Lemma rmax0_nonneg l : 0 <= rmax0 l.
Proof. induction l as [|x l IH]; simpl; [lra|]. pose proof (Rmax_r x (rmax0 l)). lra. Qed.

Lemma rmax0_ge l y : In y l -> y <= rmax0 l.
Proof.
  induction l as [|x l IH]; simpl; [contradiction|].
  pose proof (Rmax_l x (rmax0 l)); pose proof (Rmax_r x (rmax0 l)).
  intros [->|H1]; [lra|]. specialize (IH H1); lra.
Qed.

Lemma rmax0_le l b : 0 <= b -> (forall y, In y l -> y <= b) -> rmax0 l <= b.
Proof.
  intros Hb. induction l as [|x l IH]; simpl; intros H; [lra|].
  apply Rmax_lub; auto.
Qed.

(* ---------- vectors ---------- *)
Definition vec := list R.
Definition vadd (x y : vec) : vec := map2 Rplus x y.
Definition vsub (x y : vec) : vec := map2 Rminus x y.
Definition vscal (c : R) (x : vec) : vec := map (Rmult c) x.
Definition dot (x y : vec) : R := rsum (map2 Rmult x y).
Definition sqnorm (x : vec) : R := dot x x.
Definition norm2 (x : vec) : R := sqrt (sqnorm x).

Lemma vadd_length x y : length x = length y -> length (vadd x y) = length x.
Proof. apply map2_length. Qed.
Lemma vsub_length x y : length x = length y -> length (vsub x y) = length x.
Proof. apply map2_length. Qed.
Lemma vscal_length c x : length (vscal c x) = length x.
Proof. apply map_length. Qed.

Lemma dot_comm x y : dot x y = dot y x.
Proof. unfold dot. revert y; induction x as [|a x IH]; intros [|b y]; simpl; auto. rewrite IH; ring. Qed.

Lemma dot_vadd_l x y z : length x = length y -> length y = length z -> dot (vadd x y) z = dot x z + dot y z.
Proof.
  unfold dot, vadd. revert y z; induction x as [|a x IH]; intros [|b y] [|c z]; simpl; intros H1 H2; try discriminate; [lra|].
  rewrite IH by congruence. ring.
Qed.

Lemma dot_vadd_r x y z : length x = length y -> length y = length z -> dot x (vadd y z) = dot x y + dot x z.
Proof. intros H1 H2. rewrite dot_comm, dot_vadd_l by congruence. rewrite (dot_comm y), (dot_comm z). reflexivity. Qed.

Lemma dot_vsub_l x y z : length x = length y -> length y = length z -> dot (vsub x y) z = dot x z - dot y z.
Proof.
  unfold dot, vsub. revert y z; induction x as [|a x IH]; intros [|b y] [|c z]; simpl; intros H1 H2; try discriminate; [lra|].
  rewrite IH by congruence. ring.
Qed.

Lemma dot_vsub_r x y z : length x = length y -> length y = length z -> dot x (vsub y z) = dot x y - dot x z.
Proof. intros H1 H2. rewrite dot_comm, dot_vsub_l by congruence. rewrite (dot_comm y), (dot_comm z). reflexivity. Qed.

Lemma dot_vscal_l c x y : dot (vscal c x) y = c * dot x y.
Proof. unfold dot, vscal. revert y; induction x as [|a x IH]; intros [|b y]; simpl; try lra. rewrite IH; ring. Qed.

Lemma dot_vscal_r c x y : dot x (vscal c y) = c * dot x y.
Proof. rewrite dot_comm, dot_vscal_l, dot_comm. reflexivity. Qed.

Lemma sqnorm_nonneg x : 0 <= sqnorm x.
Proof.
  unfold sqnorm, dot. rewrite map2_same. apply rsum_map_nonneg. intros a _. apply Rle_0_sqr.
Qed.

Lemma sqnorm_vscal c x : sqnorm (vscal c x) = c * c * sqnorm x.
Proof. unfold sqnorm. rewrite dot_vscal_l, dot_vscal_r. ring. Qed.

Lemma sqnorm_vsub x y : length x = length y -> sqnorm (vsub x y) = sqnorm x - 2 * dot x y + sqnorm y.
Proof.
  intros H. unfold sqnorm.
  rewrite dot_vsub_l by (rewrite ?vsub_length; congruence).
  rewrite !dot_vsub_r by congruence. rewrite (dot_comm y x). ring.
Qed.

Lemma sqnorm_vadd x y : length x = length y -> sqnorm (vadd x y) = sqnorm x + 2 * dot x y + sqnorm y.
Proof.
  intros H. unfold sqnorm.
  rewrite dot_vadd_l by (rewrite ?vadd_length; congruence).
  rewrite !dot_vadd_r by congruence. rewrite (dot_comm y x). ring.
Qed.

Lemma sqnorm_zero x : sqnorm x = 0 -> Forall (fun a => a = 0) x.
Proof.
  unfold sqnorm, dot. rewrite map2_same. intros H.
  induction x as [|a x IH]; constructor; simpl in H;
    pose proof (rsum_map_nonneg (fun a => a * a) x (fun b _ => Rle_0_sqr b)); pose proof (Rle_0_sqr a); unfold Rsqr in *.
  - assert (a * a = 0) by lra. destruct (Rmult_integral _ _ H2); auto.
  - apply IH. lra.
Qed.

Lemma norm2_nonneg x : 0 <= norm2 x.
Proof. apply sqrt_pos. Qed.

Lemma norm2_sq x : norm2 x * norm2 x = sqnorm x.
Proof. apply sqrt_sqrt, sqnorm_nonneg. Qed.

(* Cauchy-Schwarz *)
Lemma cauchy_schwarz_sq x y : length x = length y -> dot x y * dot x y <= sqnorm x * sqnorm y.
Proof.
  intros Hl.
  destruct (Req_dec (sqnorm y) 0) as [Hy|Hy].
  - assert (Hz : dot x y = 0).
    { unfold dot. apply sqnorm_zero in Hy. clear - Hy. revert x.
      induction Hy as [|b y Hb Hy IH]; intros [|a x]; simpl; auto. rewrite IH, Hb. ring. }
    rewrite Hz, Hy. lra.
  - pose proof (sqnorm_nonneg y) as Hp.
    assert (Hpos : 0 < sqnorm y) by lra.
    set (t := dot x y / sqnorm y).
    pose proof (sqnorm_nonneg (vsub x (vscal t y))) as H.
    rewrite sqnorm_vsub in H by (rewrite vscal_length; exact Hl).
    rewrite sqnorm_vscal, dot_vscal_r in H.
    assert (E : sqnorm x - 2 * (t * dot x y) + t * t * sqnorm y = sqnorm x - dot x y * dot x y / sqnorm y).
    { unfold t. field. exact Hy. }
    rewrite E in H.
    apply (Rmult_le_compat_r (sqnorm y)) in H; [|lra].
    replace ((sqnorm x - dot x y * dot x y / sqnorm y) * sqnorm y) with (sqnorm x * sqnorm y - dot x y * dot x y) in H by (field; exact Hy).
    lra.
Qed.

Lemma cauchy_schwarz x y : length x = length y -> dot x y <= norm2 x * norm2 y.
Proof.
  intros Hl. pose proof (cauchy_schwarz_sq x y Hl) as H.
  rewrite <- (norm2_sq x), <- (norm2_sq y) in H.
  pose proof (norm2_nonneg x); pose proof (norm2_nonneg y).
  assert (0 <= norm2 x * norm2 y) by (apply Rmult_le_pos; assumption).
  destruct (Rle_dec (dot x y) 0); [lra|].
  apply Rnot_lt_le. intros Hc.
  assert ((norm2 x * norm2 y) * (norm2 x * norm2 y) < dot x y * dot x y) by (apply Rmult_le_0_lt_compat; lra).
  lra.
Qed.

Lemma norm2_triangle x y : length x = length y -> norm2 (vadd x y) <= norm2 x + norm2 y.
Proof.
  intros Hl. pose proof (cauchy_schwarz x y Hl) as H.
  pose proof (norm2_nonneg x); pose proof (norm2_nonneg y).
  unfold norm2 at 1. rewrite <- (sqrt_square (norm2 x + norm2 y)) by lra.
  apply sqrt_le_1_alt. rewrite sqnorm_vadd by exact Hl.
  pose proof (norm2_sq x); pose proof (norm2_sq y). nra.
Qed.

Lemma norm2_vscal c x : norm2 (vscal c x) = Rabs c * norm2 x.
Proof.
  unfold norm2. rewrite sqnorm_vscal.
  rewrite sqrt_mult by (try apply Rle_0_sqr; apply sqnorm_nonneg).
  f_equal. rewrite <- sqrt_Rsqr_abs. reflexivity.
Qed.

Lemma norm2_zero x : norm2 x = 0 -> Forall (fun a => a = 0) x.
Proof. intros H. apply sqnorm_zero. rewrite <- norm2_sq, H. ring. Qed.

(* ---------- convexity of exp, powers ---------- *)
Lemma exp_tangent a c : exp c * (1 + (a - c)) <= exp a.
Proof.
  replace a with (c + (a - c)) at 2 by ring. rewrite exp_plus.
  apply Rmult_le_compat_l; [apply Rlt_le, exp_pos|]. apply exp_ineq1_le.
Qed.

Lemma exp_convex t a b : 0 <= t <= 1 -> exp (t * a + (1 - t) * b) <= t * exp a + (1 - t) * exp b.
Proof.
  intros Ht. set (c := t * a + (1 - t) * b).
  pose proof (exp_tangent a c) as Ha; pose proof (exp_tangent b c) as Hb.
  assert (exp c = t * (exp c * (1 + (a - c))) + (1 - t) * (exp c * (1 + (b - c)))) by (unfold c; ring).
  assert (t * (exp c * (1 + (a - c))) <= t * exp a) by (apply Rmult_le_compat_l; lra).
  assert ((1 - t) * (exp c * (1 + (b - c))) <= (1 - t) * exp b) by (apply Rmult_le_compat_l; lra).
  lra.
Qed.

(* x^p for x >= 0 and p > 0, with 0^p = 0 *)
Definition ppow (x p : R) : R := if Rlt_dec 0 x then Rpower x p else 0.

Lemma ppow_pos x p : 0 < x -> ppow x p = Rpower x p.
Proof. unfold ppow. intros H. destruct (Rlt_dec 0 x); [reflexivity|contradiction]. Qed.

Lemma ppow_nonpos x p : x <= 0 -> ppow x p = 0.
Proof. unfold ppow. intros H. destruct (Rlt_dec 0 x); [lra|reflexivity]. Qed.

Lemma ppow_0 p : ppow 0 p = 0.
Proof. apply ppow_nonpos; lra. Qed.

Lemma ppow_nonneg x p : 0 <= ppow x p.
Proof. unfold ppow. destruct (Rlt_dec 0 x); [|lra]. apply Rlt_le, exp_pos. Qed.

Lemma ppow_gt0 x p : 0 < x -> 0 < ppow x p.
Proof. intros H. rewrite ppow_pos by exact H. apply exp_pos. Qed.

Lemma ppow_eq0 x p : 0 <= x -> ppow x p = 0 -> x = 0.
Proof. intros H E. destruct (Req_dec x 0); auto. assert (0 < x) by lra. pose proof (ppow_gt0 x p H1). lra. Qed.

Lemma ppow_mult x y p : 0 <= x -> 0 <= y -> ppow (x * y) p = ppow x p * ppow y p.
Proof.
  intros Hx Hy. destruct (Req_dec x 0) as [->|Hx0]; [rewrite Rmult_0_l, ppow_0; ring|].
  destruct (Req_dec y 0) as [->|Hy0]; [rewrite Rmult_0_r, ppow_0; ring|].
  assert (0 < x) by lra; assert (0 < y) by lra.
  rewrite !ppow_pos by (try assumption; apply Rmult_lt_0_compat; assumption).
  symmetry. apply Rpower_mult_distr; assumption.
Qed.

Lemma ppow_ppow x p q : ppow (ppow x p) q = ppow x (p * q).
Proof.
  destruct (Rlt_dec 0 x) as [H|H].
  - rewrite (ppow_pos x p H), (ppow_pos x _ H). rewrite ppow_pos by apply exp_pos. apply Rpower_mult.
  - rewrite !(ppow_nonpos x) by lra. apply ppow_0.
Qed.

Lemma ppow_1 x : 0 <= x -> ppow x 1 = x.
Proof.
  intros H. destruct (Req_dec x 0) as [->|]; [apply ppow_0|]. assert (0 < x) by lra.
  rewrite ppow_pos, Rpower_1 by assumption. reflexivity.
Qed.

Lemma ppow_one p : ppow 1 p = 1.
Proof. rewrite ppow_pos by lra. unfold Rpower. rewrite ln_1, Rmult_0_r. apply exp_0. Qed.

Lemma ppow_2 x : 0 <= x -> ppow x 2 = x * x.
Proof.
  intros H. destruct (Req_dec x 0) as [->|]; [rewrite ppow_0; ring|]. assert (0 < x) by lra.
  rewrite ppow_pos by assumption. replace 2 with (INR 2) by (simpl; lra). rewrite Rpower_pow by assumption. simpl; ring.
Qed.

Lemma ppow_half x : 0 <= x -> ppow x (/ 2) = sqrt x.
Proof.
  intros H. destruct (Req_dec x 0) as [->|]; [rewrite ppow_0, sqrt_0; reflexivity|]. assert (0 < x) by lra.
  rewrite ppow_pos by assumption. apply Rpower_sqrt; assumption.
Qed.

Lemma ppow_le x y p : 0 < p -> 0 <= x -> x <= y -> ppow x p <= ppow y p.
Proof.
  intros Hp Hx Hxy. destruct (Req_dec x 0) as [->|Hx0]; [rewrite ppow_0; apply ppow_nonneg|].
  rewrite !ppow_pos by lra. unfold Rpower.
  destruct (Req_dec x y) as [->|]; [lra|].
  apply Rlt_le, exp_increasing, Rmult_lt_compat_l; [exact Hp|]. apply ln_increasing; lra.
Qed.

Lemma ppow_lt x y p : 0 < p -> 0 <= x -> x < y -> ppow x p < ppow y p.
Proof.
  intros Hp Hx Hxy. destruct (Req_dec x 0) as [->|Hx0]; [rewrite ppow_0; apply ppow_gt0; lra|].
  rewrite !ppow_pos by lra. unfold Rpower.
  apply exp_increasing, Rmult_lt_compat_l; [exact Hp|]. apply ln_increasing; lra.
Qed.

Lemma ppow_le_inv x y p : 0 < p -> 0 <= y -> ppow x p <= ppow y p -> x <= y.
Proof.
  intros Hp Hy H. apply Rnot_lt_le. intros Hlt. pose proof (ppow_lt y x p Hp Hy Hlt). lra.
Qed.

Lemma ppow_inv x p : 0 < x -> ppow (/ x) p = / ppow x p.
Proof.
  intros H. rewrite !ppow_pos by (try apply Rinv_0_lt_compat; assumption).
  unfold Rpower. rewrite ln_Rinv by assumption. rewrite <- exp_Ropp. f_equal; ring.
Qed.

(* Bernoulli: 1 + p (r-1) <= r^p for p >= 1, r >= 0 *)
Lemma bernoulli r p : 1 <= p -> 0 <= r -> 1 + p * (r - 1) <= ppow r p.
Proof.
  intros Hp Hr. destruct (Req_dec r 0) as [->|Hr0].
  - rewrite ppow_0. lra.
  - assert (Hr1 : 0 < r) by lra. rewrite ppow_pos by exact Hr1.
    assert (Hi : 0 < / p <= 1).
    { split; [apply Rinv_0_lt_compat; lra|]. rewrite <- Rinv_1. apply Rinv_le_contravar; lra. }
    pose proof (exp_convex (/ p) (p * ln r) 0 ltac:(lra)) as H.
    replace (/ p * (p * ln r) + (1 - / p) * 0) with (ln r) in H by (field; lra).
    rewrite exp_ln in H by exact Hr1. rewrite exp_0 in H.
    unfold Rpower.
    apply (Rmult_le_compat_l p) in H; [|lra].
    replace (p * (/ p * exp (p * ln r) + (1 - / p) * 1)) with (exp (p * ln r) + p - 1) in H by (field; lra).
    lra.
Qed.

Lemma ppow_convex t x y p : 1 <= p -> 0 <= t <= 1 -> 0 <= x -> 0 <= y ->
  ppow (t * x + (1 - t) * y) p <= t * ppow x p + (1 - t) * ppow y p.
Proof.
  intros Hp Ht Hx Hy. set (m := t * x + (1 - t) * y).
  assert (Hm : 0 <= m). { unfold m. assert (0 <= t * x) by (apply Rmult_le_pos; lra). assert (0 <= (1 - t) * y) by (apply Rmult_le_pos; lra). lra. }
  destruct (Req_dec m 0) as [E|Hm0].
  - rewrite E, ppow_0. pose proof (ppow_nonneg x p); pose proof (ppow_nonneg y p).
    assert (0 <= t * ppow x p) by (apply Rmult_le_pos; lra). assert (0 <= (1 - t) * ppow y p) by (apply Rmult_le_pos; lra). lra.
  - assert (Hmp : 0 < m) by lra.
    assert (Hdiv : forall z, 0 <= z -> ppow m p * (1 + p * (z / m - 1)) <= ppow z p).
    { intros z Hz.
      assert (Hzm : 0 <= z / m) by (apply Rmult_le_pos; [exact Hz|apply Rlt_le, Rinv_0_lt_compat; exact Hmp]).
      pose proof (bernoulli (z / m) p Hp Hzm) as B.
      apply (Rmult_le_compat_l (ppow m p)) in B; [|apply ppow_nonneg].
      rewrite <- ppow_mult in B by lra.
      replace (m * (z / m)) with z in B by (field; exact Hm0). exact B. }
    pose proof (Hdiv x Hx) as Dx. pose proof (Hdiv y Hy) as Dy.
    assert (E : ppow m p = t * (ppow m p * (1 + p * (x / m - 1))) + (1 - t) * (ppow m p * (1 + p * (y / m - 1)))).
    { transitivity (ppow m p * (1 + p * ((t * x + (1 - t) * y) / m - 1))); [|field; exact Hm0].
      fold m. replace (m / m) with 1 by (field; exact Hm0). ring. }
    assert (t * (ppow m p * (1 + p * (x / m - 1))) <= t * ppow x p) by (apply Rmult_le_compat_l; lra).
    assert ((1 - t) * (ppow m p * (1 + p * (y / m - 1))) <= (1 - t) * ppow y p) by (apply Rmult_le_compat_l; lra).
    lra.
Qed.

(* Young *)
Lemma young a b p q : 1 < p -> / p + / q = 1 -> 0 <= a -> 0 <= b -> a * b <= ppow a p / p + ppow b q / q.
Proof.
  intros Hp Hpq Ha Hb.
  assert (Hip : 0 < / p < 1).
  { split; [apply Rinv_0_lt_compat; lra|]. rewrite <- Rinv_1. apply Rinv_lt_contravar; lra. }
  assert (Hiq : 0 < / q < 1) by lra.
  assert (Hq : 0 < q).
  { destruct (Rlt_dec 0 q) as [Hq|Hq]; [exact Hq|]. exfalso.
    destruct (Req_dec q 0) as [->|Hq0]; [rewrite Rinv_0 in Hiq; lra|].
    assert (/ q < 0) by (apply Rinv_lt_0_compat; lra). lra. }
  assert (0 <= ppow a p / p) by (apply Rmult_le_pos; [apply ppow_nonneg|lra]).
  assert (0 <= ppow b q / q) by (apply Rmult_le_pos; [apply ppow_nonneg|lra]).
  destruct (Req_dec a 0) as [->|Ha0]; [rewrite Rmult_0_l; lra|].
  destruct (Req_dec b 0) as [->|Hb0]; [rewrite Rmult_0_r; lra|].
  assert (Ha1 : 0 < a) by lra; assert (Hb1 : 0 < b) by lra.
  pose proof (exp_convex (/ p) (p * ln a) (q * ln b) ltac:(lra)) as H1.
  replace (1 - / p) with (/ q) in H1 by lra.
  replace (/ p * (p * ln a) + / q * (q * ln b)) with (ln a + ln b) in H1 by (field; lra).
  rewrite exp_plus, !exp_ln in H1 by assumption.
  rewrite !ppow_pos by assumption. unfold Rpower, Rdiv. lra.
Qed.
