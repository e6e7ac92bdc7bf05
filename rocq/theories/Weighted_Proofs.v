From Coq Require Import Reals List Bool ZArith String Lra Lia.
From Verif Require Import PyBase RList XReal Costs_Model Costs_Proofs Dual_Model Dual_Proofs ImpSamp_Model ImpSamp_Spec ImpSamp_Proofs EstDual_Spec Gradient Weighted_Spec.
Import ListNotations.
Local Open Scope R_scope.
Local Notation length := List.length.

Lemma rmean_le_const l b : l <> [] -> (forall x, In x l -> x <= b) -> rmean l <= b.
Proof.
  intros N H. unfold rmean. assert (P : 0 < INR (length l)) by (apply lt_0_INR; destruct l; [congruence|cbn; lia]).
  apply Rmult_le_reg_r with (INR (length l)); [exact P|]. unfold Rdiv. rewrite Rmult_assoc, Rinv_l, Rmult_1_r by lra.
  pose proof (rsum_map_le (fun x => x) (fun _ => b) l H) as Q. rewrite map_id, rsum_map_const in Q. lra.
Qed.
Lemma rmean_pos_list l : l <> [] -> (forall x, In x l -> 0 < x) -> 0 < rmean l.
Proof.
  intros N H. unfold rmean. assert (P : 0 < INR (length l)) by (apply lt_0_INR; destruct l; [congruence|cbn; lia]).
  apply Rdiv_lt_0_compat; [|exact P]. destruct l as [|a l]; [congruence|]. cbn [rsum].
  assert (0 < a) by (apply H; left; reflexivity).
  assert (0 <= rsum l).
  { assert (G : forall x, In x l -> 0 < x) by (intros; apply H; right; assumption). clear -G. induction l as [|b l IH]; cbn; [lra|].
    assert (0 < b) by (apply G; left; reflexivity). assert (0 <= rsum l) by (apply IH; intros; apply G; right; assumption). lra. }
  lra.
Qed.
Lemma log_mean_le e l b : 0 < e -> l <> [] -> (forall x, In x l -> 0 < x <= exp (b / e)) -> e * ln (rmean l) <= b.
Proof.
  intros He N H. assert (M : rmean l <= exp (b / e)) by (apply rmean_le_const; [exact N|]; intros x Hx; apply H; exact Hx).
  assert (P : 0 < rmean l) by (apply rmean_pos_list; [exact N|]; intros x Hx; apply H; exact Hx).
  assert (Q : ln (rmean l) <= b / e).
  { rewrite <- (ln_exp (b / e)). destruct M as [M| ->]; [left; apply ln_increasing; assumption|right; reflexivity]. }
  apply Rmult_le_compat_l with (r := e) in Q; [|lra]. replace (e * (b / e)) with b in Q by (field; lra). exact Q.
Qed.
Lemma log_mean_eq e l b : 0 < e -> l <> [] -> (forall x, In x l -> x = exp (b / e)) -> e * ln (rmean l) = b.
Proof.
  intros He N H. assert (M : rmean l = exp (b / e)).
  { unfold rmean. assert (P : 0 < INR (length l)) by (apply lt_0_INR; destruct l; [congruence|cbn; lia]).
    assert (E : map (fun _ => exp (b / e)) l = l) by (rewrite <- (map_id l) at 2; apply map_ext_in; intros x Hx; symmetry; apply H; exact Hx).
    rewrite <- E at 1. rewrite rsum_map_const. field. lra. }
  rewrite M, ln_exp. field. lra.
Qed.

Lemma dot_cons' a x b y : dot (a :: x) (b :: y) = a * b + dot x y.
Proof. reflexivity. Qed.
Lemma sqnorm_cons' a x : sqnorm (a :: x) = a * a + sqnorm x.
Proof. reflexivity. Qed.
(* the importance weight of a sample *)
Lemma weight_exp s x z dl : 0 < s -> length z = length x -> length dl = length x ->
  gauss_vec s x z / moved_gauss s x dl z = exp ((sqnorm dl - 2 * dot (vsub z x) dl) / (2 * (s * s))).
Proof.
  intros Hs. unfold moved_gauss. revert z dl. induction x as [|a x IH]; intros [|b z] [|c dl] E1 E2; try discriminate.
  - unfold sqnorm, dot. cbn. replace ((0 - 2 * 0) / (2 * (s * s))) with 0 by (field; lra). rewrite exp_0. field.
  - cbn [vsub map2 gauss_vec]. specialize (IH z dl ltac:(injection E1; auto) ltac:(injection E2; auto)).
    assert (G1 : 0 < gauss s a (b - c)) by (apply gauss_pos; exact Hs).
    assert (G2 : 0 < gauss_vec s x (vsub z dl)) by (apply gauss_vec_pos; exact Hs).
    change (map2 Rminus z dl) with (vsub z dl).
    replace (gauss s a b * gauss_vec s x z / (gauss s a (b - c) * gauss_vec s x (vsub z dl)))
      with (gauss s a b / gauss s a (b - c) * (gauss_vec s x z / gauss_vec s x (vsub z dl))) by (field; lra).
    rewrite IH. assert (E : gauss s a b / gauss s a (b - c) = exp ((c * c - 2 * ((b - a) * c)) / (2 * (s * s)))).
    { unfold gauss. pose proof sqrt_2PI_pos as Hp. pose proof (exp_pos (- ((b - c - a) / s) ^ 2 / 2)) as X.
      replace (/ (s * sqrt (2 * PI)) * exp (- ((b - a) / s) ^ 2 / 2) / (/ (s * sqrt (2 * PI)) * exp (- ((b - c - a) / s) ^ 2 / 2)))
        with (exp (- ((b - a) / s) ^ 2 / 2) * / exp (- ((b - c - a) / s) ^ 2 / 2)) by (field; repeat split; lra).
      rewrite <- exp_Ropp, <- exp_plus. f_equal. field. lra. }
    rewrite E, <- exp_plus. f_equal.
    change (vsub (b :: z) (a :: x)) with ((b - a) :: vsub z x). rewrite sqnorm_cons', dot_cons'. change (map2 Rminus z x) with (vsub z x). field. lra.
Qed.

(* the weighted exponent, times eps *)
Definition exponent (e lam s : R) (Lz : R) (x dl z : vec) : R := Lz - lam * sqdist x z + tilt e lam s * lam * (sqnorm dl - 2 * dot (vsub z x) dl).
Lemma weighted_term e lam s Lz x dl z : 0 < s -> 0 < e -> 0 < lam -> length z = length x -> length dl = length x ->
  exp ((Lz - lam * sqdist x z) / e) * (gauss_vec s x z / moved_gauss s x dl z) = exp (exponent e lam s Lz x dl z / e).
Proof.
  intros Hs He Hl E1 E2. rewrite weight_exp by assumption. rewrite <- exp_plus. f_equal. unfold exponent, tilt. field. lra.
Qed.

(* a quadratic that is bounded *)
Lemma quad_max A lam t : 0 < lam -> A * t - lam * (t * t) <= A * A / (4 * lam).
Proof.
  intros Hl. apply Rmult_le_reg_r with (4 * lam); [lra|]. unfold Rdiv. rewrite Rmult_assoc, Rinv_l, Rmult_1_r by lra.
  assert (0 <= (A - 2 * lam * t) * (A - 2 * lam * t)) by (apply Rle_0_sqr). nra.
Qed.
Lemma sqnorm_sq x : sqnorm x = norm2 x * norm2 x.
Proof. symmetry. apply norm2_sq. Qed.

Lemma exponent_lipschitz e lam s Lz Lx W x dl z : 0 < s -> 0 < e -> 0 < lam -> 0 <= W -> length z = length x -> length dl = length x ->
  Lz <= Lx + W * norm2 (vsub z x) -> norm2 dl <= W / (2 * lam) ->
  exponent e lam s Lz x dl z <= Lx + W * W / (4 * lam) * (1 + 3 * tilt e lam s + tilt e lam s * tilt e lam s).
Proof.
  intros Hs He Hl HW E1 E2 HL Hd. unfold exponent. set (a := tilt e lam s).
  assert (Ha : 0 < a) by (unfold a, tilt; apply Rdiv_lt_0_compat; [exact He|]; apply Rmult_lt_0_compat; [lra|apply Rmult_lt_0_compat; assumption]).
  set (t := norm2 (vsub z x)) in *. assert (Ht : 0 <= t) by apply norm2_nonneg.
  assert (D0 : 0 <= norm2 dl) by apply norm2_nonneg.
  assert (Sx : sqdist x z = t * t).
  { unfold sqdist, t. rewrite sqnorm_vsub_sym. apply sqnorm_sq. }
  assert (Ls : length (vsub z x) = length dl) by (unfold vsub; rewrite map2_length; congruence).
  pose proof (abs_dot (vsub z x) dl Ls) as AD. fold t in AD.
  assert (B1 : - dot (vsub z x) dl <= t * (W / (2 * lam))).
  { pose proof (Rle_abs (- dot (vsub z x) dl)) as Q. rewrite Rabs_Ropp in Q. eapply Rle_trans; [exact Q|]. eapply Rle_trans; [exact AD|]. apply Rmult_le_compat_l; assumption. }
  assert (B2 : sqnorm dl <= W / (2 * lam) * (W / (2 * lam))) by (rewrite sqnorm_sq; apply Rmult_le_compat; assumption).
  assert (B3 : a * lam * (sqnorm dl - 2 * dot (vsub z x) dl) <= a * lam * (W / (2 * lam) * (W / (2 * lam)) + 2 * (t * (W / (2 * lam))))).
  { apply Rmult_le_compat_l; [apply Rmult_le_pos; lra|]. lra. }
  assert (B4 : a * lam * (W / (2 * lam) * (W / (2 * lam)) + 2 * (t * (W / (2 * lam)))) = a * (W * W / (4 * lam)) + a * W * t) by (field; lra).
  pose proof (quad_max (W * (1 + a)) lam t Hl) as B5.
  assert (B6 : W * (1 + a) * (W * (1 + a)) / (4 * lam) = W * W / (4 * lam) * (1 + 2 * a + a * a)) by (field; lra).
  rewrite Sx. rewrite B4 in B3. rewrite B6 in B5. nra.
Qed.

(* an affine loss whose samples move by half its slope over lambda *)
Lemma exponent_affine e lam s g b x z : 0 < s -> 0 < e -> 0 < lam -> length x = length g -> length z = length g ->
  let a := tilt e lam s in
  exponent e lam s (affine g b z) x (vscal (/ (2 * lam)) g) z
  = affine g b x + sqnorm g / (4 * lam) * (1 - a + a * a) - lam * sqnorm (vsub (vsub z x) (vscal ((1 - a) / (2 * lam)) g)).
Proof.
  intros Hs He Hl E1 E2 a. unfold exponent. fold a. unfold sqdist, affine. rewrite sqnorm_vsub_sym.
  assert (Lu : length (vsub z x) = length g) by (unfold vsub; rewrite map2_length; congruence).
  assert (Ls : forall k, length (vscal k g) = length g) by (intros; unfold vscal; apply map_length).
  rewrite (sqnorm_vsub (vsub z x) (vscal ((1 - a) / (2 * lam)) g)) by (rewrite Ls; exact Lu).
  rewrite !sqnorm_vscal, !dot_vscal_r.
  assert (Ez : dot g z = dot g x + dot (vsub z x) g).
  { rewrite dot_vsub_l by congruence. rewrite (dot_comm z g), (dot_comm x g). ring. }
  rewrite Ez. field. lra.
Qed.

(* a loss that is flat above theta, below theta; displacement - d *)
Lemma nv_exponent k u th lam a x y d : 0 < lam -> 0 < u -> 0 < a -> a + a * a <= 1 -> x < th -> 0 <= d -> d <= u / (2 * lam) ->
  k * th - u * Rmin th y - lam * ((x - y) * (x - y) + 0) + a * lam * (- d * - d + 0 - 2 * ((y - x) * - d + 0)) <= k * th - u * Rmin th x + u * u / (4 * lam).
Proof.
  intros Hl Hu Ha Haa Hx Hd Hdu. rewrite (Rmin_right th x) by lra. set (t := y - x).
  assert (M : 2 * lam * d <= u).
  { apply Rmult_le_compat_l with (r := 2 * lam) in Hdu; [|lra]. replace (2 * lam * (u / (2 * lam))) with u in Hdu by (field; lra). exact Hdu. }
  set (D := 2 * lam * d) in *. assert (D0 : 0 <= D) by (unfold D; apply Rmult_le_pos; lra). assert (Ed : d = D / (2 * lam)) by (unfold D; field; lra).
  assert (A1 : a <= 1) by nra.
  replace (x - y) with (- t) by (unfold t; ring). rewrite Ed.
  replace (a * lam * (- (D / (2 * lam)) * - (D / (2 * lam)) + 0 - 2 * (t * - (D / (2 * lam)) + 0))) with (a * (D * D) / (4 * lam) + a * D * t) by (field; lra).
  unfold Rmin. destruct (Rle_dec th y) as [C|C].
  - pose proof (quad_max (a * D) lam t Hl) as Q. replace (a * D * (a * D) / (4 * lam)) with (a * a * (D * D) / (4 * lam)) in Q by (field; lra).
    assert (B : (a + a * a) * (D * D) / (4 * lam) <= u * u / (4 * lam)).
    { apply Rmult_le_compat_r; [left; apply Rinv_0_lt_compat; lra|]. assert (D * D <= u * u) by nra. assert (0 <= D * D) by nra. nra. }
    replace ((a + a * a) * (D * D) / (4 * lam)) with (a * (D * D) / (4 * lam) + a * a * (D * D) / (4 * lam)) in B by (field; lra).
    assert (u * x <= u * th) by (apply Rmult_le_compat_l; lra). nra.
  - pose proof (quad_max (- (u - a * D)) lam t Hl) as Q.
    assert (B : ((u - a * D) * (u - a * D) + a * (D * D)) / (4 * lam) <= u * u / (4 * lam)).
    { apply Rmult_le_compat_r; [left; apply Rinv_0_lt_compat; lra|].
      assert (0 <= a * D * (2 * u - a * D - D)); [|nra]. apply Rmult_le_pos; [apply Rmult_le_pos; lra|]. assert (a * D <= D) by nra. lra. }
    replace (((u - a * D) * (u - a * D) + a * (D * D)) / (4 * lam)) with (- (u - a * D) * - (u - a * D) / (4 * lam) + a * (D * D) / (4 * lam)) in B by (field; lra).
    replace y with (x + t) by (unfold t; ring). nra.
Qed.
