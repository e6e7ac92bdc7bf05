(* Strong duality of optimal transport around finite data, for any cost, any set of allowed moves and any loss: a bound on the worst
   case has a multiplier and one number per data point that certify it. *)
From Coq Require Import Reals List Lra Lia.
From Verif Require Import RList Transport_Spec Transport_Proofs.
Import ListNotations.
Local Open Scope R_scope.

Lemma F2_length {A B} (P : A -> B -> Prop) l m : Forall2 P l m -> length l = length m.
Proof. induction 1; cbn; congruence. Qed.
Lemma F2_impl {A B} (P Q : A -> B -> Prop) l m : (forall x y, P x y -> Q x y) -> Forall2 P l m -> Forall2 Q l m.
Proof. intros H. induction 1; constructor; auto. Qed.

Section Duality.
Context {A : Type}.
Variable cost : A -> A -> R.
Variable allowed : A -> A -> Prop.
Variable samples : list A.
Hypothesis nonempty : samples <> [].
Hypothesis stay : forall x, In x samples -> allowed x x /\ cost x x = 0.
Notation ok p := (Transport_Spec.tplan_ok cost allowed samples (Transport_Spec.tplan_cost cost p) p).
Notation C p := (Transport_Spec.tplan_cost cost p).

Lemma ok_self b p : Transport_Spec.tplan_ok cost allowed samples b p -> ok p /\ C p <= b.
Proof. intros (E & F & B). split; [split; [exact E|split; [exact F|lra]]|exact B]. Qed.
Lemma ok_budget b p : ok p -> C p <= b -> Transport_Spec.tplan_ok cost allowed samples b p.
Proof. intros (E & F & _) B. split; [exact E|split; assumption]. Qed.
Lemma cost_mix t p q : map fst p = map fst q -> C (mix t p q) = (1 - t) * C p + t * C q.
Proof. intros E. unfold Transport_Spec.tplan_cost. exact (mix_rmean (fun x l => texpect (cost x) l) t (fun x l m => texpect_mix (cost x) t l m) p q E). Qed.
Definition still : tplan := move (fun x => x) samples.
Lemma still_ok : ok still /\ C still = 0.
Proof.
  assert (Z : C still = 0).
  { unfold Transport_Spec.tplan_cost, still, move. rewrite map_map. cbn [fst snd]. unfold rmean.
    assert (K : forall l, (forall x, In x l -> cost x x = 0) -> rsum (map (fun x => texpect (cost x) [(1, x)]) l) = 0).
    { induction l as [|x l IH]; intros H; cbn [map rsum]; [reflexivity|]. rewrite IH by (intros; apply H; right; assumption). rewrite texpect_point, H by (left; reflexivity). ring. }
    rewrite K by (intros; apply stay; assumption). unfold Rdiv. ring. }
  split; [|exact Z]. apply move_ok; [intros; apply stay; assumption|].
  apply Req_le. unfold Transport_Spec.tplan_cost, still, move. rewrite map_map. cbn [fst snd]. f_equal. apply map_ext. intros x. symmetry. apply texpect_point.
Qed.

(* growth of the loss at most linear in the cost: only used for a zero budget *)
Definition growth (f : A -> R) (L : R) : Prop := 0 <= L /\ forall x y, In x samples -> allowed x y -> f y - f x <= L * cost x y.
Lemma growth_plan f L p : growth f L -> ok p -> tplan_value f p <= tplan_value f still + L * C p.
Proof.
  intros [HL G] O.
  assert (D : Forall2 (fun x si => forall y, allowed x y -> f y <= L * cost x y + si) samples (map f samples)).
  { clear -G. assert (K : forall l, (forall x, In x l -> In x samples) -> Forall2 (fun x si => forall y, allowed x y -> f y <= L * cost x y + si) l (map f l)).
    { induction l as [|x l IH]; intros H; cbn; constructor; [|apply IH; intros; apply H; right; assumption]. intros y Hy. specialize (G x y (H x (or_introl eq_refl)) Hy). lra. }
    apply K. auto. }
  pose proof (weak_duality cost allowed samples (C p) f L (map f samples) p HL D O) as W.
  assert (E : tplan_value f still = rmean (map f samples)) by (unfold still; rewrite move_value; reflexivity). rewrite E. lra.
Qed.

Lemma multiplier rho f c : 0 < rho \/ (0 <= rho /\ exists L, growth f L) -> Transport_Spec.tworst_le cost allowed samples rho f c ->
  exists lam, 0 <= lam /\ forall p, ok p -> tplan_value f p - lam * C p <= c - lam * rho.
Proof.
  intros Hr W. assert (R0 : 0 <= rho) by (destruct Hr as [H|[H _]]; lra). destruct still_ok as [O0 C0].
  assert (V0 : tplan_value f still <= c) by (apply W, ok_budget; [exact O0|lra]).
  assert (K : forall p q, ok p -> ok q -> C q < rho < C p -> (tplan_value f p - c) / (C p - rho) <= (c - tplan_value f q) / (rho - C q)).
  { intros p q Op Oq H. set (t := (rho - C q) / (C p - C q)).
    assert (Ht : 0 <= t <= 1).
    { unfold t. split; [apply Rle_mult_inv_pos; lra|]. apply (Rmult_le_reg_r (C p - C q)); [lra|]. unfold Rdiv. rewrite Rmult_assoc, Rinv_l by lra. lra. }
    assert (E : map fst q = map fst p) by (rewrite (proj1 Op), (proj1 Oq); reflexivity).
    assert (M : tplan_value f (mix t q p) <= c).
    { apply W. eapply mix_ok; [exact Ht|exact Oq|exact Op|]. unfold t. right. field. lra. }
    rewrite mix_value in M by exact E. set (vp := tplan_value f p) in *. set (vq := tplan_value f q) in *.
    assert (T : (1 - t) * (C p - C q) = C p - rho) by (unfold t; field; lra). assert (T' : t * (C p - C q) = rho - C q) by (unfold t; field; lra).
    apply (Rmult_le_reg_r ((C p - rho) * (rho - C q))); [nra|].
    replace ((vp - c) / (C p - rho) * ((C p - rho) * (rho - C q))) with ((vp - c) * (rho - C q)) by (field; lra).
    replace ((c - vq) / (rho - C q) * ((C p - rho) * (rho - C q))) with ((c - vq) * (C p - rho)) by (field; lra).
    rewrite <- T, <- T'. apply (Rmult_le_compat_r (C p - C q)) in M; [|lra]. nra. }
  set (S := fun r => r = 0 \/ exists p, ok p /\ rho < C p /\ r = (tplan_value f p - c) / (C p - rho)).
  assert (B : forall r q, S r -> ok q -> C q < rho -> r <= (c - tplan_value f q) / (rho - C q)).
  { intros r q [->|(p & Op & Hp & ->)] Oq Hq; [|apply K; auto]. apply Rle_mult_inv_pos; [|lra]. assert (tplan_value f q <= c) by (apply W, ok_budget; [exact Oq|lra]). lra. }
  destruct (completeness S) as (lam & U & Lb).
  - destruct (Rle_lt_or_eq_dec 0 rho R0) as [Hp|Z].
    + exists ((c - tplan_value f still) / (rho - C still)). intros r Sr. apply B; [exact Sr|exact O0|lra].
    + destruct Hr as [Hr|[_ (L & G)]]; [lra|]. exists L. intros r [->|(p & Op & Hp & ->)]; [apply G|]. pose proof (growth_plan f L p G Op) as Gp.
      apply (Rmult_le_reg_r (C p - rho)); [lra|]. unfold Rdiv. rewrite Rmult_assoc, Rinv_l, Rmult_1_r by lra. rewrite <- Z. lra.
  - exists 0. left. reflexivity.
  - exists lam. split; [apply U; left; reflexivity|]. intros p Op. destruct (Rtotal_order (C p) rho) as [H|[H|H]].
    + assert (X : lam <= (c - tplan_value f p) / (rho - C p)) by (apply Lb; intros r Sr; apply B; assumption).
      apply (Rmult_le_compat_r (rho - C p)) in X; [|lra]. unfold Rdiv in X. rewrite Rmult_assoc, Rinv_l in X by lra. lra.
    + rewrite H. assert (tplan_value f p <= c) by (apply W, ok_budget; [exact Op|lra]). lra.
    + assert (X : (tplan_value f p - c) / (C p - rho) <= lam) by (apply U; right; exists p; auto).
      apply (Rmult_le_compat_r (C p - rho)) in X; [|lra]. unfold Rdiv in X. rewrite Rmult_assoc, Rinv_l in X by lra. lra.
Qed.

(* one number per data point *)
Lemma suprema (h : A -> A -> R) : forall l K, (forall x, In x l -> exists y, allowed x y) -> (forall ys, Forall2 allowed l ys -> rsum (map2 h l ys) <= K) ->
  exists s, Forall2 (fun x si => forall y, allowed x y -> h x y <= si) l s /\ rsum s <= K.
Proof.
  induction l as [|x l IH]; intros K Ne H; [exists []; split; [constructor|exact (H [] (Forall2_nil _))]|].
  assert (Ne' : forall x', In x' l -> exists y, allowed x' y) by (intros; apply Ne; right; assumption).
  assert (Y0 : exists ys, Forall2 allowed l ys).
  { clear -Ne'. induction l as [|a l IH]; [exists []; constructor|]. destruct (Ne' a (or_introl eq_refl)) as (y & Hy). destruct IH as (ys & Hys); [intros; apply Ne'; right; assumption|]. exists (y :: ys). constructor; assumption. }
  destruct Y0 as (ys0 & Hys0). destruct (Ne x (or_introl eq_refl)) as (y0 & Hy0).
  destruct (completeness (fun r => exists y, allowed x y /\ r = h x y)) as (sg & U & Lb).
  - exists (K - rsum (map2 h l ys0)). intros r (y & Hy & ->). specialize (H (y :: ys0) ltac:(constructor; assumption)). cbn in H. lra.
  - exists (h x y0), y0. auto.
  - destruct (IH (K - sg) Ne') as (s & F & B).
    + intros ys Hys. assert (sg <= K - rsum (map2 h l ys)); [|lra]. apply Lb. intros r (y & Hy & ->). specialize (H (y :: ys) ltac:(constructor; assumption)). cbn in H. lra.
    + exists (sg :: s). split; [constructor; [intros y Hy; apply U; exists y; auto|exact F]|]. cbn. lra.
Qed.

(* the plan that moves each point to a given one *)
Lemma point_plan f ys : Forall2 allowed samples ys -> let p := map2 (fun x y => (x, [(1, y)])) samples ys in
  ok p /\ tplan_value f p = rmean (map2 (fun x y => f y) samples ys) /\ C p = rmean (map2 cost samples ys).
Proof.
  intros H p. split; [|split].
  - split; [|split; [|lra]]; unfold p; clear -H; induction H as [|x y l ys Hxy H IH]; cbn; try reflexivity; try constructor; try (f_equal; exact IH); try exact IH.
    split; [constructor; [cbn; split; [lra|exact Hxy]|constructor]|cbn; lra].
  - unfold tplan_value, p. f_equal. clear -H. induction H as [|x y l ys Hxy H IH]; cbn [map map2]; [reflexivity|]. f_equal; [apply texpect_point|exact IH].
  - unfold Transport_Spec.tplan_cost, p. f_equal. clear -H. induction H as [|x y l ys Hxy H IH]; cbn [map map2]; [reflexivity|]. f_equal; [apply texpect_point|exact IH].
Qed.

Theorem strong_duality rho f c : 0 < rho \/ (0 <= rho /\ exists L, growth f L) -> Transport_Spec.tworst_le cost allowed samples rho f c ->
  exists lam s, 0 <= lam /\ Forall2 (fun x si => forall y, allowed x y -> f y <= lam * cost x y + si) samples s /\ lam * rho + rmean s <= c.
Proof.
  intros Hr W. destruct (multiplier rho f c Hr W) as (lam & Hl & M). exists lam.
  assert (N : 0 < INR (length samples)) by (apply lt_0_INR; destruct samples; [contradiction|cbn; lia]).
  destruct (suprema (fun x y => f y - lam * cost x y) samples (INR (length samples) * (c - lam * rho))) as (s & F & B).
  - intros x Hx. exists x. apply stay. exact Hx.
  - intros ys Hys. destruct (point_plan f ys Hys) as (O & Ev & Ec). specialize (M _ O). rewrite Ev, Ec in M.
    assert (L : length ys = length samples) by (symmetry; eapply F2_length; exact Hys).
    assert (E : rsum (map2 (fun x y => f y - lam * cost x y) samples ys) = rsum (map2 (fun x y => f y) samples ys) - lam * rsum (map2 cost samples ys)).
    { clear. revert ys. induction samples as [|x l IH]; intros [|y ys]; cbn; try ring. rewrite IH. ring. }
    rewrite E. unfold rmean in M. rewrite !map2_length in M by (symmetry; exact L).
    apply (Rmult_le_compat_l (INR (length samples))) in M; [|lra]. set (n := INR (length samples)) in *.
    replace (n * (rsum (map2 (fun _ y => f y) samples ys) / n - lam * (rsum (map2 cost samples ys) / n))) with (rsum (map2 (fun x y => f y) samples ys) - lam * rsum (map2 cost samples ys)) in M by (field; lra). exact M.
  - exists s. split; [exact Hl|]. split; [eapply F2_impl; [|exact F]; cbn; intros x si H y Hy; specialize (H y Hy); lra|].
    unfold rmean. rewrite <- (F2_length _ _ _ F). set (n := INR (length samples)) in *.
    apply (Rmult_le_compat_r (/ n)) in B; [|left; apply Rinv_0_lt_compat; exact N]. replace (n * (c - lam * rho) * / n) with (c - lam * rho) in B by (field; lra). unfold Rdiv. lra.
Qed.
End Duality.
