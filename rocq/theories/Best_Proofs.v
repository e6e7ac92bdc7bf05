(* Lemmas for the existence and the uniqueness of a best model: the objective is Lipschitz on boxes, grows with the penalty and with
   the multiplier, and is strictly convex in the parameters. *)
From Coq Require Import Reals List Bool String Lra Lia Psatz.
From Verif Require Import PyBase RList XReal LogMeanExp Dual_Model Dual_Spec Dual_Proofs Attain.
Import ListNotations.
Local Open Scope R_scope.
Local Notation length := List.length.

Section Gen.
Variable P : Type.
Variable cost : P -> P -> R.

Lemma objective_half n (rows : list (row P)) rho eps p l1 l2 lam1 lam2 delta : batch_ok n rows -> 0 < eps ->
  (forall r z, In r rows -> In z (r_zeta r) -> l1 z - lam1 * cost (r_xi r) z <= l2 z - lam2 * cost (r_xi r) z + delta) ->
  objective P l1 cost rho lam1 eps p rows <= objective P l2 cost rho lam2 eps p rows + (lam1 - lam2) * Rpower rho p + delta.
Proof.
  intros Hb He Hd. unfold objective.
  assert (Q : rmean (map (soft P l1 cost eps lam1) rows) <= rmean (map (fun r => soft P l2 cost eps lam2 r + delta) rows)).
  { apply rmean_map_le. intros r Hin. unfold soft.
    rewrite <- (softmaximum_shift eps delta _ He (pen_ne P l2 cost n rows lam2 r Hb Hin)).
    apply softmaximum_mono; [exact He|exact (pen_ne P l1 cost n rows _ r Hb Hin)|]. unfold pen. rewrite map_map. clear -Hd Hin.
    specialize (Hd r). revert Hd. induction (r_zeta r) as [|z zs IH]; intros Hd; cbn; constructor.
    - exact (Hd z Hin (or_introl eq_refl)).
    - apply IH. intros y _ Hy. apply Hd; [exact Hin|right; exact Hy]. }
  rewrite rmean_map_plus, rmean_map_const in Q by apply Hb. lra.
Qed.
Lemma objective_shift n (rows : list (row P)) rho eps p l lam c : batch_ok n rows -> 0 < eps ->
  objective P (fun z => l z + c) cost rho lam eps p rows = objective P l cost rho lam eps p rows + c.
Proof.
  intros Hb He. apply Rle_antisym.
  - pose proof (objective_half n rows rho eps p (fun z => l z + c) l lam lam c Hb He) as Q. assert (lam - lam = 0) by ring. rewrite H in Q. rewrite Rmult_0_l in Q.
    assert (objective P (fun z => l z + c) cost rho lam eps p rows <= objective P l cost rho lam eps p rows + 0 + c) by (apply Q; intros; lra). lra.
  - pose proof (objective_half n rows rho eps p l (fun z => l z + c) lam lam (- c) Hb He) as Q. assert (lam - lam = 0) by ring. rewrite H in Q. rewrite Rmult_0_l in Q.
    assert (objective P l cost rho lam eps p rows <= objective P (fun z => l z + c) cost rho lam eps p rows + 0 + - c) by (apply Q; intros; lra). lra.
Qed.

(* a property of a bound that holds for each sample holds for all with one bound *)
Lemma finite_list {A} (l : list A) (Q : A -> R -> Prop) : (forall a x y, x <= y -> Q a x -> Q a y) ->
  (forall a, In a l -> exists x, 0 <= x /\ Q a x) -> exists x, 0 <= x /\ forall a, In a l -> Q a x.
Proof.
  intros Mono. induction l as [|a l IH]; intros H; [exists 0; split; [lra|intros ? []]|].
  destruct (H a (or_introl eq_refl)) as (x & Hx & Qx). destruct IH as (y & Hy & Qy); [intros b Hb; apply H; right; exact Hb|].
  exists (Rmax x y). split; [pose proof (Rmax_l x y); lra|]. intros b [<-|Hb].
  - apply (Mono a x); [apply Rmax_l|exact Qx].
  - apply (Mono b y); [apply Rmax_r|apply Qy; exact Hb].
Qed.
Lemma finite_samples (rows : list (row P)) (Q : row P -> P -> R -> Prop) : (forall r z x y, x <= y -> Q r z x -> Q r z y) ->
  (forall r z, In r rows -> In z (r_zeta r) -> exists x, 0 <= x /\ Q r z x) ->
  exists x, 0 <= x /\ forall r z, In r rows -> In z (r_zeta r) -> Q r z x.
Proof.
  intros Mono H. destruct (finite_list rows (fun r x => forall z, In z (r_zeta r) -> Q r z x)) as (x & Hx & Qx).
  - intros r x y Hxy Hq z Hz. apply (Mono r z x); [exact Hxy|apply Hq; exact Hz].
  - intros r Hr. apply (finite_list (r_zeta r) (fun z x => Q r z x)); [intros z; apply Mono|]. intros z Hz. apply H; assumption.
  - exists x. split; [exact Hx|]. intros r z Hr Hz. apply (Qx r Hr z Hz).
Qed.

(* any adversary gives a lower bound *)
Lemma objective_lower n (rows : list (row P)) rho lam eps p l A c : batch_ok n rows -> 0 < eps -> adversary n A rows ->
  (forall r z, In r rows -> In z (r_zeta r) -> c <= l z) ->
  c - eps * adv_entropy A + lam * (Rpower rho p - adv_mean cost A rows) <= objective P l cost rho lam eps p rows.
Proof.
  intros Hb He HA Hc. pose proof (penalised_le P (fun _ => c) cost n lam eps A rows Hb HA He) as Q. unfold penalised in Q.
  assert (M : adv_mean (fun _ _ => c) A rows = c).
  { unfold adv_mean. destruct HA as [LA FA]. destruct Hb as (_ & Ne & Hz).
    assert (E : map2 (fun q r => rsum (map2 (fun w _ => w * c) q (r_zeta r))) A rows = map (fun _ => c) rows).
    { clear Q Ne Hc. revert rows LA Hz. induction A as [|q A IH]; intros [|r rows] LA Hz; try discriminate; [reflexivity|].
      pose proof (Forall_inv FA) as Wq. pose proof (Forall_inv_tail FA) as FA'. pose proof (Forall_inv Hz) as Zr. pose proof (Forall_inv_tail Hz) as Hz'. cbn [map2 map]. f_equal.
      - destruct Wq as (Lq & _ & Sq). rewrite <- (Rmult_1_l c), <- Sq at 1. rewrite <- Zr in Lq. clear -Lq. revert Lq. generalize (r_zeta r).
        induction q as [|w q IHq]; intros [|z zs] Lq; try discriminate; [cbn; ring|]. cbn [map2 rsum fold_right]. cbn in IHq |- *. rewrite (IHq zs) by (injection Lq; auto). ring.
      - apply IH; [exact FA'|injection LA; auto|exact Hz']. }
    unfold vec in *. rewrite E. apply rmean_map_const. exact Ne. }
  rewrite M in Q.
  pose proof (objective_half n rows rho eps p (fun _ => c) l lam lam 0 Hb He) as H.
  assert (objective P (fun _ => c) cost rho lam eps p rows <= objective P l cost rho lam eps p rows + (lam - lam) * Rpower rho p + 0).
  { apply H. intros r z Hr Hz. specialize (Hc r z Hr Hz). lra. }
  unfold objective in *. lra.
Qed.
End Gen.

(* ---------- the penalty ---------- *)
Lemma sqnorm_cons a v : sqnorm (a :: v) = a * a + sqnorm v.
Proof. reflexivity. Qed.
Lemma sqnorm_lip B : forall d u v, 0 <= B -> box B d u -> box B d v -> Rabs (sqnorm u - sqnorm v) <= 2 * B * dist1 u v.
Proof.
  intros d u v HB. revert d v. induction u as [|a u IH]; intros d [|b v] [Lu Fu] [Lv Fv]; simpl in *; try (subst; discriminate).
  - unfold sqnorm, dot, dist1; simpl. rewrite Rminus_0_r, Rabs_R0. lra.
  - destruct d as [|d]; [discriminate|]. inversion Fu as [|? ? Ha Fu']; subst. inversion Fv as [|? ? Hb Fv']; subst.
    assert (Q : Rabs (sqnorm u - sqnorm v) <= 2 * B * dist1 u v) by (apply (IH d); split; auto).
    rewrite !sqnorm_cons, dist1_cons.
    replace (a * a + sqnorm u - (b * b + sqnorm v)) with ((a - b) * (a + b) + (sqnorm u - sqnorm v)) by ring.
    eapply Rle_trans; [apply Rabs_triang|]. rewrite Rabs_mult.
    assert (Rabs (a + b) <= 2 * B) by (pose proof (Rabs_triang a b); lra).
    assert (Rabs (a - b) * Rabs (a + b) <= Rabs (a - b) * (2 * B)) by (apply Rmult_le_compat_l; [apply Rabs_pos|assumption]). lra.
Qed.
Lemma sqnorm_box v S : sqnorm v <= S -> box (1 + S) (length v) v.
Proof.
  intros H. split; [reflexivity|]. apply Forall_forall. intros a Ha.
  assert (a * a <= sqnorm v).
  { clear H. induction v as [|b v IH]; [destruct Ha|]. rewrite sqnorm_cons. pose proof (sqnorm_nonneg v). pose proof (Rle_0_sqr b) as Q. unfold Rsqr in Q.
    destruct Ha as [->|Ha]; [lra|]. specialize (IH Ha). lra. }
  apply Rabs_le. nra.
Qed.

(* ---------- scores ---------- *)
Definition abs_sum (x : list R) : R := rsum (map Rabs x).
Lemma abs_sum_nonneg x : 0 <= abs_sum x.
Proof. apply rsum_map_nonneg. intros. apply Rabs_pos. Qed.
Lemma dot_lip : forall u v x : list R, length u = length v -> Rabs (dot u x - dot v x) <= abs_sum x * dist1 u v.
Proof.
  induction u as [|a u IH]; intros [|b v] x E; try discriminate.
  - replace (dot [] x - dot [] x) with 0 by ring. rewrite Rabs_R0. unfold dist1; simpl. lra.
  - destruct x as [|c x]; [unfold dot, abs_sum; simpl; rewrite Rminus_0_r, Rabs_R0; lra|].
    assert (Q : Rabs (dot u x - dot v x) <= abs_sum x * dist1 u v) by (apply IH; injection E; auto).
    change (dot (a :: u) (c :: x)) with (a * c + dot u x). change (dot (b :: v) (c :: x)) with (b * c + dot v x). rewrite dist1_cons.
    change (abs_sum (c :: x)) with (Rabs c + abs_sum x).
    replace (a * c + dot u x - (b * c + dot v x)) with ((a - b) * c + (dot u x - dot v x)) by ring.
    eapply Rle_trans; [apply Rabs_triang|]. rewrite Rabs_mult.
    pose proof (Rabs_pos (a - b)). pose proof (Rabs_pos c). pose proof (abs_sum_nonneg x). pose proof (dist1_nonneg u v). nra.
Qed.
Lemma dot_box B d u x : 0 <= B -> box B d u -> Rabs (dot u x) <= B * abs_sum x.
Proof.
  intros HB [_ F]. revert x. induction F as [|a u Ha F IH]; intros x.
  - unfold dot; simpl. rewrite Rabs_R0. pose proof (abs_sum_nonneg x). nra.
  - destruct x as [|c x]; [unfold dot, abs_sum; simpl; rewrite Rabs_R0; lra|].
    change (dot (a :: u) (c :: x)) with (a * c + dot u x). change (abs_sum (c :: x)) with (Rabs c + abs_sum x).
    eapply Rle_trans; [apply Rabs_triang|]. rewrite Rabs_mult. specialize (IH x). pose proof (Rabs_pos c). nra.
Qed.
(* functions of one number that are Lipschitz on every interval *)
Definition loc_lip (phi : R -> R) : Prop := forall M, 0 <= M -> exists K, 0 <= K /\ forall s t, Rabs s <= M -> Rabs t <= M -> Rabs (phi s - phi t) <= K * Rabs (s - t).
Lemma score_lip phi d x : loc_lip phi -> forall B, 0 <= B -> exists L, 0 <= L /\ lip_on B d L (fun th => phi (dot th x)).
Proof.
  intros H B HB. pose proof (abs_sum_nonneg x) as S. destruct (H (B * abs_sum x) ltac:(nra)) as (K & HK & Q). exists (K * abs_sum x). split; [nra|].
  intros u v Hu Hv. eapply Rle_trans; [apply Q; eapply dot_box; eassumption|]. rewrite Rmult_assoc. apply Rmult_le_compat_l; [exact HK|]. apply dot_lip.
  destruct Hu, Hv. congruence.
Qed.
