(* The log-mean-exp of a finite list and the Gibbs variational principle. Pure mathematics, no code modelled. *)
From Coq Require Import Reals List Lra Permutation.
From Verif Require Import RList.
Import ListNotations.
Local Open Scope R_scope.

Definition sumexp (f : list R) : R := rsum (map exp f).
Definition lme (f : list R) : R := ln (sumexp f) - ln (INR (length f)).

(* weights on n points *)
Definition weights (n : nat) (q : list R) : Prop := length q = n /\ Forall (fun w => 0 <= w) q /\ rsum q = 1.
(* relative entropy with respect to uniform weights (0 ln 0 = 0) *)
Definition entropy (q : list R) : R := rsum (map (fun w => w * ln (INR (length q) * w)) q).
Definition expect (q f : list R) : R := rsum (map2 Rmult q f).
Definition softmax (f : list R) : list R := map (fun a => exp a / sumexp f) f.

Lemma sumexp_pos f : f <> [] -> 0 < sumexp f.
Proof.
  intros H. apply rsum_pos. { destruct f; [contradiction|discriminate]. }
  apply Forall_map, Forall_forall. intros; apply exp_pos.
Qed.

Lemma ln_le_pred x : 0 < x -> ln x <= x - 1.
Proof.
  intros Hx. destruct (Rle_lt_dec (ln x) (x - 1)) as [|H]; [assumption|exfalso].
  pose proof (exp_ineq1_le (ln x)) as H1. rewrite exp_ln in H1 by assumption. lra.
Qed.

Lemma rsum_map2_le {A B} (f g : A -> B -> R) l m :
  (forall a b, In a l -> In b m -> f a b <= g a b) -> rsum (map2 f l m) <= rsum (map2 g l m).
Proof.
  revert m. induction l as [|a l IH]; intros [|b m] H; simpl; try lra.
  assert (f a b <= g a b) by (apply H; left; reflexivity).
  assert (rsum (map2 f l m) <= rsum (map2 g l m)) by (apply IH; intros; apply H; right; assumption). lra.
Qed.

Lemma rsum_map2_plus {A B} (f g : A -> B -> R) l m :
  rsum (map2 (fun a b => f a b + g a b) l m) = rsum (map2 f l m) + rsum (map2 g l m).
Proof. revert m. induction l as [|a l IH]; intros [|b m]; simpl; try lra. rewrite IH. ring. Qed.

Lemma rsum_map2_scal {A B} c (f : A -> B -> R) l m :
  rsum (map2 (fun a b => c * f a b) l m) = c * rsum (map2 f l m).
Proof. revert m. induction l as [|a l IH]; intros [|b m]; simpl; try lra. rewrite IH. ring. Qed.

Lemma rsum_map2_fst {A B} (f : A -> R) (l : list A) (m : list B) :
  length l = length m -> rsum (map2 (fun a _ => f a) l m) = rsum (map f l).
Proof. revert m. induction l as [|a l IH]; intros [|b m] H; simpl in *; try discriminate; try lra. rewrite IH by (injection H; auto). ring.
Qed.

Lemma rsum_map2_snd {A B} (f : B -> R) (l : list A) (m : list B) :
  length l = length m -> rsum (map2 (fun _ b => f b) l m) = rsum (map f m).
Proof. intros H. rewrite map2_comm. apply rsum_map2_fst. symmetry; assumption. Qed.

Lemma map2_in_length {A B C} (f g : A -> B -> C) l m :
  (forall a b, In a l -> In b m -> f a b = g a b) -> map2 f l m = map2 g l m.
Proof.
  revert m. induction l as [|a l IH]; intros [|b m] H; simpl; try reflexivity.
  rewrite H by (left; reflexivity). rewrite IH; [reflexivity|]. intros; apply H; right; assumption.
Qed.

(* Gibbs: every reweighting is below the log-mean-exp ... *)
Lemma gibbs_le f q :
  f <> [] -> weights (length f) q -> expect q f - entropy q <= lme f.
Proof.
  intros Hne [Hl [Hq Hs]].
  pose proof (sumexp_pos f Hne) as HS. pose proof (INR_length_pos f Hne) as Hn.
  set (S := sumexp f) in *. set (n := INR (length f)) in *.
  unfold expect, entropy, lme. fold S n. rewrite Hl. fold n.
  rewrite <- (rsum_map2_fst (fun w => w * ln (n * w)) q f Hl).
  assert (E : rsum (map2 Rmult q f) - rsum (map2 (fun (a : R) (_ : R) => a * ln (n * a)) q f)
              = rsum (map2 (fun w a => w * a + (-1) * (w * ln (n * w))) q f)).
  { rewrite rsum_map2_plus, rsum_map2_scal. lra. }
  rewrite E; clear E.
  assert (B : rsum (map2 (fun w a => w * a + (-1) * (w * ln (n * w))) q f)
              <= rsum (map2 (fun w a => (ln S - ln n - 1) * w + / S * exp a) q f)).
  { apply rsum_map2_le. intros w a Hw _. rewrite Forall_forall in Hq. specialize (Hq w Hw).
    destruct Hq as [Hq|Hq].
    - assert (Hx : 0 < exp a / (S * w)).
      { apply Rdiv_lt_0_compat; [apply exp_pos|]. apply Rmult_lt_0_compat; assumption. }
      pose proof (ln_le_pred _ Hx) as H.
      unfold Rdiv in H. rewrite ln_mult in H; [|apply exp_pos|apply Rinv_0_lt_compat, Rmult_lt_0_compat; assumption].
      rewrite ln_exp, ln_Rinv, ln_mult in H by (try apply Rmult_lt_0_compat; assumption).
      rewrite ln_mult by assumption.
      apply (Rmult_le_compat_l w) in H; [|lra].
      assert (H2 : w * (exp a * / (S * w) - 1) = / S * exp a - w) by (field; lra).
      rewrite H2 in H. lra.
    - subst w. rewrite !Rmult_0_r, !Rmult_0_l, Rmult_0_r.
      assert (0 <= / S * exp a); [|lra].
      apply Rmult_le_pos; [left; apply Rinv_0_lt_compat; assumption|left; apply exp_pos]. }
  eapply Rle_trans; [exact B|]. rewrite rsum_map2_plus.
  rewrite (rsum_map2_scal (ln S - ln n - 1) (fun w _ => w)), (rsum_map2_fst (fun w => w) q f Hl), map_id, Hs.
  rewrite (rsum_map2_scal (/ S) (fun _ a => exp a)), (rsum_map2_snd exp q f Hl).
  change (rsum (map exp f)) with S. rewrite Rinv_l by lra. lra.
Qed.

Lemma softmax_weights f : f <> [] -> weights (length f) (softmax f).
Proof.
  intros H. pose proof (sumexp_pos f H) as HS. split; [apply map_length|]. split.
  - apply Forall_map, Forall_forall. intros a _. left. apply Rdiv_lt_0_compat; [apply exp_pos|exact HS].
  - unfold softmax. rewrite (map_ext _ (fun a => / sumexp f * exp a)) by (intros; unfold Rdiv; ring).
    rewrite rsum_map_scal. change (rsum (map exp f)) with (sumexp f). apply Rinv_l. lra.
Qed.

(* ... and the softmax attains it *)
Lemma gibbs_eq f : f <> [] -> expect (softmax f) f - entropy (softmax f) = lme f.
Proof.
  intros Hne. pose proof (sumexp_pos f Hne) as HS. pose proof (INR_length_pos f Hne) as Hn.
  destruct (softmax_weights f Hne) as [Hl [_ Hs]].
  unfold expect, entropy. rewrite Hl. unfold softmax at 1 2. rewrite map2_map_l, map2_same, map_map.
  rewrite <- rsum_map_minus.
  rewrite (map_ext _ (fun a => lme f * (exp a / sumexp f))).
  - rewrite rsum_map_scal. change (rsum (map (fun a => exp a / sumexp f) f)) with (rsum (softmax f)). rewrite Hs. ring.
  - intros a. unfold lme. pose proof (exp_pos a).
    assert (Hd : ln (exp a / sumexp f) = a - ln (sumexp f)).
    { unfold Rdiv. rewrite ln_mult; [|assumption|apply Rinv_0_lt_compat; exact HS]. rewrite ln_exp, ln_Rinv by exact HS. ring. }
    rewrite ln_mult; [|exact Hn|apply Rdiv_lt_0_compat; assumption]. rewrite Hd. ring.
Qed.

Lemma entropy_nonneg q : q <> [] -> weights (length q) q -> 0 <= entropy q.
Proof.
  intros Hne Hq.
  assert (Hz : map (fun _ : R => 0) q <> []) by (destruct q; [contradiction|discriminate]).
  assert (Hw : weights (length (map (fun _ : R => 0) q)) q) by (rewrite map_length; exact Hq).
  pose proof (gibbs_le _ q Hz Hw) as H.
  assert (E1 : expect q (map (fun _ => 0) q) = 0).
  { unfold expect. rewrite map2_map_r, map2_same. rewrite (map_ext _ (fun _ => 0)) by (intros; ring). rewrite rsum_map_const. ring. }
  assert (E2 : lme (map (fun _ => 0) q) = 0).
  { unfold lme, sumexp. rewrite map_map, rsum_map_const, map_length, exp_0, Rmult_1_r. ring. }
  rewrite E1, E2 in H. lra.
Qed.

Lemma Forall2_len {A B} (P : A -> B -> Prop) l m : Forall2 P l m -> length l = length m.
Proof. induction 1; simpl; congruence. Qed.

Lemma lme_le f g : f <> [] -> Forall2 Rle f g -> lme f <= lme g.
Proof.
  intros Hne H. unfold lme. rewrite (Forall2_len _ _ _ H).
  assert (Hs : sumexp f <= sumexp g).
  { unfold sumexp. clear Hne. induction H as [|a b f g Hab H IH]; simpl; [lra|].
    assert (exp a <= exp b); [|lra]. destruct Hab as [Hab|Hab]; [left; apply exp_increasing; exact Hab|right; rewrite Hab; reflexivity]. }
  pose proof (sumexp_pos f Hne).
  assert (ln (sumexp f) <= ln (sumexp g)); [|lra].
  destruct Hs as [Hs|Hs]; [left; apply ln_increasing; assumption|right; rewrite Hs; reflexivity].
Qed.

Lemma lme_const c (f : list R) : f <> [] -> lme (map (fun _ => c) f) = c.
Proof.
  intros Hne. unfold lme, sumexp. rewrite map_map, rsum_map_const, map_length.
  rewrite ln_mult, ln_exp; [ring|apply INR_length_pos; exact Hne|apply exp_pos].
Qed.

Lemma lme_upper f M : f <> [] -> (forall a, In a f -> a <= M) -> lme f <= M.
Proof.
  intros Hne H. rewrite <- (lme_const M f Hne). apply lme_le; [exact Hne|].
  clear Hne. induction f as [|a f IH]; simpl; constructor; [apply H; left; reflexivity|]. apply IH. intros; apply H; right; assumption.
Qed.

Lemma lme_lower f : f <> [] -> rmean f <= lme f.
Proof.
  intros Hne. pose proof (INR_length_pos f Hne) as Hn.
  set (n := INR (length f)) in *. set (q := map (fun _ : R => / n) f).
  assert (Hq : weights (length f) q).
  { split; [apply map_length|]. split.
    - apply Forall_map, Forall_forall. intros. left. apply Rinv_0_lt_compat; exact Hn.
    - unfold q. rewrite rsum_map_const. fold n. apply Rinv_r. lra. }
  pose proof (gibbs_le f q Hne Hq) as H.
  assert (E1 : expect q f = rmean f).
  { unfold expect, q. rewrite map2_map_l, map2_same, rsum_map_scal, map_id. unfold rmean, Rdiv. fold n. ring. }
  assert (E2 : entropy q = 0).
  { unfold entropy. replace (length q) with (length f) by (symmetry; apply map_length). fold n. unfold q. rewrite map_map.
    rewrite (map_ext _ (fun _ => 0)). { rewrite rsum_map_const. ring. }
    intros _. rewrite Rinv_r, ln_1 by lra. ring. }
  lra.
Qed.

Lemma lme_shift c f : f <> [] -> lme (map (fun a => a + c) f) = lme f + c.
Proof.
  intros Hne. unfold lme, sumexp. rewrite map_map, map_length.
  rewrite (map_ext _ (fun a => exp c * exp a)) by (intros; rewrite exp_plus; ring).
  rewrite rsum_map_scal, ln_mult; [rewrite ln_exp; ring|apply exp_pos|apply (sumexp_pos f Hne)].
Qed.

Lemma lme_perm f g : Permutation f g -> lme f = lme g.
Proof.
  intros H. unfold lme, sumexp. rewrite (rsum_perm _ _ (Permutation_map exp H)), (Permutation_length H). reflexivity.
Qed.

Lemma expect_scal q c f : expect q (map (Rmult c) f) = c * expect q f.
Proof.
  unfold expect. rewrite map2_map_r, <- rsum_map2_scal. f_equal. apply map2_ext. intros; ring.
Qed.

Lemma map_neq_nil {A B} (f : A -> B) l : l <> [] -> map f l <> [].
Proof. destruct l; [contradiction|discriminate]. Qed.

(* scaled version: the soft maximum at temperature eps *)
Definition softmaximum (eps : R) (f : list R) : R := eps * lme (map (fun a => a / eps) f).

Lemma expect_div q c f : c <> 0 -> expect q (map (fun a => a / c) f) = expect q f / c.
Proof.
  intros _. rewrite (map_ext _ (Rmult (/ c))) by (intros; unfold Rdiv; ring). rewrite expect_scal. unfold Rdiv; ring.
Qed.

Lemma softmaximum_ge eps f q :
  0 < eps -> f <> [] -> weights (length f) q -> expect q f - eps * entropy q <= softmaximum eps f.
Proof.
  intros He Hne Hq. unfold softmaximum.
  assert (Hw : weights (length (map (fun a => a / eps) f)) q) by (rewrite map_length; exact Hq).
  pose proof (gibbs_le _ q (map_neq_nil (fun a => a / eps) f Hne) Hw) as H.
  rewrite expect_div in H by lra. apply (Rmult_le_compat_l eps) in H; [|lra].
  replace (eps * (expect q f / eps - entropy q)) with (expect q f - eps * entropy q) in H by (field; lra). exact H.
Qed.

Lemma softmaximum_attained eps f :
  0 < eps -> f <> [] ->
  let q := softmax (map (fun a => a / eps) f) in
  weights (length f) q /\ expect q f - eps * entropy q = softmaximum eps f.
Proof.
  intros He Hne q. pose proof (map_neq_nil (fun a => a / eps) f Hne) as Hne'. split.
  - pose proof (softmax_weights _ Hne') as H. rewrite map_length in H. exact H.
  - unfold softmaximum. rewrite <- (gibbs_eq _ Hne'). fold q. rewrite expect_div by lra. field. lra.
Qed.

Lemma softmaximum_antitone e1 e2 f : 0 < e1 -> e1 <= e2 -> f <> [] -> softmaximum e2 f <= softmaximum e1 f.
Proof.
  intros H1 H2 Hne. destruct (softmaximum_attained e2 f ltac:(lra) Hne) as [Hq E].
  set (q := softmax (map (fun a => a / e2) f)) in *.
  rewrite <- E. pose proof (softmaximum_ge e1 f q H1 Hne Hq) as H.
  assert (Hqn : q <> []). { apply map_neq_nil, map_neq_nil, Hne. }
  assert (0 <= entropy q). { apply entropy_nonneg; [exact Hqn|]. destruct Hq as [Hl Hq]. rewrite Hl. split; assumption. }
  assert (e1 * entropy q <= e2 * entropy q) by (apply Rmult_le_compat_r; assumption). lra.
Qed.

Lemma expect_combination q s t f g :
  length f = length g -> length q = length f ->
  expect q (map2 (fun a b => s * a + t * b) f g) = s * expect q f + t * expect q g.
Proof.
  unfold expect. revert g q.
  induction f as [|a f IH]; intros [|b g] [|w q] H1 H2; simpl in *; try discriminate; try ring.
  rewrite IH by (injection H1; injection H2; auto). ring.
Qed.

Lemma softmaximum_convex eps t f g :
  0 < eps -> 0 <= t <= 1 -> f <> [] -> length f = length g ->
  softmaximum eps (map2 (fun a b => t * a + (1 - t) * b) f g) <= t * softmaximum eps f + (1 - t) * softmaximum eps g.
Proof.
  intros He Ht Hne Hlen. set (h := map2 (fun a b => t * a + (1 - t) * b) f g).
  assert (Hh : length h = length f) by (apply map2_length; exact Hlen).
  assert (Hhne : h <> []). { intros E. rewrite E in Hh. destruct f; [contradiction|discriminate]. }
  assert (Hgne : g <> []). { intros E. rewrite E in Hlen. destruct f; [contradiction|discriminate]. }
  destruct (softmaximum_attained eps h He Hhne) as [Hq E].
  set (q := softmax (map (fun a => a / eps) h)) in *. rewrite <- E.
  rewrite Hh in Hq.
  pose proof (softmaximum_ge eps f q He Hne Hq) as H1. rewrite Hlen in Hq.
  pose proof (softmaximum_ge eps g q He Hgne Hq) as H2.
  assert (Ex : expect q h = t * expect q f + (1 - t) * expect q g).
  { apply expect_combination; [exact Hlen|]. destruct Hq as [Hql _]. congruence. }
  rewrite Ex.
  apply (Rmult_le_compat_l t) in H1; [|lra]. apply (Rmult_le_compat_l (1 - t)) in H2; [|lra]. lra.
Qed.

Lemma softmaximum_bounds eps f M :
  0 < eps -> f <> [] -> (forall a, In a f -> a <= M) -> rmean f <= softmaximum eps f <= M.
Proof.
  intros He Hne HM. unfold softmaximum. pose proof (map_neq_nil (fun a => a / eps) f Hne) as Hne'. split.
  - pose proof (lme_lower _ Hne') as H.
    rewrite (map_ext _ (fun a => / eps * a)) in H by (intros; unfold Rdiv; ring).
    rewrite (rmean_map_scal (/ eps) (fun a => a)), map_id in H.
    apply (Rmult_le_compat_l eps) in H; [|lra].
    rewrite (map_ext _ (fun a => / eps * a)) by (intros; unfold Rdiv; ring).
    replace (eps * (/ eps * rmean f)) with (rmean f) in H by (field; lra). exact H.
  - assert (H : lme (map (fun a => a / eps) f) <= M / eps).
    { apply lme_upper; [exact Hne'|]. intros a Ha. apply in_map_iff in Ha. destruct Ha as [b [<- Hb]].
      unfold Rdiv. apply Rmult_le_compat_r; [left; apply Rinv_0_lt_compat; exact He|]. apply HM; exact Hb. }
    apply (Rmult_le_compat_l eps) in H; [|lra]. replace (eps * (M / eps)) with M in H by (field; lra). exact H.
Qed.

Lemma softmaximum_mono eps f g : 0 < eps -> f <> [] -> Forall2 Rle f g -> softmaximum eps f <= softmaximum eps g.
Proof.
  intros He Hne H. unfold softmaximum. apply Rmult_le_compat_l; [lra|]. apply lme_le; [apply map_neq_nil; exact Hne|].
  clear Hne. induction H; simpl; constructor; [|assumption]. unfold Rdiv. apply Rmult_le_compat_r; [|assumption].
  left; apply Rinv_0_lt_compat; exact He.
Qed.

Lemma softmaximum_shift eps c f : 0 < eps -> f <> [] -> softmaximum eps (map (fun a => a + c) f) = softmaximum eps f + c.
Proof.
  intros He Hne. unfold softmaximum. rewrite map_map.
  rewrite (map_ext (fun x => (x + c) / eps) (fun x => x / eps + c / eps)) by (intros; field; lra).
  rewrite <- (map_map (fun a => a / eps) (fun a => a + c / eps)).
  rewrite lme_shift by (apply map_neq_nil; exact Hne). field. lra.
Qed.

Lemma softmaximum_perm eps f g : Permutation f g -> softmaximum eps f = softmaximum eps g.
Proof. intros H. unfold softmaximum. f_equal. apply lme_perm. apply Permutation_map; exact H. Qed.
