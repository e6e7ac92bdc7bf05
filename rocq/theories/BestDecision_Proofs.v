(* Lemmas for the existence of a best newsvendor order and of a best location: Lipschitz objectives without a penalty, orders outside
   the range of the sampled demands, and the growth of the location problem with the sampled weights. *)
From Coq Require Import Reals List Bool String Lra Lia Psatz.
From Verif Require Import PyBase RList XReal LogMeanExp Loss_Model Loss_Spec Loss_Proofs Costs_Proofs Dual_Model Dual_Spec Dual_Proofs Attain Best_Proofs.
Import ListNotations.
Local Open Scope R_scope.
Local Notation length := List.length.

Section Gen.
Variable P : Type.
Variable cost : P -> P -> R.
Variables (n : nat) (rows : list (row P)) (rho eps p : R).
Hypothesis Hb : batch_ok n rows.
Hypothesis He : 0 < eps.
Notation objf l lam := (objective P l cost rho lam eps p rows).

Lemma plain_lip (base : vec -> P -> R) d : (forall r z, In r rows -> In z (r_zeta r) -> forall B, 0 <= B -> exists L, 0 <= L /\ lip_on B d L (fun th => base th z)) ->
  forall B, 0 <= B -> exists L, 0 <= L /\ forall u v s t, box B d u -> box B d v -> Rabs (objf (base u) s - objf (base v) t) <= L * (Rabs (s - t) + dist1 u v).
Proof.
  intros Hlip B HB.
  destruct (finite_samples P rows (fun r z L => lip_on B d L (fun th => base th z))) as (L & HL & QL).
  { intros r z x y Hxy Q u v Hu Hv. eapply Rle_trans; [apply Q; assumption|]. apply Rmult_le_compat_r; [apply dist1_nonneg|exact Hxy]. }
  { intros r z Hr Hz. apply (Hlip r z Hr Hz B HB). }
  destruct (finite_samples P rows (fun r z C => Rabs (cost (r_xi r) z) <= C)) as (C & HC & QC).
  { intros; lra. }
  { intros r z _ _. exists (Rabs (cost (r_xi r) z)). split; [apply Rabs_pos|lra]. }
  set (rp := Rpower rho p). assert (Hrp : 0 < rp) by apply exp_pos.
  exists (L + C + rp). split; [lra|].
  assert (Half : forall u v s t, box B d u -> box B d v -> objf (base u) s <= objf (base v) t + (L + C + rp) * (Rabs (s - t) + dist1 u v)).
  { intros u v s t Hu Hv.
    eapply Rle_trans; [apply (objective_half P cost n rows rho eps p (base u) (base v) s t (L * dist1 u v + C * Rabs (s - t)) Hb He)|].
    - intros r z Hr Hz. pose proof (QL r z Hr Hz u v Hu Hv) as Q1. pose proof (QC r z Hr Hz) as Q3.
      pose proof (Rle_abs (base u z - base v z)).
      assert ((t - s) * cost (r_xi r) z <= C * Rabs (s - t)).
      { eapply Rle_trans; [apply Rle_abs|]. rewrite Rabs_mult, (Rabs_minus_sym t s), Rmult_comm. apply Rmult_le_compat_r; [apply Rabs_pos|exact Q3]. }
      lra.
    - fold rp. pose proof (Rle_abs (s - t)). pose proof (dist1_nonneg u v). pose proof (Rabs_pos (s - t)).
      assert ((s - t) * rp <= Rabs (s - t) * rp) by (apply Rmult_le_compat_r; lra). assert (0 <= L * Rabs (s - t)) by (apply Rmult_le_pos; lra). assert (0 <= (C + rp) * dist1 u v) by (apply Rmult_le_pos; lra). lra. }
  intros u v s t Hu Hv. pose proof (Half u v s t Hu Hv) as H1. pose proof (Half v u t s Hv Hu) as H2.
  assert (D : dist1 v u = dist1 u v).
  { clear. revert v. induction u as [|a u IH]; intros [|b v]; try reflexivity. rewrite !dist1_cons, IH, Rabs_minus_sym. reflexivity. }
  rewrite D, (Rabs_minus_sym t s) in H2. apply Rabs_le. lra.
Qed.

Lemma objective_le l1 l2 lam : (forall r z, In r rows -> In z (r_zeta r) -> l1 z <= l2 z) -> objf l1 lam <= objf l2 lam.
Proof.
  intros H. pose proof (objective_half P cost n rows rho eps p l1 l2 lam lam 0 Hb He) as Q. assert (Z : (lam - lam) * Rpower rho p = 0) by ring. rewrite Z, !Rplus_0_r in Q.
  apply Q. intros r z Hr Hz. specialize (H r z Hr Hz). lra.
Qed.
Lemma objective_ext l1 l2 lam : (forall r z, In r rows -> In z (r_zeta r) -> l1 z = l2 z) -> objf l1 lam = objf l2 lam.
Proof. intros H. apply Rle_antisym; apply objective_le; intros r z Hr Hz; rewrite (H r z Hr Hz); lra. Qed.

(* any adversary gives a lower bound, for a loss that varies with the sample *)
Lemma objective_lower2 l g lam A : adversary n A rows -> (forall r z, In r rows -> In z (r_zeta r) -> g z <= l z) ->
  adv_mean (fun _ z => g z) A rows - eps * adv_entropy A + lam * (Rpower rho p - adv_mean cost A rows) <= objf l lam.
Proof.
  intros HA Hg. pose proof (penalised_le P g cost n lam eps A rows Hb HA He) as Q. unfold penalised in Q. pose proof (objective_le g l lam Hg) as H. unfold objective in H |- *. lra.
Qed.
Lemma expect_affine (f : P -> R) s c : forall q zs, length q = length zs -> rsum q = 1 ->
  rsum (map2 (fun w z => w * (s * f z + c)) q zs) = s * rsum (map2 (fun w z => w * f z) q zs) + c.
Proof.
  intros q zs L S. enough (G : forall q zs, length q = length zs -> rsum (map2 (fun w z => w * (s * f z + c)) q zs) = s * rsum (map2 (fun w z => w * f z) q zs) + c * rsum q) by (rewrite (G q zs L), S; ring).
  clear q zs L S. induction q as [|w q IH]; intros [|z zs] L; try discriminate; [cbn; ring|]. cbn [map2].
  change (w * (s * f z + c) + rsum (map2 (fun w z => w * (s * f z + c)) q zs) = s * (w * f z + rsum (map2 (fun w z => w * f z) q zs)) + c * (w + rsum q)).
  rewrite (IH zs) by (injection L; auto). ring.
Qed.
Lemma adv_affine (f : P -> R) s c A : adversary n A rows -> adv_mean (fun _ z => s * f z + c) A rows = s * adv_mean (fun _ z => f z) A rows + c.
Proof.
  intros [LA FA]. destruct Hb as (_ & Ne & Hz). unfold adv_mean.
  assert (E : map2 (fun q r => rsum (map2 (fun w z => w * (s * f z + c)) q (r_zeta r))) A rows = map (fun a => s * a + c) (map2 (fun q r => rsum (map2 (fun w z => w * f z) q (r_zeta r))) A rows)).
  { clear Ne Hb. revert rows LA Hz. induction FA as [|q A (Lq & _ & Sq) FA IH]; intros [|r rs] LA Hz; try discriminate; [reflexivity|]. cbn [map2 map]. f_equal.
    - apply expect_affine; [rewrite (Forall_inv Hz); exact Lq|exact Sq].
    - apply IH; [injection LA; auto|exact (Forall_inv_tail Hz)]. }
  unfold vec in *. rewrite E. set (ms := map2 _ A rows). assert (Nm : ms <> []). { unfold ms. destruct A, rows; try discriminate; congruence. }
  pose proof (rmean_map_plus (fun a => s * a) (fun _ => c) ms) as Q1. rewrite Q1. rewrite (rmean_map_scal s (fun a => a)), map_id, rmean_map_const by exact Nm. reflexivity.
Qed.
(* the whole weight on one sample *)
Lemma one_sample (f : P -> R) zs z : In z zs -> exists q, weights (length zs) q /\ rsum (map2 (fun w y => w * f y) q zs) = f z.
Proof.
  assert (Zero : forall l : list P, Forall (fun w => 0 <= w) (repeat 0 (length l)) /\ rsum (repeat 0 (length l)) = 0 /\ rsum (map2 (fun w y => w * f y) (repeat 0 (length l)) l) = 0).
  { induction l as [|y l (F & S & E)]; [split; [constructor|split; reflexivity]|]. cbn [length repeat map2]. split; [constructor; [lra|exact F]|].
    split; [change (0 + rsum (repeat 0 (length l)) = 0); rewrite S; ring|]. change (0 * f y + rsum (map2 (fun w y => w * f y) (repeat 0 (length l)) l) = 0). rewrite E. ring. }
  induction zs as [|y zs IH]; intros Hz; [destruct Hz|]. destruct Hz as [<-|Hz].
  - destruct (Zero zs) as (F & S & E). exists (1 :: repeat 0 (length zs)). split.
    + split; [cbn; rewrite repeat_length; reflexivity|]. split; [constructor; [lra|exact F]|]. change (1 + rsum (repeat 0 (length zs)) = 1). rewrite S. ring.
    + cbn [map2]. change (1 * f y + rsum (map2 (fun w y => w * f y) (repeat 0 (length zs)) zs) = f y). rewrite E. ring.
  - destruct (IH Hz) as (q & (Lq & Fq & Sq) & E). exists (0 :: q). split.
    + split; [cbn; f_equal; exact Lq|]. split; [constructor; [lra|exact Fq]|]. change (0 + rsum q = 1). rewrite Sq. ring.
    + cbn [map2]. change (0 * f y + rsum (map2 (fun w y => w * f y) q zs) = f z). rewrite E. ring.
Qed.
Lemma largest (f : P -> R) zs : zs <> [] -> exists z, In z zs /\ forall y, In y zs -> f y <= f z.
Proof.
  induction zs as [|y zs IH]; intros N; [congruence|]. destruct zs as [|y' zs]; [exists y; split; [left; reflexivity|intros ? [<-|[]]; lra]|].
  destruct (IH ltac:(discriminate)) as (z & Hz & Q). destruct (Rle_or_lt (f y) (f z)) as [H|H].
  - exists z. split; [right; exact Hz|]. intros x [<-|Hx]; [exact H|apply Q; exact Hx].
  - exists y. split; [left; reflexivity|]. intros x [<-|Hx]; [lra|]. specialize (Q x Hx). lra.
Qed.
(* the adversary that picks the largest value at every point, with bounds for all samples *)
Lemma worst_adversary (f : P -> R) : exists A (top : row P -> R), adversary n A rows /\ adv_mean (fun _ z => f z) A rows = rmean (map top rows) /\
  forall r z, In r rows -> In z (r_zeta r) -> f z <= top r.
Proof.
  destruct Hb as (Hn & Ne & Hz). set (top := fun r : row P => match r_zeta r with [] => 0 | z :: zs => rmaxl (f z) (map f zs) end).
  assert (M : forall (l : list R) a, In (rmaxl a l) (a :: l) /\ forall b, In b (a :: l) -> b <= rmaxl a l).
  { induction l as [|b l IH]; intros a; cbn [rmaxl]; [split; [left; reflexivity|intros b [<-|[]]; lra]|]. destruct (IH (Rmax a b)) as (I & Q). split.
    - destruct I as [I|I]; [|right; right; exact I]. rewrite <- I. unfold Rmax. destruct (Rle_dec a b); [right; left; reflexivity|left; reflexivity].
    - intros c [<-|[<-|Hc]]; [eapply Rle_trans; [apply (Rmax_l a b)|apply Q; left; reflexivity]|eapply Rle_trans; [apply (Rmax_r a b)|apply Q; left; reflexivity]|apply Q; right; exact Hc]. }
  assert (T : forall r, r_zeta r <> [] -> (exists z, In z (r_zeta r) /\ f z = top r) /\ forall z, In z (r_zeta r) -> f z <= top r).
  { intros r N. unfold top. destruct (r_zeta r) as [|z zs]; [congruence|]. destruct (M (map f zs) (f z)) as (I & Q). split.
    - change (f z :: map f zs) with (map f (z :: zs)) in I. apply in_map_iff in I as (y & E & Hy). exists y. auto.
    - intros y Hy. apply Q. change (f z :: map f zs) with (map f (z :: zs)). apply in_map. exact Hy. }
  assert (Nz : forall r, In r rows -> r_zeta r <> []) by (apply (batch_nonempty P n); exact Hb).
  assert (B : exists A, adversary n A rows /\ map2 (fun q r => rsum (map2 (fun w z => w * f z) q (r_zeta r))) A rows = map top rows).
  { clear Ne Hb. revert Hz Nz. induction rows as [|r rs IH]; intros Hz Nz; [exists []; split; [split; [reflexivity|constructor]|reflexivity]|].
    destruct IH as (A & [LA FA] & E); [exact (Forall_inv_tail Hz)|intros x Hx; apply Nz; right; exact Hx|].
    destruct (T r (Nz r (or_introl eq_refl))) as [(z & Hin & Ez) _]. destruct (one_sample f (r_zeta r) z Hin) as (q & Wq & Eq). rewrite (Forall_inv Hz) in Wq.
    exists (q :: A). split; [split; [cbn; f_equal; exact LA|constructor; assumption]|]. cbn [map2 map]. f_equal; [rewrite Eq; exact Ez|exact E]. }
  destruct B as (A & HA & E). exists A, top. split; [exact HA|]. split; [unfold adv_mean; unfold vec in *; rewrite E; reflexivity|].
  intros r z Hr Hin. apply (T r (Nz r Hr)). exact Hin.
Qed.
(* an upper bound per data point *)
Lemma objective_upper l lam (top : row P -> R) : (forall r z, In r rows -> In z (r_zeta r) -> l z - lam * cost (r_xi r) z <= top r) ->
  objf l lam <= lam * Rpower rho p + rmean (map top rows).
Proof.
  intros H. unfold objective. apply Rplus_le_compat_l. apply rmean_map_le. intros r Hr. unfold soft.
  apply softmaximum_bounds; [exact He|exact (pen_ne P l cost n rows lam r Hb Hr)|]. intros a Ha. unfold pen in Ha. apply in_map_iff in Ha as (z & <- & Hz). apply H; assumption.
Qed.
End Gen.

(* ---------- the newsvendor ---------- *)
Definition order_loss (k u theta : R) (x : vec) : R := k * theta - u * Rmin theta (hd 0 x).
Definition clamp (lo hi t : R) : R := Rmax lo (Rmin hi t).
Lemma clamp_in lo hi t : lo <= hi -> lo <= clamp lo hi t <= hi.
Proof. intros H. unfold clamp, Rmax, Rmin. destruct (Rle_dec hi t), (Rle_dec lo _); lra. Qed.
Lemma clamp_better k u lo hi t x : 0 <= k <= u -> lo <= hd 0 x <= hi -> order_loss k u (clamp lo hi t) x <= order_loss k u t x.
Proof. intros Hk Hx. unfold order_loss, clamp, Rmax, Rmin. repeat destruct (Rle_dec _ _); nra. Qed.
Lemma clamp_strict k u lo hi t x : 0 < k < u -> lo <= hd 0 x <= hi -> t < lo \/ hi < t -> order_loss k u (clamp lo hi t) x < order_loss k u t x.
Proof. intros Hk Hx Ht. unfold order_loss, clamp, Rmax, Rmin. repeat destruct (Rle_dec _ _); nra. Qed.
Lemma order_lip k u s t x : Rabs (order_loss k u s x - order_loss k u t x) <= (Rabs k + Rabs u) * Rabs (s - t).
Proof.
  unfold order_loss. replace (k * s - u * Rmin s (hd 0 x) - (k * t - u * Rmin t (hd 0 x))) with (k * (s - t) + - u * (Rmin s (hd 0 x) - Rmin t (hd 0 x))) by ring.
  eapply Rle_trans; [apply Rabs_triang|]. rewrite !Rabs_mult, Rabs_Ropp.
  assert (Rabs (Rmin s (hd 0 x) - Rmin t (hd 0 x)) <= Rabs (s - t)) by (unfold Rmin, Rabs; repeat destruct (Rle_dec _ _); repeat destruct (Rcase_abs _); lra).
  pose proof (Rabs_pos u). nra.
Qed.

Section News.
Variable cost : vec -> vec -> R.
Variables (n : nat) (rows : list (row vec)) (rho eps p k u : R).
Hypothesis Hb : batch_ok n rows.
Hypothesis He : 0 < eps.
Definition news (lam theta : R) : R := objective vec (order_loss k u theta) cost rho lam eps p rows.

Lemma demand_range : exists lo hi, lo <= hi /\ forall r z, In r rows -> In z (r_zeta r) -> lo <= hd 0 z <= hi.
Proof.
  destruct (finite_samples vec rows (fun r z X => Rabs (hd 0 z) <= X)) as (X & HX & QX).
  { intros; lra. }
  { intros r z _ _. exists (Rabs (hd 0 z)). split; [apply Rabs_pos|lra]. }
  exists (- X), X. split; [lra|]. intros r z Hr Hz. specialize (QX r z Hr Hz). revert QX. unfold Rabs. destruct (Rcase_abs _); lra.
Qed.
Lemma news_lip B : 0 <= B -> exists L, 0 <= L /\ forall s t a b, Rabs a <= B -> Rabs b <= B -> Rabs (news s a - news t b) <= L * (Rabs (s - t) + Rabs (a - b)).
Proof.
  intros HB. destruct (plain_lip vec cost n rows rho eps p Hb He (fun th => order_loss k u (hd 0 th)) 1) with (B := B) as (L & HL & Q); [|exact HB|].
  - intros r z _ _ B' _. exists (Rabs k + Rabs u). split; [pose proof (Rabs_pos k); pose proof (Rabs_pos u); lra|]. intros a b [La _] [Lb _].
    destruct a as [|a [|]]; try discriminate. destruct b as [|b [|]]; try discriminate. cbn [hd]. rewrite dist1_cons. unfold dist1. cbn [map2]. change (rsum []) with 0. rewrite Rplus_0_r. apply order_lip.
  - exists L. split; [exact HL|]. intros s t a b Ha Hb'. specialize (Q [a] [b] s t). cbn [hd] in Q. rewrite dist1_cons in Q. unfold dist1 in Q. cbn [map2] in Q. change (rsum []) with 0 in Q. rewrite Rplus_0_r in Q.
    apply Q; (split; [reflexivity|constructor; [assumption|constructor]]).
Qed.
Lemma news_clamp lo hi lam theta : 0 <= k <= u -> (forall r z, In r rows -> In z (r_zeta r) -> lo <= hd 0 z <= hi) -> news lam (clamp lo hi theta) <= news lam theta.
Proof. intros Hk HR. apply (objective_le vec cost n rows rho eps p Hb He). intros r z Hr Hz. apply clamp_better; [exact Hk|apply (HR r z Hr Hz)]. Qed.

Lemma in_box (lo hi a : R) : lo <= a <= hi -> Rabs a <= Rmax (Rabs lo) (Rabs hi).
Proof. intros H. unfold Rmax, Rabs. destruct (Rle_dec _ _); repeat destruct (Rcase_abs _); lra. Qed.
Lemma news_fixed lo hi lam : 0 <= k <= u -> lo <= hi -> (forall r z, In r rows -> In z (r_zeta r) -> lo <= hd 0 z <= hi) ->
  exists theta, lo <= theta <= hi /\ forall theta', news lam theta <= news lam theta'.
Proof.
  intros Hk HL HR. set (B := Rmax (Rabs lo) (Rabs hi)). assert (HB : 0 <= B) by (unfold B; eapply Rle_trans; [apply Rabs_pos|apply Rmax_l]).
  destruct (news_lip B HB) as (L & HL0 & Q).
  destruct (box_min 1 B L (fun v => news lam (clamp lo hi (hd 0 v)))) as (v & [Lv _] & M); [exact HB|exact HL0| |].
  - intros a b [La _] [Lb _]. destruct a as [|a [|]]; try discriminate. destruct b as [|b [|]]; try discriminate. cbn [hd]. rewrite dist1_cons. unfold dist1. cbn [map2]. change (rsum []) with 0. rewrite Rplus_0_r.
    eapply Rle_trans; [apply Q; apply in_box; apply clamp_in; exact HL|]. replace (lam - lam) with 0 by ring. rewrite Rabs_R0, Rplus_0_l. apply Rmult_le_compat_l; [exact HL0|].
    unfold clamp, Rmax, Rmin, Rabs. repeat destruct (Rle_dec _ _); repeat destruct (Rcase_abs _); lra.
  - exists (clamp lo hi (hd 0 v)). split; [apply clamp_in; exact HL|]. intros theta'. eapply Rle_trans; [|apply (news_clamp lo hi lam theta' Hk HR)].
    pose proof (clamp_in lo hi theta' HL) as CI. specialize (M [clamp lo hi theta']). cbn [hd] in M.
    replace (clamp lo hi (clamp lo hi theta')) with (clamp lo hi theta') in M by (unfold clamp at 2; rewrite (Rmin_right hi) by lra; rewrite Rmax_right; lra).
    apply M. split; [reflexivity|constructor; [apply in_box; exact CI|constructor]].
Qed.
Lemma news_joint A : 0 <= k <= u -> adversary n A rows -> adv_mean cost A rows < Rpower rho p ->
  exists lam theta, 0 <= lam /\ forall lam' theta', 0 <= lam' -> news lam theta <= news lam' theta'.
Proof.
  intros Hk HA Gap. destruct demand_range as (lo & hi & HL & HR). set (gap := Rpower rho p - adv_mean cost A rows). assert (Hg : 0 < gap) by (unfold gap; lra).
  set (B := Rmax (Rabs lo) (Rabs hi)). assert (HB : 0 <= B) by (unfold B; eapply Rle_trans; [apply Rabs_pos|apply Rmax_l]).
  set (low := - (Rabs k + Rabs u) * B - eps * adv_entropy A).
  assert (Low : forall lam theta, Rabs theta <= B -> low + lam * gap <= news lam theta).
  { intros lam theta Ht. unfold low, gap, news. apply (objective_lower vec cost n rows rho lam eps p (order_loss k u theta) A (- (Rabs k + Rabs u) * B) Hb He HA).
    intros r z Hr Hz. unfold order_loss. pose proof (in_box lo hi (hd 0 z) (HR r z Hr Hz)) as Hx. fold B in Hx.
    assert (Hm : Rabs (Rmin theta (hd 0 z)) <= B) by (unfold Rmin; destruct (Rle_dec _ _); assumption).
    pose proof (Rle_abs (- (k * theta))) as E1. rewrite Rabs_Ropp, Rabs_mult in E1. pose proof (Rle_abs (u * Rmin theta (hd 0 z))) as E2. rewrite Rabs_mult in E2.
    pose proof (Rabs_pos k). pose proof (Rabs_pos u). nra. }
  destruct (news_lip B HB) as (L & HL0 & Q). set (G := fun v : vec => news (Rabs (hd 0 v)) (clamp lo hi (hd 0 (tl v)))).
  set (g0 := G [0; 0]). set (K := Rmax B ((g0 - low) / gap)). assert (HK : B <= K) by apply Rmax_l.
  destruct (box_min 2 K L G) as (v & [Lv _] & M); [lra|exact HL0| |].
  - intros a b [La _] [Lb _]. destruct a as [|s [|a [|]]]; try discriminate. destruct b as [|t [|b [|]]]; try discriminate. unfold G. cbn [hd tl]. rewrite !dist1_cons. unfold dist1. cbn [map2]. change (rsum []) with 0. rewrite Rplus_0_r.
    eapply Rle_trans; [apply Q; apply in_box; apply clamp_in; exact HL|]. apply Rmult_le_compat_l; [exact HL0|]. pose proof (Rabs_triang_inv2 s t).
    assert (Rabs (clamp lo hi a - clamp lo hi b) <= Rabs (a - b)) by (unfold clamp, Rmax, Rmin, Rabs; repeat destruct (Rle_dec _ _); repeat destruct (Rcase_abs _); lra). lra.
  - exists (Rabs (hd 0 v)), (clamp lo hi (hd 0 (tl v))). split; [apply Rabs_pos|]. intros lam' theta' Hl. change (G v <= news lam' theta').
    eapply Rle_trans; [|apply (news_clamp lo hi lam' theta' Hk HR)]. pose proof (clamp_in lo hi theta' HL) as CI. pose proof (in_box _ _ _ CI) as CB. fold B in CB.
    destruct (Rle_or_lt lam' K) as [I|I].
    + specialize (M [lam'; clamp lo hi theta']). unfold G in M at 2. cbn [hd tl] in M. rewrite (Rabs_pos_eq lam' Hl) in M.
      replace (clamp lo hi (clamp lo hi theta')) with (clamp lo hi theta') in M by (unfold clamp at 2; rewrite (Rmin_right hi) by lra; rewrite Rmax_right; lra).
      apply M. split; [reflexivity|]. constructor; [rewrite Rabs_pos_eq; assumption|]. constructor; [lra|constructor].
    + eapply Rle_trans; [apply (M [0; 0]); split; [reflexivity|repeat (constructor; [rewrite Rabs_R0; lra|]); constructor]|]. fold g0.
      eapply Rle_trans; [|apply Low; exact CB]. assert (X : (g0 - low) / gap < lam') by (eapply Rle_lt_trans; [apply Rmax_r|exact I]).
      apply (Rmult_lt_compat_r gap) in X; [|exact Hg]. replace ((g0 - low) / gap * gap) with (g0 - low) in X by (field; lra). lra.
Qed.
(* an order price outside [0, u]: the objective falls without end *)
Lemma news_unbounded lam : ~ (0 <= k <= u) -> forall bound, exists theta, news lam theta < bound.
Proof.
  intros Hk bound. destruct demand_range as (lo & hi & HL & HR). destruct (Rle_or_lt 0 k) as [K0|K0].
  - assert (KU : 0 < k - u) by lra. set (c := objective vec (fun _ => 0) cost rho lam eps p rows). set (theta := Rmin lo ((bound - c - 1) / (k - u))).
    exists theta. assert (T1 : theta <= lo) by apply Rmin_l. assert (T2 : theta <= (bound - c - 1) / (k - u)) by apply Rmin_r.
    assert (E : news lam theta = c + (k - u) * theta).
    { unfold news, c. rewrite <- (objective_shift vec cost n rows rho eps p (fun _ => 0) lam ((k - u) * theta) Hb He). apply (objective_ext vec cost n rows rho eps p Hb He).
      intros r z Hr Hz. unfold order_loss. rewrite Rmin_left by (pose proof (HR r z Hr Hz); lra). ring. }
    rewrite E. apply (Rmult_le_compat_l (k - u)) in T2; [|lra]. replace ((k - u) * ((bound - c - 1) / (k - u))) with (bound - c - 1) in T2 by (field; lra). lra.
  - set (c := objective vec (fun z => - u * hd 0 z) cost rho lam eps p rows). set (theta := Rmax hi ((bound - c - 1) / k)).
    exists theta. assert (T1 : hi <= theta) by apply Rmax_l. assert (T2 : (bound - c - 1) / k <= theta) by apply Rmax_r.
    assert (E : news lam theta = c + k * theta).
    { unfold news, c. rewrite <- (objective_shift vec cost n rows rho eps p (fun z => - u * hd 0 z) lam (k * theta) Hb He). apply (objective_ext vec cost n rows rho eps p Hb He).
      intros r z Hr Hz. unfold order_loss. rewrite Rmin_right by (pose proof (HR r z Hr Hz); lra). ring. }
    rewrite E. apply (Rmult_le_compat_neg_l k) in T2; [|lra]. replace (k * ((bound - c - 1) / k)) with (bound - c - 1) in T2 by (field; lra). lra.
Qed.
End News.

(* ---------- the location problem ---------- *)
Lemma vsub_add (x y z : vec) : length x = length y -> length y = length z -> vadd (vsub x y) (vsub y z) = vsub x z.
Proof. revert y z. induction x as [|a x IH]; intros [|b y] [|c z] L1 L2; try discriminate; [reflexivity|]. unfold vadd, vsub in *. cbn [map2]. rewrite IH by (injection L1; injection L2; auto). f_equal. ring. Qed.
Lemma norm2_dist1 : forall u v : vec, length u = length v -> norm2 (vsub u v) <= dist1 u v.
Proof.
  intros u v L. pose proof (dist1_nonneg u v) as D. unfold norm2. rewrite <- (sqrt_square (dist1 u v)) by exact D. apply sqrt_le_1_alt.
  clear D. revert v L. induction u as [|a u IH]; intros [|b v] L; try discriminate; [unfold sqnorm, dot, dist1; cbn; lra|].
  rewrite dist1_cons. change (sqnorm (vsub (a :: u) (b :: v))) with ((a - b) * (a - b) + sqnorm (vsub u v)). assert (IH' : sqnorm (vsub u v) <= dist1 u v * dist1 u v) by (apply IH; injection L; auto).
  pose proof (dist1_nonneg u v). pose proof (Rabs_pos (a - b)). assert ((a - b) * (a - b) = Rabs (a - b) * Rabs (a - b)) by (unfold Rabs; destruct (Rcase_abs _); ring). nra.
Qed.
Lemma norm2_flip (u v : vec) : norm2 (vsub u v) = norm2 (vsub v u).
Proof.
  unfold norm2. f_equal. revert v. induction u as [|a u IH]; intros [|b v]; try reflexivity.
  change ((a - b) * (a - b) + sqnorm (vsub u v) = (b - a) * (b - a) + sqnorm (vsub v u)). rewrite IH. ring.
Qed.
Lemma norm2_tri (x y z : vec) : length x = length y -> length y = length z -> norm2 (vsub x z) <= norm2 (vsub x y) + norm2 (vsub y z).
Proof. intros L1 L2. rewrite <- (vsub_add x y z L1 L2). apply norm2_triangle. unfold vsub. unfold vec in *. rewrite !map2_length; congruence. Qed.
Definition site_loss (reg : R) (pos : vec) (z : vec * vec) : R := hd 0 (snd z) * norm2 (vsub (fst z) pos) + reg / 2 * sqnorm pos.
Lemma vsub_zero (x : vec) : vsub x (repeat 0 (length x)) = x.
Proof. induction x as [|a x IH]; [reflexivity|]. change (a - 0 :: vsub x (repeat 0 (length x)) = a :: x). rewrite IH. f_equal. ring. Qed.
Lemma norm2_pos (x : vec) : 0 <= norm2 x.
Proof. apply sqrt_pos. Qed.
(* the distance to a far site is the size of its position, up to the size of the sample *)
Lemma far (x pos : vec) : length x = length pos -> norm2 pos - norm2 x <= norm2 (vsub x pos) <= norm2 pos + norm2 x.
Proof.
  intros L. set (o := repeat 0 (length x) : vec). assert (Lo : length o = length x) by apply repeat_length.
  assert (Eo : vsub x o = x) by apply vsub_zero. assert (Ep : vsub pos o = pos) by (unfold o; unfold vec in *; rewrite L; apply vsub_zero).
  pose proof (norm2_tri pos x o (eq_sym L) (eq_sym Lo)) as T1. rewrite Eo, Ep, (norm2_flip pos x) in T1.
  assert (L2 : length o = length pos) by (unfold vec in *; congruence). pose proof (norm2_tri x o pos (eq_sym Lo) L2) as T2. rewrite Eo, (norm2_flip o pos), Ep in T2. lra.
Qed.

Section Site.
Variable cost : vec * vec -> vec * vec -> R.
Variables (d n : nat) (rows : list (row (vec * vec))) (rho eps p reg : R).
Hypothesis Hb : batch_ok n rows.
Hypothesis He : 0 < eps.
Hypothesis Hw : forall r z, In r rows -> In z (r_zeta r) -> length (fst z) = d.
Notation weight z := (hd 0 (snd z)).
Definition site (lam : R) (pos : vec) : R := objective (vec * vec) (site_loss reg pos) cost rho lam eps p rows.

Lemma site_lip B : 0 <= B -> exists L, 0 <= L /\ forall u v s t, box B d u -> box B d v -> Rabs (site s u - site t v) <= L * (Rabs (s - t) + dist1 u v).
Proof.
  intros HB. apply (plain_lip (vec * vec) cost n rows rho eps p Hb He (site_loss reg) d); [|exact HB].
  intros r z Hr Hz B' HB'. exists (Rabs (weight z) + Rabs reg * B'). pose proof (Rabs_pos (weight z)) as W0. pose proof (Rabs_pos reg) as R0. split; [nra|].
  intros u v Hu Hv. pose proof (sqnorm_lip B' d u v HB' Hu Hv) as S. destruct Hu as [Lu _], Hv as [Lv _]. pose proof (Hw r z Hr Hz) as Lz. unfold site_loss.
  replace (weight z * norm2 (vsub (fst z) u) + reg / 2 * sqnorm u - (weight z * norm2 (vsub (fst z) v) + reg / 2 * sqnorm v))
    with (weight z * (norm2 (vsub (fst z) u) - norm2 (vsub (fst z) v)) + reg * ((sqnorm u - sqnorm v) / 2)) by field.
  eapply Rle_trans; [apply Rabs_triang|]. rewrite !Rabs_mult.
  assert (N : Rabs (norm2 (vsub (fst z) u) - norm2 (vsub (fst z) v)) <= dist1 u v).
  { assert (L1 : length (fst z) = length v) by (unfold vec in *; congruence). assert (L2 : length v = length u) by (unfold vec in *; congruence). assert (L3 : length (fst z) = length u) by (unfold vec in *; congruence).
    pose proof (norm2_tri (fst z) v u L1 L2) as T1. pose proof (norm2_tri (fst z) u v L3 (eq_sym L2)) as T2. rewrite (norm2_flip v u) in T1. pose proof (norm2_dist1 u v (eq_sym L2)). apply Rabs_le. lra. }
  assert (S2 : Rabs ((sqnorm u - sqnorm v) / 2) <= B' * dist1 u v) by (unfold Rdiv; rewrite Rabs_mult, (Rabs_pos_eq (/ 2)) by lra; lra).
  apply (Rmult_le_compat_l _ _ _ W0) in N. apply (Rmult_le_compat_l _ _ _ R0) in S2. lra.
Qed.
(* bounds that hold for all samples *)
Lemma site_bound : exists C, 0 <= C /\ forall r z pos, In r rows -> In z (r_zeta r) -> length pos = d ->
  norm2 pos * weight z - C <= weight z * norm2 (vsub (fst z) pos) <= norm2 pos * weight z + C.
Proof.
  destruct (finite_samples (vec * vec) rows (fun r z X => Rabs (weight z) * norm2 (fst z) <= X)) as (C & HC & Q).
  { intros; lra. }
  { intros r z _ _. exists (Rabs (weight z) * norm2 (fst z)). split; [apply Rmult_le_pos; [apply Rabs_pos|apply norm2_pos]|lra]. }
  exists C. split; [exact HC|]. intros r z pos Hr Hz Lp. specialize (Q r z Hr Hz). pose proof (Hw r z Hr Hz) as Lz. assert (L : length (fst z) = length pos) by (unfold vec in *; congruence).
  destruct (far (fst z) pos L) as [F1 F2]. set (w := weight z) in *. set (nd := norm2 (vsub (fst z) pos)) in *. set (np := norm2 pos) in *. set (nx := norm2 (fst z)) in *.
  revert Q. unfold Rabs. destruct (Rcase_abs w); intros Q; nra.
Qed.
Lemma site_low A : adversary n A rows -> exists C, 0 <= C /\ forall lam pos, length pos = d ->
  norm2 pos * adv_mean (fun _ z => weight z) A rows - C + reg / 2 * sqnorm pos - eps * adv_entropy A + lam * (Rpower rho p - adv_mean cost A rows) <= site lam pos.
Proof.
  intros HA. destruct site_bound as (C & HC & Q). exists C. split; [exact HC|]. intros lam pos Lp.
  pose proof (objective_lower2 (vec * vec) cost n rows rho eps p Hb He (site_loss reg pos) (fun z => norm2 pos * weight z + (- C + reg / 2 * sqnorm pos)) lam A HA) as T.
  pose proof (adv_affine (vec * vec) n rows Hb (fun z => weight z) (norm2 pos) (- C + reg / 2 * sqnorm pos) A HA) as Af. unfold site.
  enough (forall r z, In r rows -> In z (r_zeta r) -> norm2 pos * weight z + (- C + reg / 2 * sqnorm pos) <= site_loss reg pos z) by (specialize (T H); cbv beta in T, Af; unfold vec in *; lra).
  intros r z Hr Hz. unfold site_loss. destruct (Q r z pos Hr Hz Lp). lra.
Qed.
Lemma norm2_box v N : norm2 v <= N -> box (1 + N * N) (length v) v.
Proof.
  intros H. apply sqnorm_box. pose proof (norm2_pos v). replace (sqnorm v) with (norm2 v * norm2 v) by (unfold norm2; apply sqrt_sqrt, sqnorm_nonneg). nra.
Qed.
(* growth with the size of the position *)
Lemma grows mu c : 0 <= reg -> 0 < reg \/ 0 < mu -> exists N, 0 <= N /\ forall pos, norm2 pos * mu + reg / 2 * sqnorm pos <= c -> norm2 pos <= N.
Proof.
  intros R0 H. assert (Sq : forall v, sqnorm v = norm2 v * norm2 v) by (intros v; unfold norm2; symmetry; apply sqrt_sqrt, sqnorm_nonneg).
  destruct (Rle_or_lt reg 0) as [Z|Pz].
  - assert (M : 0 < mu) by lra. exists (Rabs c / mu). split; [apply Rmult_le_pos; [apply Rabs_pos|left; apply Rinv_0_lt_compat; exact M]|]. intros pos Q. assert (reg = 0) by lra. subst reg.
    apply (Rmult_le_reg_r mu); [exact M|]. replace (Rabs c / mu * mu) with (Rabs c) by (field; lra). pose proof (Rle_abs c). lra.
  - set (N := 1 + 2 * (Rabs c + Rabs mu) / reg). assert (HN : 1 <= N).
    { unfold N. assert (0 <= 2 * (Rabs c + Rabs mu) / reg); [|lra]. apply Rmult_le_pos; [pose proof (Rabs_pos c); pose proof (Rabs_pos mu); lra|left; apply Rinv_0_lt_compat; exact Pz]. }
    exists N. split; [lra|]. intros pos Q. rewrite Sq in Q. destruct (Rle_or_lt (norm2 pos) N) as [I|I]; [exact I|exfalso].
    assert (E : reg / 2 * N = reg / 2 + Rabs c + Rabs mu) by (unfold N; field; lra). set (s := norm2 pos) in *.
    assert (G1 : reg / 2 * N * s <= reg / 2 * s * s) by (assert (0 <= reg / 2 * s) by nra; nra). rewrite E in G1. pose proof (Rle_abs (- mu)) as A1. rewrite Rabs_Ropp in A1. pose proof (Rle_abs c). pose proof (Rabs_pos c). pose proof (Rabs_pos mu). nra.
Qed.
Lemma site_fixed A lam : 0 <= reg -> adversary n A rows -> 0 < reg \/ 0 < adv_mean (fun _ z => weight z) A rows ->
  exists pos, length pos = d /\ forall pos', length pos' = d -> site lam pos <= site lam pos'.
Proof.
  intros R0 HA H. destruct (site_low A HA) as (C & HC & Low). set (g0 := site lam (repeat 0 d)).
  destruct (grows (adv_mean (fun _ z => weight z) A rows) (g0 + C + eps * adv_entropy A - lam * (Rpower rho p - adv_mean cost A rows)) R0 H) as (N & HN & G).
  apply (attains d (site lam) (1 + N * N) (repeat 0 d)).
  - apply repeat_length.
  - intros B HB. destruct (site_lip B HB) as (L & HL & Q). exists L. split; [exact HL|]. intros u v Hu Hv. specialize (Q u v lam lam Hu Hv). replace (lam - lam) with 0 in Q by ring. rewrite Rabs_R0, Rplus_0_l in Q. exact Q.
  - intros v Lv Hv. fold g0 in Hv. rewrite <- Lv. apply norm2_box. apply G. pose proof (Low lam v Lv). lra.
Qed.
Lemma site_joint A : 0 <= reg -> adversary n A rows -> adv_mean cost A rows < Rpower rho p -> 0 < reg \/ 0 < adv_mean (fun _ z => weight z) A rows ->
  exists lam pos, 0 <= lam /\ length pos = d /\ forall lam' pos', 0 <= lam' -> length pos' = d -> site lam pos <= site lam' pos'.
Proof.
  intros R0 HA Gap H. destruct (site_low A HA) as (C & HC & Low). set (mu := adv_mean (fun _ z => weight z) A rows) in *. set (gap := Rpower rho p - adv_mean cost A rows) in *.
  assert (Hg : 0 < gap) by (unfold gap; lra). set (G := fun v : vec => site (Rabs (hd 0 v)) (tl v)). set (g0 := G (repeat 0 (S d))).
  (* the part that does not depend on the multiplier is bounded below *)
  assert (Below : exists m, 0 <= m /\ forall s, 0 <= s -> - m <= s * mu + reg / 2 * (s * s)).
  { destruct (Rle_or_lt reg 0) as [Z|Pz]; [exists 0; split; [lra|]; intros s Hs; assert (reg = 0) by lra; nra|]. exists (mu * mu / (2 * reg)).
    split; [apply Rmult_le_pos; [nra|left; apply Rinv_0_lt_compat; lra]|]. intros s Hs. apply (Rmult_le_reg_r (2 * reg)); [lra|]. replace (- (mu * mu / (2 * reg)) * (2 * reg)) with (- (mu * mu)) by (field; lra). pose proof (Rle_0_sqr (reg * s + mu)) as Q. unfold Rsqr in Q. lra. }
  destruct Below as (m & Hm & Below).
  destruct (grows mu (g0 + C + eps * adv_entropy A) R0 H) as (N & HN & Gr). set (K := (g0 + C + eps * adv_entropy A + m) / gap).
  destruct (attains (S d) G (Rmax (1 + N * N) K) (repeat 0 (S d))) as (u & Lu & Q).
  - apply repeat_length.
  - intros B HB. destruct (site_lip B HB) as (L & HL & Q). exists L. split; [exact HL|]. intros u v [Lu Fu] [Lv Fv].
    destruct u as [|s u]; [discriminate|]. destruct v as [|t v]; [discriminate|]. unfold G. cbn [hd tl]. rewrite dist1_cons.
    injection Lu as Lu. injection Lv as Lv. eapply Rle_trans; [apply (Q u v); split; [exact Lu|exact (Forall_inv_tail Fu)|exact Lv|exact (Forall_inv_tail Fv)]|].
    apply Rmult_le_compat_l; [exact HL|]. pose proof (Rabs_triang_inv2 s t). lra.
  - intros v Lv Hv. destruct v as [|t v]; [discriminate|]. injection Lv as Lv. fold g0 in Hv. unfold G in Hv. cbn [hd tl] in Hv.
    pose proof (Low (Rabs t) v Lv) as L0. pose proof (Rabs_pos t) as T0. assert (Tg : 0 <= Rabs t * gap) by (apply Rmult_le_pos; lra).
    assert (Sq : sqnorm v = norm2 v * norm2 v) by (unfold norm2; symmetry; apply sqrt_sqrt, sqnorm_nonneg).
    assert (Nv : norm2 v <= N) by (apply Gr; lra). pose proof (Below (norm2 v) (norm2_pos v)) as Bl. rewrite <- Sq in Bl.
    apply box_cons.
    + eapply Rle_trans; [|apply Rmax_r]. apply (Rmult_le_reg_r gap); [exact Hg|]. unfold K. replace ((g0 + C + eps * adv_entropy A + m) / gap * gap) with (g0 + C + eps * adv_entropy A + m) by (field; lra). lra.
    + eapply box_mono; [apply Rmax_l|]. rewrite <- Lv. apply norm2_box. exact Nv.
  - destruct u as [|t u]; [discriminate|]. injection Lu as Lu. exists (Rabs t), u. split; [apply Rabs_pos|]. split; [exact Lu|]. intros lam' pos' Hl Lp. specialize (Q (lam' :: pos')). unfold G in Q. cbn [hd tl] in Q.
    rewrite (Rabs_pos_eq lam' Hl) in Q. apply Q. cbn. f_equal. exact Lp.
Qed.
(* without a penalty, weights that every adversary finds negative on average: the objective falls without end *)
Lemma site_unbounded lam : reg = 0 -> (0 < d)%nat -> (forall A, adversary n A rows -> adv_mean (fun _ z => weight z) A rows < 0) ->
  forall bound, exists pos, length pos = d /\ site lam pos < bound.
Proof.
  intros R0 Hd Neg bound. destruct (worst_adversary (vec * vec) n rows Hb (fun z => weight z)) as (A & top & HA & E & T). assert (Ng : rmean (map top rows) < 0) by (rewrite <- E; exact (Neg A HA)). set (mu := rmean (map top rows)) in *.
  destruct site_bound as (C & HC & Q).
  destruct (finite_samples (vec * vec) rows (fun r z X => Rabs (cost (r_xi r) z) <= X)) as (D & HD & QD).
  { intros; lra. }
  { intros r z _ _. exists (Rabs (cost (r_xi r) z)). split; [apply Rabs_pos|lra]. }
  set (K := C + Rabs lam * D). set (t := Rmax 0 ((bound - lam * Rpower rho p - K - 1) / mu)). assert (T0 : 0 <= t) by apply Rmax_l.
  destruct d as [|d'] eqn:Ed; [lia|]. set (pos := t :: repeat 0 d' : vec). assert (Lp : length pos = S d') by (cbn; rewrite repeat_length; reflexivity).
  assert (Np : norm2 pos = t).
  { unfold norm2, pos. rewrite sqnorm_cons. replace (sqnorm (repeat 0 d')) with 0; [rewrite Rplus_0_r; apply sqrt_square; exact T0|]. clear. induction d' as [|m IH]; [reflexivity|]. cbn [repeat]. rewrite sqnorm_cons, <- IH. ring. }
  exists pos. split; [exact Lp|]. unfold site.
  eapply Rle_lt_trans; [apply (objective_upper (vec * vec) cost n rows rho eps p Hb He (site_loss reg pos) lam (fun r => t * top r + K))|].
  - intros r z Hr Hz. destruct (Q r z pos Hr Hz Lp) as [_ U]. rewrite Np in U. unfold site_loss. rewrite R0. pose proof (T r z Hr Hz) as Tz. pose proof (QD r z Hr Hz) as Dz.
    assert (- (lam * cost (r_xi r) z) <= Rabs lam * D). { eapply Rle_trans; [apply Rle_abs|]. rewrite Rabs_Ropp, Rabs_mult. apply Rmult_le_compat_l; [apply Rabs_pos|exact Dz]. }
    assert (t * weight z <= t * top r) by (apply Rmult_le_compat_l; assumption). unfold K. lra.
  - rewrite (rmean_map_plus (fun r => t * top r) (fun _ => K)), (rmean_map_scal t top), rmean_map_const by apply Hb. fold mu.
    assert (T1 : (bound - lam * Rpower rho p - K - 1) / mu <= t) by apply Rmax_r. apply (Rmult_le_compat_neg_l mu) in T1; [|lra].
    replace (mu * ((bound - lam * Rpower rho p - K - 1) / mu)) with (bound - lam * Rpower rho p - K - 1) in T1 by (field; lra). lra.
Qed.
End Site.
