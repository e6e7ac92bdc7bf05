(* The robust objective with an l2 penalty has a best model, and only one when the loss is convex: the argument, without the tensors. *)
From Coq Require Import Reals List Bool String Lra Lia Psatz.
From Verif Require Import PyBase RList XReal LogMeanExp Dual_Model Dual_Spec Dual_Proofs DualMinimax_Proofs Props_Dual2 Stationary_Proofs Attain Best_Proofs.
Import ListNotations.
Local Open Scope R_scope.
Local Notation length := List.length.

Section Core.
Variable P : Type.
Variable cost : P -> P -> R.
Variable base : vec -> P -> R.
Variables (d n : nat) (rows : list (row P)) (rho eps p reg m : R).
Hypothesis Hb : batch_ok n rows.
Hypothesis He : 0 < eps.
Hypothesis Hreg : 0 < reg.
Hypothesis Hlip : forall r z, In r rows -> In z (r_zeta r) -> forall B, 0 <= B -> exists L, 0 <= L /\ lip_on B d L (fun th => base th z).
Hypothesis Hlow : forall r z th, In r rows -> In z (r_zeta r) -> length th = d -> m <= base th z.
Definition ridge (th : vec) (z : P) : R := base th z + reg / 2 * sqnorm th.
Definition obj (lam : R) (th : vec) : R := objective P (ridge th) cost rho lam eps p rows.

Lemma obj_lip B : 0 <= B -> exists L, 0 <= L /\ forall u v s t, box B d u -> box B d v -> Rabs (obj s u - obj t v) <= L * (Rabs (s - t) + dist1 u v).
Proof.
  intros HB.
  destruct (finite_samples P rows (fun r z L => lip_on B d L (fun th => base th z))) as (L & HL & QL).
  { intros r z x y Hxy Q u v Hu Hv. eapply Rle_trans; [apply Q; assumption|]. apply Rmult_le_compat_r; [apply dist1_nonneg|exact Hxy]. }
  { intros r z Hr Hz. apply (Hlip r z Hr Hz B HB). }
  destruct (finite_samples P rows (fun r z C => Rabs (cost (r_xi r) z) <= C)) as (C & HC & QC).
  { intros; lra. }
  { intros r z _ _. exists (Rabs (cost (r_xi r) z)). split; [apply Rabs_pos|lra]. }
  set (rp := Rpower rho p). assert (Hrp : 0 < rp) by apply exp_pos.
  exists (L + reg * B + C + rp). split; [nra|].
  assert (Half : forall u v s t, box B d u -> box B d v -> obj s u <= obj t v + (L + reg * B + C + rp) * (Rabs (s - t) + dist1 u v)).
  { intros u v s t Hu Hv. unfold obj.
    eapply Rle_trans; [apply (objective_half P cost n rows rho eps p (ridge u) (ridge v) s t ((L + reg * B) * dist1 u v + C * Rabs (s - t)) Hb He)|].
    - intros r z Hr Hz. unfold ridge. pose proof (QL r z Hr Hz u v Hu Hv) as Q1. pose proof (sqnorm_lip B d u v HB Hu Hv) as Q2. pose proof (QC r z Hr Hz) as Q3.
      pose proof (Rle_abs (base u z - base v z)). pose proof (Rle_abs (sqnorm u - sqnorm v)).
      assert ((t - s) * cost (r_xi r) z <= C * Rabs (s - t)).
      { eapply Rle_trans; [apply Rle_abs|]. rewrite Rabs_mult, (Rabs_minus_sym t s), Rmult_comm. apply Rmult_le_compat_r; [apply Rabs_pos|exact Q3]. }
      nra.
    - fold rp. pose proof (Rle_abs (s - t)). pose proof (dist1_nonneg u v). pose proof (Rabs_pos (s - t)).
      assert ((s - t) * rp <= Rabs (s - t) * rp) by (apply Rmult_le_compat_r; lra). assert (0 <= (L + reg * B) * Rabs (s - t)) by (apply Rmult_le_pos; nra). assert (0 <= (C + rp) * dist1 u v) by (apply Rmult_le_pos; lra). nra. }
  intros u v s t Hu Hv. pose proof (Half u v s t Hu Hv) as H1. pose proof (Half v u t s Hv Hu) as H2.
  assert (D : dist1 v u = dist1 u v).
  { clear. revert v. induction u as [|a u IH]; intros [|b v]; try reflexivity. rewrite !dist1_cons, IH, Rabs_minus_sym. reflexivity. }
  rewrite D, (Rabs_minus_sym t s) in H2. apply Rabs_le. lra.
Qed.

Lemma obj_low lam th A : adversary n A rows -> length th = d ->
  m + reg / 2 * sqnorm th - eps * adv_entropy A + lam * (Rpower rho p - adv_mean cost A rows) <= obj lam th.
Proof.
  intros HA Lt. apply (objective_lower P cost n rows rho lam eps p (ridge th) A (m + reg / 2 * sqnorm th) Hb He HA).
  intros r z Hr Hz. unfold ridge. pose proof (Hlow r z th Hr Hz Lt). lra.
Qed.

(* for any multiplier *)
Lemma best_fixed lam A : adversary n A rows -> exists th, length th = d /\ forall th', length th' = d -> obj lam th <= obj lam th'.
Proof.
  intros HA. set (g0 := obj lam (repeat 0 d)). set (K := g0 - m + eps * adv_entropy A - lam * (Rpower rho p - adv_mean cost A rows)).
  apply (attains d (obj lam) (1 + 2 * K / reg) (repeat 0 d)).
  - apply repeat_length.
  - intros B HB. destruct (obj_lip B HB) as (L & HL & Q). exists L. split; [exact HL|]. intros u v Hu Hv.
    specialize (Q u v lam lam Hu Hv). replace (lam - lam) with 0 in Q by ring. rewrite Rabs_R0, Rplus_0_l in Q. exact Q.
  - intros v Lv Hv. pose proof (obj_low lam v A HA Lv) as Q. fold g0 in Hv.
    assert (sqnorm v <= 2 * K / reg). { apply (Rmult_le_reg_r reg); [exact Hreg|]. unfold Rdiv. rewrite Rmult_assoc, Rinv_l by lra. unfold K. nra. }
    rewrite <- Lv. apply sqnorm_box. assumption.
Qed.

(* together with the multiplier *)
Lemma best_joint A : adversary n A rows -> adv_mean cost A rows < Rpower rho p ->
  exists lam th, 0 <= lam /\ length th = d /\ forall lam' th', 0 <= lam' -> length th' = d -> obj lam th <= obj lam' th'.
Proof.
  intros HA Gap. set (G := fun v : vec => obj (Rabs (hd 0 v)) (tl v)).
  set (g0 := G (repeat 0 (S d))). set (K := g0 - m + eps * adv_entropy A). set (gap := Rpower rho p - adv_mean cost A rows).
  assert (Hg : 0 < gap) by (unfold gap; lra).
  destruct (attains (S d) G (Rmax (1 + 2 * K / reg) (K / gap)) (repeat 0 (S d))) as (u & Lu & Q).
  - apply repeat_length.
  - intros B HB. destruct (obj_lip B HB) as (L & HL & Q). exists L. split; [exact HL|]. intros u v [Lu Fu] [Lv Fv].
    destruct u as [|s u]; [discriminate|]. destruct v as [|t v]; [discriminate|]. unfold G. cbn [hd tl]. rewrite dist1_cons.
    injection Lu as Lu. injection Lv as Lv. eapply Rle_trans; [apply (Q u v); split; [exact Lu|exact (Forall_inv_tail Fu)|exact Lv|exact (Forall_inv_tail Fv)]|].
    apply Rmult_le_compat_l; [exact HL|]. pose proof (Rabs_triang_inv2 s t). lra.
  - intros v Lv Hv. fold g0 in Hv. destruct v as [|s v]; [discriminate|]. injection Lv as Lv. unfold G in Hv. cbn [hd tl] in Hv.
    pose proof (obj_low (Rabs s) v A HA Lv) as Q. fold gap in Q. pose proof (Rabs_pos s). pose proof (sqnorm_nonneg v).
    apply box_cons.
    + eapply Rle_trans; [|apply Rmax_r]. apply (Rmult_le_reg_r gap); [exact Hg|]. unfold Rdiv. rewrite Rmult_assoc, Rinv_l by lra. unfold K. nra.
    + apply (box_mono (1 + 2 * K / reg)); [apply Rmax_l|]. rewrite <- Lv. apply sqnorm_box.
      apply (Rmult_le_reg_r reg); [exact Hreg|]. unfold Rdiv. rewrite Rmult_assoc, Rinv_l by lra. unfold K. assert (0 <= Rabs s * gap) by nra. nra.
  - destruct u as [|s u]; [discriminate|]. injection Lu as Lu. exists (Rabs s), u. split; [apply Rabs_pos|]. split; [exact Lu|].
    intros lam' th' Hl Lt. specialize (Q (lam' :: th')). unfold G in Q. cbn [hd tl length] in Q. rewrite (Rabs_right lam') in Q by lra. apply Q. f_equal. exact Lt.
Qed.

(* uniqueness *)
Lemma sqnorm_mid : forall u v : vec, length u = length v -> sqnorm (segment (1 / 2) u v) = 1 / 2 * sqnorm u + 1 / 2 * sqnorm v - 1 / 4 * sqnorm (vsub u v).
Proof.
  induction u as [|a u IH]; intros [|b v] E; try discriminate; [assert (Z : sqnorm [] = 0) by reflexivity; change (segment (1 / 2) [] []) with (@nil R); change (vsub [] []) with (@nil R); rewrite Z; lra|].
  assert (Q : sqnorm (segment (1 / 2) u v) = 1 / 2 * sqnorm u + 1 / 2 * sqnorm v - 1 / 4 * sqnorm (vsub u v)) by (apply IH; injection E; auto).
  change (segment (1 / 2) (a :: u) (b :: v)) with ((1 / 2 * a + (1 - 1 / 2) * b) :: segment (1 / 2) u v). change (vsub (a :: u) (b :: v)) with ((a - b) :: vsub u v).
  rewrite !sqnorm_cons, Q. field.
Qed.
Lemma sqnorm_sub_zero : forall u v : vec, length u = length v -> sqnorm (vsub u v) <= 0 -> u = v.
Proof.
  induction u as [|a u IH]; intros [|b v] E H; try discriminate; [reflexivity|].
  change (vsub (a :: u) (b :: v)) with ((a - b) :: vsub u v) in H. rewrite sqnorm_cons in H. pose proof (sqnorm_nonneg (vsub u v)).
  pose proof (Rle_0_sqr (a - b)) as Sq. unfold Rsqr in Sq. assert (Z : sqnorm (vsub u v) <= 0) by lra. f_equal; [nra|]. apply IH; [injection E; auto|exact Z].
Qed.
Hypothesis Hconv : forall r z, In r rows -> In z (r_zeta r) -> convex_on d (fun th => base th z).
Lemma gap_mid lam1 lam2 u v : 0 < rho -> length u = d -> length v = d ->
  obj (1 / 2 * lam1 + (1 - 1 / 2) * lam2) (segment (1 / 2) u v) + reg / 8 * sqnorm (vsub u v) <= 1 / 2 * obj lam1 u + (1 - 1 / 2) * obj lam2 v.
Proof.
  intros Hr Lu Lv. unfold obj at 1. rewrite <- (objective_shift P cost n rows rho eps p _ _ _ Hb He).
  refine (C107_jointly_convex P (ridge u) (ridge v) (fun z => ridge (segment (1 / 2) u v) z + reg / 8 * sqnorm (vsub u v)) cost no_displace (fun _ _ => 0) (fun _ _ _ => 0) n rows rho lam1 lam2 (1 / 2) eps p _ _ _ Hb Hr He _ _ _ _ _).
  - lra.
  - intros r z Hrr Hz. unfold ridge. pose proof (Hconv r z Hrr Hz (1 / 2) u v ltac:(lra) Lu Lv) as Q. cbv beta in Q. rewrite sqnorm_mid by (transitivity d; [exact Lu|symmetry; exact Lv]). nra.
  - apply value_iff; auto.
  - apply value_iff; auto.
  - apply value_iff; auto.
Qed.
Lemma best_unique lam1 lam2 u v : 0 < rho -> 0 <= lam1 -> 0 <= lam2 -> length u = d -> length v = d ->
  (forall lam th, 0 <= lam -> length th = d -> obj lam1 u <= obj lam th) -> obj lam2 v <= obj lam1 u -> u = v.
Proof.
  intros Hr H1 H2 Lu Lv Hu Hv. pose proof (gap_mid lam1 lam2 u v Hr Lu Lv) as Q.
  specialize (Hu (1 / 2 * lam1 + (1 - 1 / 2) * lam2) (segment (1 / 2) u v) ltac:(lra)).
  assert (Ls : length (segment (1 / 2) u v) = d) by (transitivity (length v); [apply segment_length; transitivity d; [exact Lu|symmetry; exact Lv]|exact Lv]). specialize (Hu Ls).
  apply sqnorm_sub_zero; [transitivity d; [exact Lu|symmetry; exact Lv]|]. apply (Rmult_le_reg_l (reg / 8)); [lra|]. lra.
Qed.
Lemma best_unique_fixed lam u v : 0 < rho -> length u = d -> length v = d ->
  (forall th, length th = d -> obj lam u <= obj lam th) -> obj lam v <= obj lam u -> u = v.
Proof.
  intros Hr Lu Lv Hu Hv. pose proof (gap_mid lam lam u v Hr Lu Lv) as Q. replace (1 / 2 * lam + (1 - 1 / 2) * lam) with lam in Q by field.
  assert (Ls : length (segment (1 / 2) u v) = d) by (transitivity (length v); [apply segment_length; transitivity d; [exact Lu|symmetry; exact Lv]|exact Lv]). specialize (Hu _ Ls).
  apply sqnorm_sub_zero; [transitivity d; [exact Lu|symmetry; exact Lv]|]. apply (Rmult_le_reg_l (reg / 8)); [lra|]. lra.
Qed.
End Core.
