(* Lemmas for the best multinomial model: the scores as linear functions of the flattened parameters, the cross entropy is convex,
   Lipschitz and nonnegative. *)
From Coq Require Import Reals List Bool String Arith Lra Lia Psatz.
From Verif Require Import PyBase RList XReal LogMeanExp Tensor Dual_Model Dual_Spec Dual_Proofs Tuner_Proofs Stationary_Proofs Props_StationaryEst EstDual_Proofs Attain Best_Proofs BestCore.
Import ListNotations.
Local Open Scope R_scope.
Local Notation length := List.length.

(* ---------- parameters as one vector ---------- *)
(* the features that read the score of class j out of the flattened weights of K classes *)
Definition slot (K j : nat) (x : vec) : vec := repeat 0 (j * length x) ++ x ++ repeat 0 ((K - 1 - j) * length x).
Lemma slot_length K j x : (j < K)%nat -> length (slot K j x) = (K * length x)%nat.
Proof. intros H. unfold slot. rewrite !app_length, !repeat_length. nia. Qed.
Lemma dot_zeros_r : forall (u : vec) n, dot u (repeat 0 n) = 0.
Proof. induction u as [|a u IH]; intros [|n]; try reflexivity. change (dot (a :: u) (repeat 0 (S n))) with (a * 0 + dot u (repeat 0 n)). rewrite IH. ring. Qed.
Lemma concat_widths k (wts : list vec) : widths k wts -> length (List.concat wts) = (length wts * k)%nat.
Proof. induction 1 as [|w wts H W IH]; [reflexivity|]. cbn [List.concat length]. rewrite app_length, IH. unfold vec in *. rewrite H. lia. Qed.
Lemma dot_slot k x : length x = k -> forall (wts : list vec) j, widths k wts -> (j < length wts)%nat -> dot (List.concat wts) (slot (length wts) j x) = dot (nth j wts []) x.
Proof.
  intros Lx. unfold slot. rewrite Lx. induction wts as [|w wts IH]; intros j W Hj; [simpl in Hj; lia|]. pose proof (Forall_inv W) as Hw. pose proof (Forall_inv_tail W) as W'. cbv beta in Hw. cbn [List.concat length].
  destruct j as [|j].
  - cbn [repeat Nat.mul app nth]. rewrite dot_app by (unfold vec in *; congruence). rewrite dot_zeros_r. ring.
  - replace (S (length wts) - 1 - S j)%nat with (length wts - 1 - j)%nat by lia. replace (S j * k)%nat with (k + j * k)%nat by lia. rewrite repeat_app, <- app_assoc.
    rewrite dot_app by (rewrite repeat_length; unfold vec in *; congruence). rewrite dot_zeros_r, IH by (auto; cbn in Hj; lia). cbn [nth]. ring.
Qed.
Lemma unconcat k : forall K (u : vec), length u = (K * k)%nat -> exists wts : list vec, length wts = K /\ widths k wts /\ u = List.concat wts.
Proof.
  induction K as [|K IH]; intros u Lu; [exists []; repeat split; [constructor|]; destruct u; [reflexivity|discriminate]|].
  destruct (IH (skipn k u)) as (wts & L & W & E); [rewrite skipn_length; unfold vec in *; lia|].
  exists (firstn k u :: wts). split; [cbn; congruence|]. split; [constructor; [rewrite firstn_length; unfold vec in *; nia|exact W]|]. cbn [List.concat]. rewrite <- E. symmetry. apply firstn_skipn.
Qed.
Lemma concat_inj k : forall (a b : list vec), length a = length b -> widths k a -> widths k b -> List.concat a = List.concat b -> a = b.
Proof.
  induction a as [|u a IH]; intros [|v b] L Wa Wb E; try discriminate; [reflexivity|]. inversion Wa as [|? ? Hu Wa']. inversion Wb as [|? ? Hv Wb']. cbn [List.concat] in E.
  assert (Q : u = v /\ List.concat a = List.concat b). { revert E. assert (Luv : length u = length v) by (unfold vec in *; congruence). clear -Luv. revert v Luv. induction u as [|x u IH]; intros [|y v] L E; try discriminate; [auto|]. injection E as <- E. destruct (IH v) as [<- <-]; auto. }
  destruct Q as [<- Q]. f_equal. apply IH; auto.
Qed.
Lemma app_inj_len (a b c d : vec) : length a = length c -> a ++ b = c ++ d -> a = c /\ b = d.
Proof. revert c. induction a as [|x a IH]; intros [|y c] L E; try discriminate; [auto|]. injection E as <- E. destruct (IH c) as [<- <-]; auto. Qed.

(* ---------- the cross entropy ---------- *)
Definition lse (s : vec) : R := ln (rsum (map exp s)).
Definition ce (q s : vec) : R := - rsum (map2 (fun s1 q1 => q1 * (s1 - lse s)) s q).
Lemma lse_pos s : s <> [] -> 0 < rsum (map exp s).
Proof. exact (sumexp_pos s). Qed.
Lemma lse_ge s a : In a s -> a <= lse s.
Proof.
  intros H. unfold lse. rewrite <- (ln_exp a). assert (exp a <= rsum (map exp s)).
  { induction s as [|b s IH]; [destruct H|]. change (rsum (map exp (b :: s))) with (exp b + rsum (map exp s)). assert (0 <= rsum (map exp s)) by (apply rsum_map_nonneg; intros; left; apply exp_pos). pose proof (exp_pos b).
    destruct H as [->|H]; [lra|]. specialize (IH H). lra. }
  destruct H0 as [H0|H0]; [left; apply ln_increasing; [apply exp_pos|exact H0]|right; congruence].
Qed.
Lemma lse_mono s t : s <> [] -> Forall2 Rle s t -> lse s <= lse t.
Proof.
  intros N H. pose proof (lme_le s t N H) as Q. unfold lme, sumexp in Q. assert (E : length s = length t) by (clear -H; induction H; cbn; congruence). rewrite E in Q. unfold lse. lra.
Qed.
Lemma lse_shift s c : s <> [] -> lse (map (fun a => a + c) s) = lse s + c.
Proof. intros N. pose proof (lme_shift c s N) as Q. unfold lme, sumexp in Q. rewrite map_length in Q. unfold lse. lra. Qed.
Lemma dist1_in : forall s t : vec, length s = length t -> Forall2 Rle s (map (fun a => a + dist1 s t) t).
Proof.
  assert (G : forall s t : vec, length s = length t -> forall D, dist1 s t <= D -> Forall2 Rle s (map (fun a => a + D) t)).
  { induction s as [|a s IH]; intros [|b t] E D HD; try discriminate; constructor; rewrite dist1_cons in HD; pose proof (dist1_nonneg s t); pose proof (Rabs_pos (a - b)); pose proof (Rle_abs (a - b)); [lra|].
    apply IH; [injection E; auto|lra]. }
  intros s t E. apply G; [exact E|lra].
Qed.
Lemma dist1_sym : forall u v, dist1 u v = dist1 v u.
Proof. induction u as [|a u IH]; intros [|b v]; try reflexivity. rewrite !dist1_cons, IH, Rabs_minus_sym. reflexivity. Qed.
Lemma lse_lip s t : length s = length t -> Rabs (lse s - lse t) <= dist1 s t.
Proof.
  intros E. destruct s as [|a s]; [destruct t; [|discriminate]; rewrite Rminus_diag_eq, Rabs_R0 by reflexivity; apply dist1_nonneg|]. assert (N : a :: s <> []) by discriminate.
  revert N E. generalize (a :: s). clear a s. intros s N E. assert (N' : t <> []) by (intros ->; destruct s; [congruence|discriminate]).
  assert (H1 : lse s <= lse t + dist1 s t) by (rewrite <- lse_shift by exact N'; apply lse_mono; [exact N|apply dist1_in; exact E]).
  assert (H2 : lse t <= lse s + dist1 t s) by (rewrite <- lse_shift by exact N; apply lse_mono; [exact N'|apply dist1_in; auto]).
  rewrite dist1_sym in H2. apply Rabs_le. lra.
Qed.
Lemma segment_cons s a b (u v : vec) : segment s (a :: u) (b :: v) = (s * a + (1 - s) * b) :: segment s u v.
Proof. reflexivity. Qed.
Lemma lse_convex t (u v : vec) : 0 <= t <= 1 -> length u = length v -> lse (segment t u v) <= t * lse u + (1 - t) * lse v.
Proof.
  intros Ht E. destruct u as [|a u]; [destruct v; [|discriminate]; unfold lse; cbn; lra|]. assert (N : a :: u <> []) by discriminate. revert N E. generalize (a :: u). clear a u. intros u N E.
  pose proof (softmaximum_convex 1 t u v ltac:(lra) Ht N E) as Q. unfold softmaximum in Q.
  assert (D : forall l : vec, map (fun a => a / 1) l = l) by (intros l; rewrite <- (map_id l) at 2; apply map_ext; intros; field). rewrite !D in Q.
  assert (Es : map2 (fun a b => t * a + (1 - t) * b) u v = segment t u v).
  { clear. revert v. induction u as [|a u IH]; intros [|b v]; try reflexivity. cbn [map2]. rewrite IH. reflexivity. }
  unfold vec in *. rewrite Es in Q. unfold lme, sumexp in Q. assert (Ls : length (segment t u v) = length v) by (apply segment_length; exact E). unfold vec in *. rewrite Ls, E in Q. unfold lse. lra.
Qed.
Lemma ce_alt q s c : - rsum (map2 (fun s1 q1 => q1 * (s1 - c)) s q) = rsum (map2 (fun s1 q1 => q1 * (c - s1)) s q).
Proof. revert q. induction s as [|a s IH]; intros [|b q]; cbn [map2]; try (cbn; ring). assert (C : forall x l, rsum (x :: l) = x + rsum l) by reflexivity. rewrite !C. rewrite <- IH. ring. Qed.
Lemma rsum_cons' x l : rsum (x :: l) = x + rsum l. Proof. reflexivity. Qed.
Lemma ce_nonneg q s : Forall (Rle 0) q -> 0 <= ce q s.
Proof.
  intros Hq. unfold ce. rewrite ce_alt. assert (G : forall c, (forall a, In a s -> a <= c) -> 0 <= rsum (map2 (fun s1 q1 => q1 * (c - s1)) s q)).
  { intros c. revert q Hq. induction s as [|a s IH]; intros [|b q] Hq Hc; cbn [map2]; try (cbn; lra). rewrite rsum_cons'. inversion Hq as [|? ? Hb Hq']; subst. pose proof (Hc a (or_introl eq_refl)).
    pose proof (IH q Hq' (fun x Hx => Hc x (or_intror Hx))). nra. }
  apply G. intros a Ha. apply lse_ge. exact Ha.
Qed.
Lemma ce_convex q t (u v : vec) : Forall (Rle 0) q -> 0 <= t <= 1 -> length u = length v -> ce q (segment t u v) <= t * ce q u + (1 - t) * ce q v.
Proof.
  intros Hq Ht E. unfold ce. rewrite !ce_alt.
  assert (G : forall c cu cv, c <= t * cu + (1 - t) * cv -> rsum (map2 (fun s1 q1 => q1 * (c - s1)) (segment t u v) q) <= t * rsum (map2 (fun s1 q1 => q1 * (cu - s1)) u q) + (1 - t) * rsum (map2 (fun s1 q1 => q1 * (cv - s1)) v q)).
  { intros c cu cv Hc. revert v q E Hq. induction u as [|a u IH]; intros [|b v] [|d q] E Hq; try discriminate; try (cbn; lra). rewrite segment_cons. cbn [map2]. rewrite !rsum_cons'. inversion Hq as [|? ? Hd Hq']; subst.
    pose proof (IH v q ltac:(injection E; auto) Hq'). nra. }
  apply G. apply lse_convex; assumption.
Qed.
Lemma ce_lip q : forall s t : vec, length s = length t -> Rabs (ce q s - ce q t) <= 2 * abs_sum q * dist1 s t.
Proof.
  intros s t E. unfold ce. rewrite !ce_alt. pose proof (lse_lip s t E) as HL.
  assert (G : forall D, dist1 s t <= D -> forall cs ct, Rabs (cs - ct) <= D -> Rabs (rsum (map2 (fun s1 q1 => q1 * (cs - s1)) s q) - rsum (map2 (fun s1 q1 => q1 * (ct - s1)) t q)) <= abs_sum q * (2 * D)).
  { intros D HD cs ct Hc. clear HL. revert t q E HD. induction s as [|a s IH]; intros [|b t] q E HD; try discriminate.
    - cbn [map2]. rewrite Rminus_diag_eq, Rabs_R0 by reflexivity. pose proof (Rabs_pos (cs - ct)). pose proof (abs_sum_nonneg q). nra.
    - destruct q as [|d q]; [cbn [map2]; rewrite Rminus_diag_eq, Rabs_R0 by reflexivity; unfold abs_sum; cbn; lra|]. cbn [map2]. rewrite !rsum_cons'. rewrite dist1_cons in HD.
      pose proof (Rabs_pos (a - b)). pose proof (dist1_nonneg s t). pose proof (IH t q ltac:(injection E; auto) ltac:(lra)) as Q. change (abs_sum (d :: q)) with (Rabs d + abs_sum q).
      match goal with |- Rabs (d * ?p + ?x - (d * ?r + ?y)) <= _ => replace (d * p + x - (d * r + y)) with (d * ((cs - ct) + - (a - b)) + (x - y)) by ring end.
      eapply Rle_trans; [apply Rabs_triang|]. rewrite Rabs_mult. pose proof (Rabs_triang (cs - ct) (- (a - b))) as T. rewrite Rabs_Ropp in T. pose proof (Rabs_pos d).
      assert (Rabs d * Rabs (cs - ct + - (a - b)) <= Rabs d * (2 * D)) by (apply Rmult_le_compat_l; lra). lra. }
  eapply Rle_trans; [apply (G (dist1 s t) (Rle_refl _)); exact HL|]. lra.
Qed.

(* ---------- several scores ---------- *)
Definition several (fs : list vec) (th : vec) : vec := map (dot th) fs.
Lemma several_lip fs u v : length u = length v -> dist1 (several fs u) (several fs v) <= rsum (map abs_sum fs) * dist1 u v.
Proof.
  intros E. induction fs as [|f fs IH]; [unfold dist1; cbn; lra|]. cbn [several map]. rewrite dist1_cons, rsum_cons'. pose proof (dot_lip u v f E). unfold several in IH. lra.
Qed.
Lemma several_segment fs s u v d : length u = d -> length v = d -> Forall (fun f => length f = d) fs -> several fs (segment s u v) = segment s (several fs u) (several fs v).
Proof.
  intros Lu Lv F. induction F as [|f fs Hf F IH]; [reflexivity|]. cbn [several map]. rewrite segment_cons. unfold several in IH. rewrite IH. f_equal. apply dot_segment; unfold vec in *; congruence.
Qed.
Lemma several_best {P} (lab : P -> vec) (feats : P -> list vec) cost n (rows : list (row P)) d rho eps p l2 A : batch_ok n rows -> 0 < rho -> 0 < eps -> 0 < l2 ->
  (forall r z, In r rows -> In z (r_zeta r) -> Forall (fun f => length f = d) (feats z) /\ Forall (Rle 0) (lab z)) ->
  let V lam th := obj P cost (fun th z => ce (lab z) (several (feats z) th)) rows rho eps p l2 lam th in
  adversary n A rows ->
  (forall lam, exists th, length th = d /\ forall th', length th' = d -> V lam th <= V lam th' /\ (V lam th' = V lam th -> th' = th)) /\
  (adv_mean cost A rows < Rpower rho p ->
   exists lam th, 0 <= lam /\ length th = d /\ forall lam' th', 0 <= lam' -> length th' = d -> V lam th <= V lam' th' /\ (V lam' th' = V lam th -> th' = th)).
Proof.
  intros Hb Hr He Hl Hz V HA. set (base := fun (th : vec) (z : P) => ce (lab z) (several (feats z) th)).
  assert (H1 : forall r z, In r rows -> In z (r_zeta r) -> forall B, 0 <= B -> exists L, 0 <= L /\ lip_on B d L (fun th => base th z)).
  { intros r z _ _ B _. exists (2 * abs_sum (lab z) * rsum (map abs_sum (feats z))). pose proof (abs_sum_nonneg (lab z)) as Q1.
    assert (Q2 : 0 <= rsum (map abs_sum (feats z))) by (apply rsum_map_nonneg; intros; apply abs_sum_nonneg). split; [nra|]. intros u v [Lu _] [Lv _]. unfold base.
    eapply Rle_trans; [apply ce_lip; unfold several; rewrite !map_length; reflexivity|]. rewrite (Rmult_assoc (2 * abs_sum (lab z))). apply Rmult_le_compat_l; [lra|]. apply several_lip. congruence. }
  assert (H2 : forall r z th, In r rows -> In z (r_zeta r) -> length th = d -> 0 <= base th z) by (intros r z th Hrr Hzz _; apply ce_nonneg; apply (Hz r z Hrr Hzz)).
  assert (H3 : forall r z, In r rows -> In z (r_zeta r) -> convex_on d (fun th => base th z)).
  { intros r z Hrr Hzz s x y Hs Lx Ly. unfold base. destruct (Hz r z Hrr Hzz) as [Hf Hq]. rewrite (several_segment (feats z) s x y d) by assumption. apply ce_convex; [exact Hq|exact Hs|]. unfold several. rewrite !map_length. reflexivity. }
  split.
  - intros lam. destruct (best_fixed P cost base d n rows rho eps p l2 0 Hb He Hl H1 H2 lam A HA) as (th & Lt & Q). exists th. split; [exact Lt|].
    intros th' Lt'. split; [apply Q; exact Lt'|]. intros Eq. symmetry.
    apply (best_unique_fixed P cost base d n rows rho eps p l2 Hb He Hl H3 lam th th' Hr Lt Lt' Q). unfold V in Eq. fold base in Eq. rewrite Eq. apply Rle_refl.
  - intros Gap. destruct (best_joint P cost base d n rows rho eps p l2 0 Hb He Hl H1 H2 A HA Gap) as (lam & th & Hlam & Lt & Q). exists lam, th. split; [exact Hlam|]. split; [exact Lt|].
    intros lam' th' Hl' Lt'. split; [apply Q; assumption|]. intros Eq. symmetry.
    apply (best_unique P cost base d n rows rho eps p l2 Hb He Hl H3 lam lam' th th' Hr Hlam Hl' Lt Lt' Q). unfold V in Eq. fold base in Eq. rewrite Eq. apply Rle_refl.
Qed.
