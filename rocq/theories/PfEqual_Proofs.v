(* The portfolio programme without side constraints: its value for a portfolio and a threshold, and how the radius moves its solutions. *)
From Coq Require Import Reals List Lra Lia Arith.
From Verif Require Import PyBase RList XReal Costs_Model Costs_Spec Costs_Proofs Transport_Spec Transport_Proofs DedProg_Model DedProg_Spec DedLog_Proofs DedPf_Proofs.
Import ListNotations.
Local Open Scope R_scope.

Definition pf_value (p : nexp) (eta alpha rho : R) (samples : list vec) (theta : vec) (tau : R) : R :=
  rho * ((1 + eta / alpha) * pnorm (pf_q p) theta) + rmean (map (mean_risk eta alpha theta tau) samples).

Lemma default_tmatvec_any m g u : length u = m -> vsub (tmatvec m (pf_default_C m) [g]) u = vscal (-1) u.
Proof. intros <-. unfold pf_default_C. simpl. induction u as [|a u IH]; simpl; [reflexivity|]. unfold vsub, vscal, vadd in *. simpl. f_equal; [ring|exact IH]. Qed.

Lemma pf_row_bound m p eta alpha theta tau lam x si k g : valid_exp p -> length theta = m ->
  pf_row (pf_default_C m) pf_default_d p eta alpha theta tau lam x si k g ->
  pf_b eta alpha k * tau + pf_a eta alpha k * dot theta x <= si /\ Rabs (pf_a eta alpha k) * pnorm (pf_q p) theta <= lam.
Proof.
  intros Vp Lt (B1 & B2 & B3 & _). destruct g as [|g0 [|]]; try discriminate. split.
  - unfold pf_default_d, pf_default_C, matvec, vsub in B2. cbn [map map2] in B2. rewrite dot_repeat0 in B2. unfold dot at 2 in B2. cbn in B2. lra.
  - rewrite Lt, default_tmatvec_any in B3 by (rewrite vscal_length; exact Lt). rewrite !pnorm_vscal, abs_m1 in B3 by (apply pf_q_valid; exact Vp). lra.
Qed.

Lemma pf_value_exact m p eta alpha rho samples theta tau c : valid_exp p -> 0 <= eta -> 0 < alpha -> 0 <= rho -> samples <> [] ->
  length theta = m -> rsum theta = 1 -> Forall (fun t => 0 <= t) theta ->
  ((exists lam s gamma, pf_feasible m (pf_default_C m) pf_default_d p eta alpha samples theta tau lam s gamma /\ pf_objective rho lam s <= c) <->
   pf_value p eta alpha rho samples theta tau <= c).
Proof.
  intros Vp He Ha Hr Hn Lt St Ft. pose proof (pnorm_nonneg (pf_q p) theta) as N0.
  assert (Hh : 0 <= eta / alpha) by (apply Rmult_le_pos; [exact He|left; apply Rinv_0_lt_compat; exact Ha]).
  assert (Ak : Rabs (pf_a eta alpha true) = 1 + eta / alpha) by (unfold pf_a; rewrite Rabs_left by lra; ring).
  split.
  - intros (lam & s & gamma & (_ & _ & Hl & _ & Ls & Lg & F) & O). eapply Rle_trans; [|exact O]. unfold pf_value, pf_objective.
    assert (Q : (1 + eta / alpha) * pnorm (pf_q p) theta <= lam).
    { destruct samples as [|x samples]; [contradiction|]. destruct s as [|si s]; [discriminate|]. destruct gamma as [|g gamma]; [discriminate|]. cbn [List.combine] in F. apply Forall_inv in F.
      destruct F as [_ F]. apply pf_row_bound in F; [|exact Vp|exact Lt]. rewrite Ak in F. apply F. }
    assert (S : rsum (map (mean_risk eta alpha theta tau) samples) <= rsum s).
    { clear -F Ls Lg Vp Lt He Ha. revert s gamma F Ls Lg. induction samples as [|x l IH]; intros [|si s] [|g gamma] F Ls Lg; try discriminate; [cbn; lra|].
      cbn [List.combine] in F. inversion F as [|? ? F1 F2]; subst. cbn [fst snd] in F1. destruct F1 as [R0 R1]. apply pf_row_bound in R0, R1; try assumption; try reflexivity.
      cbn [map rsum]. assert (M : mean_risk eta alpha theta tau x <= si) by (rewrite pieces_max by assumption; unfold piece; apply Rmax_lub; [apply R0|apply R1]).
      pose proof (IH s gamma F2 ltac:(injection Ls; auto) ltac:(injection Lg; auto)). lra. }
    unfold rmean. rewrite map_length, <- Ls. unfold Rdiv. assert (P : 0 <= / INR (length s)).
    { left. apply Rinv_0_lt_compat. apply lt_0_INR. rewrite Ls. destruct samples; [contradiction|cbn; lia]. }
    rewrite Rmult_1_l. pose proof (Rmult_le_compat_l _ _ _ P S). pose proof (Rmult_le_compat_l _ _ _ Hr Q). lra.
  - intros H. exists ((1 + eta / alpha) * pnorm (pf_q p) theta), (map (mean_risk eta alpha theta tau) samples), (map (fun _ => ([0], [0])) samples). split.
    + repeat split; auto; try (apply map_length); [nra|].
      apply Forall_forall. intros [x [si [g0 g1]]] Hin.
      assert (E : si = mean_risk eta alpha theta tau x /\ g0 = [0] /\ g1 = [0]).
      { clear -Hin. induction samples as [|y l IH]; simpl in Hin; [contradiction|]. destruct Hin as [Hin|Hin]; [injection Hin; intros; subst; auto|auto]. }
      destruct E as (-> & -> & ->). simpl. rewrite pieces_max by assumption. split; apply pf_row_default; auto.
      * apply Rmax_l.
      * unfold pf_a. rewrite abs_m1. nra.
      * apply Rmax_r.
      * rewrite Ak. lra.
    + eapply Rle_trans; [|exact H]. unfold pf_value, pf_objective, rmean. rewrite map_length. right. unfold Rdiv. ring.
Qed.

(* how much the mean-risk loss depends on the portfolio *)
Lemma Rmax0_lip a b : Rmax a 0 - Rmax b 0 <= Rmax (a - b) 0.
Proof. unfold Rmax. repeat destruct Rle_dec; lra. Qed.
Lemma mean_risk_lip eta alpha theta theta' tau x : 0 <= eta -> 0 < alpha ->
  mean_risk eta alpha theta' tau x - mean_risk eta alpha theta tau x <= (1 + eta / alpha) * Rabs (dot theta x - dot theta' x).
Proof.
  intros He Ha. unfold mean_risk. assert (I : 0 < / alpha) by (apply Rinv_0_lt_compat; exact Ha).
  pose proof (Rmax0_lip (- dot theta' x - tau) (- dot theta x - tau)) as M. set (u := Rmax (- dot theta' x - tau) 0) in *. set (v := Rmax (- dot theta x - tau) 0) in *.
  pose proof (Rle_abs (dot theta x - dot theta' x)) as A. pose proof (Rabs_pos (dot theta x - dot theta' x)) as P.
  assert (M' : u - v <= Rabs (dot theta x - dot theta' x)). { eapply Rle_trans; [exact M|]. apply Rmax_lub; lra. }
  unfold Rdiv. assert (0 <= eta * / alpha) by nra. pose proof (Rmult_le_compat_l _ _ _ H M'). nra.
Qed.
Lemma dot_diff theta theta' x : length theta = length theta' -> dot theta x - dot theta' x = dot (vsub theta theta') x.
Proof.
  revert theta' x. induction theta as [|a l IH]; intros [|b l'] x H; try discriminate; [unfold dot, vsub; cbn; lra|]. destruct x as [|c x]; [unfold dot; cbn; lra|].
  unfold dot, vsub in *. cbn. injection H as H. specialize (IH l' x H). lra.
Qed.
Lemma dot_bound B v x : 0 <= B -> Forall (fun a => Rabs a <= B) x -> Rabs (dot v x) <= B * rsum (map Rabs v).
Proof.
  intros HB. revert x. induction v as [|a v IH]; intros x Hx; [unfold dot; cbn; rewrite Rabs_R0; lra|]. destruct x as [|c x].
  - unfold dot. cbn. rewrite Rabs_R0. apply Rmult_le_pos; [exact HB|]. pose proof (Rabs_pos a). assert (0 <= rsum (map Rabs v)) by (clear; induction v as [|b v IH]; cbn; [lra|pose proof (Rabs_pos b); lra]). lra.
  - inversion Hx; subst. specialize (IH x H2). unfold dot in *. cbn. eapply Rle_trans; [apply Rabs_triang|]. rewrite Rabs_mult.
    pose proof (Rmult_le_compat_l (Rabs a) (Rabs c) B (Rabs_pos a) H1). lra.
Qed.

Definition equal_weights (m : nat) : vec := repeat (1 / INR m) m.
Lemma rsum_repeat a n : rsum (repeat a n) = INR n * a.
Proof. induction n; [cbn; lra|]. rewrite S_INR. cbn [repeat rsum]. rewrite IHn. ring. Qed.
Lemma equal_sum m : (0 < m)%nat -> rsum (equal_weights m) = 1.
Proof. intros H. unfold equal_weights. rewrite rsum_repeat. apply lt_0_INR in H. field. lra. Qed.
Lemma equal_nonneg m : Forall (fun t => 0 <= t) (equal_weights m).
Proof.
  unfold equal_weights. apply Forall_forall. intros t Ht. apply repeat_spec in Ht. subst. destruct m; [unfold Rdiv; cbn; rewrite Rinv_0; lra|].
  apply Rmult_le_pos; [lra|]. left. apply Rinv_0_lt_compat. apply lt_0_INR. lia.
Qed.
Lemma rmax0_repeat a n : 0 <= a -> (0 < n)%nat -> rmax0 (map Rabs (repeat a n)) = a.
Proof.
  intros Ha Hn. destruct n as [|n]; [lia|]. clear Hn. induction n as [|n IH].
  - cbn. rewrite (Rabs_pos_eq a Ha). apply Rmax_left. exact Ha.
  - change (repeat a (S (S n))) with (a :: repeat a (S n)). cbn [map rmax0]. cbn [map rmax0] in IH. rewrite IH. rewrite (Rabs_pos_eq a Ha). apply Rmax_left. lra.
Qed.
(* a portfolio is at distance at most twice its excess over the equal weights *)
Lemma distance_to_equal m theta t : length theta = m -> rsum theta = 1 -> (0 < m)%nat -> Forall (fun a => a <= t) theta ->
  rsum (map Rabs (vsub theta (equal_weights m))) <= 2 * INR m * (t - 1 / INR m).
Proof.
  intros L S Hm F. assert (P : 0 < INR m) by (apply lt_0_INR; exact Hm).
  assert (Ht : 0 <= t - 1 / INR m).
  { assert (rsum theta <= INR (length theta) * t) by (clear -F; induction F as [|a l Ha F IH]; cbn [rsum length]; [cbn; lra|rewrite S_INR; lra]). rewrite S, L in H.
    assert (1 / INR m <= t) by (apply Rmult_le_reg_r with (INR m); [exact P|]; unfold Rdiv; rewrite Rmult_assoc, Rinv_l by lra; lra). lra. }
  assert (G : forall l, Forall (fun a => a <= t) l -> forall c, 0 <= t - c -> rsum (map Rabs (vsub l (repeat c (length l)))) <= 2 * INR (length l) * (t - c) - (rsum l - INR (length l) * c)).
  { clear. induction 1 as [|a l Ha F IH]; intros c Hc; [cbn; lra|]. cbn [length repeat]. rewrite S_INR. unfold vsub in *. cbn [map2 map rsum]. specialize (IH c Hc).
    assert (Rabs (a - c) <= 2 * (t - c) - (a - c)) by (unfold Rabs; destruct Rcase_abs; lra). lra. }
  specialize (G theta F (1 / INR m) Ht). rewrite L, S in G. unfold equal_weights. replace (INR m * (1 / INR m)) with 1 in G by (field; lra). lra.
Qed.
Lemma pnorm_inf_ge v a : In a v -> Rabs a <= pnorm PInfty v.
Proof. intros H. cbn [pnorm]. apply rmax0_ge. apply in_map. exact H. Qed.
Lemma q_one : pf_q (PFin 1) = PInfty.
Proof. unfold pf_q. destruct (Reqb 1 1) eqn:E; [reflexivity|apply Reqb_false in E; lra]. Qed.

Lemma rmean_diff {A} (f g : A -> R) l d : l <> [] -> (forall x, In x l -> f x - g x <= d) -> rmean (map f l) - rmean (map g l) <= d.
Proof.
  intros Hl H. unfold rmean. rewrite !map_length. assert (P : 0 < INR (length l)) by (apply lt_0_INR; destruct l; [contradiction|cbn; lia]).
  assert (S : rsum (map f l) - rsum (map g l) <= INR (length l) * d).
  { clear Hl P. induction l as [|a l IH]; [cbn; lra|]. cbn [map rsum length]. rewrite S_INR. pose proof (H a (or_introl eq_refl)). specialize (IH (fun x Hx => H x (or_intror Hx))). lra. }
  apply Rmult_le_reg_r with (INR (length l)); [exact P|]. unfold Rdiv. rewrite Rmult_minus_distr_r, !Rmult_assoc, Rinv_l by lra. lra.
Qed.

(* moving to the equal weights costs at most this much *)
Lemma equal_gain m eta alpha rho samples theta tau B : 0 <= eta -> 0 < alpha -> samples <> [] -> 0 <= B ->
  Forall (Forall (fun a => Rabs a <= B)) samples -> length theta = m -> rsum theta = 1 -> Forall (fun t => 0 <= t) theta ->
  pf_value (PFin 1) eta alpha rho samples (equal_weights m) tau - pf_value (PFin 1) eta alpha rho samples theta tau <=
  (1 + eta / alpha) * ((pnorm PInfty theta - 1 / INR m) * (2 * INR m * B - rho)) /\ 1 / INR m <= pnorm PInfty theta /\ (0 < m)%nat.
Proof.
  intros He Ha Hn HB Hs L S F. assert (Hm : (0 < m)%nat) by (destruct m; [destruct theta; [cbn in S; lra|discriminate]|lia]).
  assert (P : 0 < INR m) by (apply lt_0_INR; exact Hm).
  assert (Fm : Forall (fun a => a <= pnorm PInfty theta) theta).
  { apply Forall_forall. intros a Hin. eapply Rle_trans; [apply Rle_abs|]. apply pnorm_inf_ge. exact Hin. }
  pose proof (distance_to_equal m theta _ L S Hm Fm) as D.
  assert (Ht : 1 / INR m <= pnorm PInfty theta).
  { assert (H : 0 <= rsum (map Rabs (vsub theta (equal_weights m)))) by (clear; induction (vsub theta (equal_weights m)) as [|b v IH]; cbn; [lra|pose proof (Rabs_pos b); lra]).
    assert (0 <= 2 * INR m * (pnorm PInfty theta - 1 / INR m)) by lra. apply Rmult_le_reg_l with (2 * INR m); lra. }
  split; [|split; [exact Ht|exact Hm]]. unfold pf_value. rewrite q_one. assert (E : pnorm PInfty (equal_weights m) = 1 / INR m).
  { cbn [pnorm]. apply rmax0_repeat; [|exact Hm]. apply Rmult_le_pos; [lra|left; apply Rinv_0_lt_compat; exact P]. }
  rewrite E. assert (K : 0 <= eta / alpha) by (apply Rmult_le_pos; [exact He|left; apply Rinv_0_lt_compat; exact Ha]).
  assert (M : rmean (map (mean_risk eta alpha (equal_weights m) tau) samples) - rmean (map (mean_risk eta alpha theta tau) samples) <= (1 + eta / alpha) * (B * (2 * INR m * (pnorm PInfty theta - 1 / INR m)))).
  { apply rmean_diff; [exact Hn|]. intros x Hx. eapply Rle_trans; [apply mean_risk_lip; assumption|]. apply Rmult_le_compat_l; [lra|].
    rewrite dot_diff by (unfold equal_weights; rewrite repeat_length; exact L). eapply Rle_trans; [apply dot_bound; [exact HB|]; rewrite Forall_forall in Hs; apply Hs; exact Hx|].
    apply Rmult_le_compat_l; [exact HB|exact D]. }
  set (T := pnorm PInfty theta) in *. set (k := 1 + eta / alpha) in *. set (im := 1 / INR m) in *.
  replace (k * ((T - im) * (2 * INR m * B - rho))) with (k * (B * (2 * INR m * (T - im))) + rho * (k * im) - rho * (k * T)) by ring. lra.
Qed.
Lemma max_equal m theta : length theta = m -> rsum theta = 1 -> (0 < m)%nat -> pnorm PInfty theta <= 1 / INR m -> theta = equal_weights m.
Proof.
  intros L S Hm H.
  assert (Fm : Forall (fun a => a <= 1 / INR m) theta).
  { apply Forall_forall. intros a Hin. eapply Rle_trans; [apply Rle_abs|]. eapply Rle_trans; [apply pnorm_inf_ge; exact Hin|exact H]. }
  pose proof (distance_to_equal m theta _ L S Hm Fm) as D. replace (2 * INR m * (1 / INR m - 1 / INR m)) with 0 in D by ring. unfold equal_weights in *.
  assert (G : forall l c, rsum (map Rabs (vsub l (repeat c (length l)))) <= 0 -> l = repeat c (length l)).
  { clear. induction l as [|a l IH]; intros c H; [reflexivity|]. cbn [length repeat] in *. unfold vsub in *. cbn [map2 map rsum] in H.
    assert (0 <= rsum (map Rabs (map2 Rminus l (repeat c (length l))))) by (clear; induction (map2 Rminus l (repeat c (length l))) as [|b v IH]; cbn; [lra|pose proof (Rabs_pos b); lra]).
    pose proof (Rabs_pos (a - c)). assert (Z : Rabs (a - c) = 0) by lra. assert (a = c) by (destruct (Req_dec (a - c) 0) as [Q|Q]; [lra|apply Rabs_no_R0 in Q; contradiction]). subst. f_equal. apply IH. lra. }
  rewrite <- L. apply G. rewrite L. exact D.
Qed.

(* ---------- sums over assets ---------- *)
Lemma rsum_map_zero {A} (f : A -> R) l : (forall a, In a l -> f a = 0) -> rsum (map f l) = 0.
Proof. induction l as [|a l IH]; cbn; intros H; [reflexivity|]. rewrite (H a), IH by auto. ring. Qed.
Lemma dot_maps {A} (f g : A -> R) l : dot (map f l) (map g l) = rsum (map (fun i => f i * g i) l).
Proof. unfold dot. induction l as [|a l IH]; cbn; [reflexivity|]. rewrite IH. reflexivity. Qed.
Lemma vec_seq (v : vec) : map (fun i => nth i v 0) (seq 0 (length v)) = v.
Proof. induction v as [|a v IH]; [reflexivity|]. cbn [length seq map nth]. f_equal. rewrite <- seq_shift, map_map. exact IH. Qed.
Lemma dot_seq m u v : length u = m -> length v = m -> dot u v = rsum (map (fun i => nth i u 0 * nth i v 0) (seq 0 m)).
Proof. intros <- H. rewrite <- (vec_seq u) at 1. rewrite <- (vec_seq v) at 1. rewrite H. apply dot_maps. Qed.
Definition asset_mean (samples : list vec) (i : nat) : R := rmean (map (fun x => nth i x 0) samples).
Lemma rsum_swap {A} m (f : A -> nat -> R) (l : list A) : rsum (map (fun x => rsum (map (f x) (seq 0 m))) l) = rsum (map (fun i => rsum (map (fun x => f x i) l)) (seq 0 m)).
Proof.
  induction l as [|a l IH]; cbn [map rsum]; [symmetry; apply rsum_map_zero; reflexivity|]. rewrite IH. clear IH. induction (seq 0 m) as [|i s IH]; cbn [map rsum]; [lra|]. lra.
Qed.
Lemma mean_return m theta samples : length theta = m -> Forall (fun x => length x = m) samples ->
  rmean (map (dot theta) samples) = rsum (map (fun i => nth i theta 0 * asset_mean samples i) (seq 0 m)).
Proof.
  intros L F. unfold rmean, asset_mean, rmean. rewrite map_length.
  rewrite (map_ext_in (dot theta) (fun x => rsum (map (fun i => nth i theta 0 * nth i x 0) (seq 0 m)))) by (intros x Hx; rewrite Forall_forall in F; apply dot_seq; auto).
  rewrite rsum_swap. unfold Rdiv. induction (seq 0 m) as [|i s IH]; cbn [map rsum]; [lra|]. rewrite Rmult_plus_distr_r, IH. f_equal. rewrite map_length, <- Rmult_assoc. f_equal.
  clear. induction samples as [|x l IH]; cbn [map rsum]; [lra|]. lra.
Qed.
Lemma mean_risk_neutral alpha theta tau samples : 0 < alpha -> rmean (map (mean_risk 0 alpha theta tau) samples) = - rmean (map (dot theta) samples).
Proof.
  intros Ha. unfold rmean. rewrite !map_length. rewrite (map_ext (mean_risk 0 alpha theta tau) (fun x => - dot theta x)) by (intros x; unfold mean_risk; ring).
  assert (E : rsum (map (fun x => - dot theta x) samples) = - rsum (map (dot theta) samples)) by (induction samples as [|x l IH]; cbn [map rsum]; lra). rewrite E. unfold Rdiv. ring.
Qed.
Definition all_in (m j : nat) : vec := map (fun i => if Nat.eqb i j then 1 else 0) (seq 0 m).
Lemma rsum_pick (f : nat -> R) j l : NoDup l -> In j l -> rsum (map (fun i => (if Nat.eqb i j then 1 else 0) * f i) l) = f j.
Proof.
  intros N H. induction N as [|a l Ha N IH]; [contradiction|]. cbn [map rsum]. destruct (Nat.eqb_spec a j) as [->|Q].
  - assert (Z : rsum (map (fun i => (if Nat.eqb i j then 1 else 0) * f i) l) = 0).
    { apply rsum_map_zero. intros i Hi. destruct (Nat.eqb_spec i j) as [->|]; [contradiction|ring]. }
    rewrite Z. ring.
  - destruct H as [H|H]; [contradiction|]. rewrite (IH H). ring.
Qed.
Lemma all_in_nth m j i : (i < m)%nat -> nth i (all_in m j) 0 = if Nat.eqb i j then 1 else 0.
Proof.
  intros H. unfold all_in. set (f := fun i => if Nat.eqb i j then 1 else 0). rewrite (nth_indep _ 0 (f 0%nat)) by (rewrite map_length, seq_length; exact H).
  rewrite (map_nth f), seq_nth by exact H. reflexivity.
Qed.
Lemma all_in_sum m j (f : nat -> R) : (j < m)%nat -> rsum (map (fun i => nth i (all_in m j) 0 * f i) (seq 0 m)) = f j.
Proof.
  intros H. rewrite (map_ext_in _ (fun i => (if Nat.eqb i j then 1 else 0) * f i)) by (intros i Hi; apply in_seq in Hi; rewrite all_in_nth by lia; reflexivity).
  apply rsum_pick; [apply seq_NoDup|apply in_seq; lia].
Qed.
Lemma rsum_seq v : rsum v = rsum (map (fun i => nth i v 0 * 1) (seq 0 (length v))).
Proof. rewrite (map_ext (fun i => nth i v 0 * 1) (fun i => nth i v 0)) by (intros; ring). rewrite vec_seq. reflexivity. Qed.
Lemma all_in_ok m j : (j < m)%nat -> length (all_in m j) = m /\ rsum (all_in m j) = 1 /\ Forall (fun t => 0 <= t) (all_in m j) /\ pnorm PInfty (all_in m j) = 1.
Proof.
  intros H. assert (L : length (all_in m j) = m) by (unfold all_in; rewrite map_length, seq_length; reflexivity). split; [exact L|].
  assert (F : Forall (fun t => 0 <= t <= 1) (all_in m j)). { apply Forall_forall. intros t Ht. apply in_map_iff in Ht. destruct Ht as (i & <- & _). destruct (Nat.eqb i j); lra. }
  split; [rewrite rsum_seq, L; apply (all_in_sum m j (fun _ => 1) H)|]. split; [eapply Forall_impl; [|exact F]; cbn; intros; lra|]. apply Rle_antisym.
  - cbn [pnorm]. apply rmax0_le; [lra|]. intros y Hy. apply in_map_iff in Hy. destruct Hy as (t & <- & Ht). rewrite Forall_forall in F. specialize (F t Ht). rewrite Rabs_pos_eq; lra.
  - eapply Rle_trans; [|apply (pnorm_inf_ge (all_in m j) (nth j (all_in m j) 0)); apply nth_In; rewrite L; exact H]. rewrite all_in_nth, Nat.eqb_refl, Rabs_R1 by exact H. lra.
Qed.
(* with no risk term, giving up the best asset costs its lead *)
Lemma concentrate m alpha rho samples theta tau j g : 0 < alpha -> 0 <= rho -> samples <> [] -> Forall (fun x => length x = m) samples -> (j < m)%nat ->
  (forall i, (i < m)%nat -> i <> j -> asset_mean samples i + g <= asset_mean samples j) ->
  length theta = m -> rsum theta = 1 -> Forall (fun t => 0 <= t) theta ->
  pf_value (PFin 1) 0 alpha rho samples (all_in m j) tau + (g - rho) * (1 - nth j theta 0) <= pf_value (PFin 1) 0 alpha rho samples theta tau.
Proof.
  intros Ha Hr Hn Hs Hj Hg L S F. unfold pf_value. rewrite q_one, !mean_risk_neutral by exact Ha. destruct (all_in_ok m j Hj) as (L1 & S1 & F1 & N1).
  rewrite N1, (mean_return m (all_in m j)), (mean_return m theta), all_in_sum by assumption. set (mu := asset_mean samples) in *.
  replace (0 / alpha) with 0 by (unfold Rdiv; ring).
  assert (T : nth j theta 0 <= pnorm PInfty theta). { eapply Rle_trans; [apply Rle_abs|]. apply pnorm_inf_ge. apply nth_In. rewrite L. exact Hj. }
  assert (D : g * (1 - nth j theta 0) <= mu j - rsum (map (fun i => nth i theta 0 * mu i) (seq 0 m))).
  { assert (E : mu j - g * (1 - nth j theta 0) = rsum (map (fun i => nth i theta 0 * (mu j - g) + g * ((if Nat.eqb i j then 1 else 0) * nth i theta 0)) (seq 0 m))).
    { rewrite rsum_map_plus. replace (rsum (map (fun i => nth i theta 0 * (mu j - g)) (seq 0 m))) with (mu j - g).
      - rewrite (rsum_map_scal g), (rsum_pick (fun i => nth i theta 0)); [ring|apply seq_NoDup|apply in_seq; lia].
      - assert (Q : rsum (map (fun i => nth i theta 0 * 1) (seq 0 m)) = 1) by (rewrite <- L, <- rsum_seq; exact S).
        rewrite (map_ext (fun i => nth i theta 0 * (mu j - g)) (fun i => (mu j - g) * (nth i theta 0 * 1))) by (intros; ring). rewrite rsum_map_scal, Q. ring. }
    assert (U : rsum (map (fun i => nth i theta 0 * mu i) (seq 0 m)) <= mu j - g * (1 - nth j theta 0)).
    { rewrite E. apply rsum_map_le. intros i Hi. apply in_seq in Hi. assert (P : 0 <= nth i theta 0) by (rewrite Forall_forall in F; apply F; apply nth_In; lia).
      destruct (Nat.eqb_spec i j) as [->|Q]; [lra|]. specialize (Hg i ltac:(lia) Q). nra. }
    lra. }
  pose proof (Rmult_le_compat_l _ _ _ Hr T). lra.
Qed.
