From Coq Require Import Reals List Bool ZArith Lra Lia String Permutation.
From Verif Require Import PyBase RList XReal Costs_Model Costs_Proofs NewsV_Model NewsV_Proofs DedProg_Model Tuner_Model Tuner_Spec Tuner_Proofs.
Import ListNotations.
Local Open Scope R_scope.
Local Open Scope list_scope.

(* ---------- matrices ---------- *)
Definition wf (m : nat) (A : list vec) : Prop := List.length A = m /\ Forall (fun r => List.length r = m) A.
Lemma matvec_len A x : List.length (matvec A x) = List.length A.
Proof. apply map_length. Qed.
Lemma matvec_madd m : forall A B, Forall (fun r => List.length r = m) A -> Forall (fun r => List.length r = m) B -> forall x, List.length x = m ->
  matvec (madd A B) x = vadd (matvec A x) (matvec B x).
Proof.
  unfold matvec, madd, vadd. induction A as [|a A IH]; intros [|b B] HA HB x Hx; cbn; try reflexivity.
  inversion HA; inversion HB; subst. f_equal; [|apply IH; auto]. apply dot_vadd_l; congruence.
Qed.
Lemma wf_madd m A B : wf m A -> wf m B -> wf m (madd A B).
Proof.
  intros [LA FA] [LB FB]. split; [unfold madd; rewrite map2_length; congruence|]. clear LA LB. unfold madd.
  revert B FB. induction FA as [|a A Ha FA IH]; intros B FB; destruct FB as [|b B Hb FB]; cbn; constructor; [|apply IH; exact FB].
  rewrite vadd_length; congruence.
Qed.
Lemma wf_mzero m : wf m (mzero m).
Proof. split; [apply repeat_length|]. apply Forall_forall. intros r Hr. apply repeat_spec in Hr. subst. apply repeat_length. Qed.
Lemma wf_outer m r : List.length r = m -> wf m (outer r r).
Proof. intros H. split; [unfold outer; rewrite map_length; exact H|]. unfold outer. apply Forall_forall. intros v Hv. apply in_map_iff in Hv. destruct Hv as (a & <- & _). rewrite vscal_length. exact H. Qed.
Lemma matvec_outer r x : matvec (outer r r) x = vscal (dot r x) r.
Proof. unfold matvec, outer. rewrite map_map. change (vscal (dot r x) r) with (map (Rmult (dot r x)) r). apply map_ext. intros a. rewrite dot_vscal_l. ring. Qed.
Lemma matvec_mscal c A x : matvec (mscal c A) x = vscal c (matvec A x).
Proof. unfold matvec, mscal. rewrite map_map. unfold vscal at 2. rewrite map_map. apply map_ext. intros a. apply dot_vscal_l. Qed.
Lemma wf_mscal m c A : wf m A -> wf m (mscal c A).
Proof. intros [L F]. split; [unfold mscal; rewrite map_length; exact L|]. unfold mscal. rewrite Forall_map. eapply Forall_impl; [|exact F]. cbn. intros. rewrite vscal_length. exact H. Qed.
Lemma dot_zero_mat u m x : dot u (matvec (mzero m) x) = 0.
Proof.
  unfold matvec, mzero. assert (E : forall k, map (fun c => dot c x) (repeat (repeat 0 m) k) = repeat 0 k).
  { induction k as [|k IH]; [reflexivity|]. cbn. rewrite IH. f_equal. clear. revert x. induction m as [|m IH]; intros [|a x]; unfold dot in *; cbn; auto. rewrite IH. ring. }
  rewrite E. clear E. unfold dot. revert u. generalize m at 1. clear m. intros k. induction k as [|k IH]; intros [|a u]; cbn; auto. rewrite IH. ring.
Qed.
Definition rows_ok (m : nat) (H : list vec) : Prop := Forall (fun r => List.length r = m) H.
Lemma wf_gram m H : rows_ok m H -> wf m (gram m H).
Proof. induction 1 as [|r H Hr HH IH]; cbn; [apply wf_mzero|]. apply wf_madd; [apply wf_outer; exact Hr|exact IH]. Qed.
Lemma gram_form m H u v : rows_ok m H -> List.length u = m -> List.length v = m ->
  dot u (matvec (gram m H) v) = dot (matvec H u) (matvec H v).
Proof.
  intros R Hu Hv. induction R as [|r H Hr HH IH]; cbn [gram fold_right].
  - rewrite dot_zero_mat. reflexivity.
  - fold (gram m H). destruct (wf_outer m r Hr) as [L1 F1]. destruct (wf_gram m H HH) as [L2 F2].
    rewrite (matvec_madd m) by auto. rewrite matvec_outer.
    rewrite dot_vadd_r; [|rewrite vscal_length; congruence|rewrite vscal_length, matvec_len; congruence].
    rewrite dot_vscal_r, IH. change (matvec (r :: H) u) with (dot r u :: matvec H u). change (matvec (r :: H) v) with (dot r v :: matvec H v).
    change (dot (dot r u :: matvec H u) (dot r v :: matvec H v)) with (dot r u * dot r v + dot (matvec H u) (matvec H v)).
    rewrite (dot_comm u r). ring.
Qed.
Definition hess_ok (m : nat) (Hs : list (list vec)) : Prop := Forall (rows_ok m) Hs.
Lemma wf_sum m Hs : hess_ok m Hs -> wf m (fold_right (fun H G => madd (gram m H) G) (mzero m) Hs).
Proof. induction 1 as [|r H Hr HH IH]; cbn; [apply wf_mzero|]. apply wf_madd; [apply wf_gram; exact Hr|exact IH]. Qed.
Lemma wf_A m Hs : hess_ok m Hs -> wf m (phi_A m Hs).
Proof. intros H. apply wf_mscal, wf_sum, H. Qed.
Lemma sum_form m Hs u v : hess_ok m Hs -> List.length u = m -> List.length v = m ->
  dot u (matvec (fold_right (fun H G => madd (gram m H) G) (mzero m) Hs) v) = rsum (map (fun H => dot (matvec H u) (matvec H v)) Hs).
Proof.
  intros R Hu Hv. induction R as [|H Hs HH HHs IH]; cbn [fold_right map rsum]; [apply dot_zero_mat|].
  destruct (wf_gram m H HH) as [L1 F1]. destruct (wf_sum m Hs HHs) as [L2 F2].
  rewrite (matvec_madd m) by auto. rewrite dot_vadd_r; [|rewrite matvec_len; congruence|rewrite !matvec_len; congruence].
  rewrite IH, gram_form by auto. reflexivity.
Qed.
Definition qform (m : nat) (Hs : list (list vec)) (u v : vec) : R := rsum (map (fun H => dot (matvec H u) (matvec H v)) Hs).
Lemma A_form m Hs u v : hess_ok m Hs -> List.length u = m -> List.length v = m ->
  dot u (matvec (phi_A m Hs) v) = 1 / 2 * INR (List.length Hs) * qform m Hs u v.
Proof. intros R Hu Hv. unfold phi_A. rewrite matvec_mscal, dot_vscal_r, sum_form by auto. reflexivity. Qed.
Lemma qform_sym m Hs u v : qform m Hs u v = qform m Hs v u.
Proof. unfold qform. f_equal. apply map_ext. intros H. apply dot_comm. Qed.
Lemma qform_nonneg m Hs u : 0 <= qform m Hs u u.
Proof. unfold qform. apply rsum_map_nonneg. intros H _. apply sqnorm_nonneg. Qed.
Lemma matvec_comb m H u v t : rows_ok m H -> List.length u = m -> List.length v = m -> matvec H (vadd u (vscal t v)) = vadd (matvec H u) (vscal t (matvec H v)).
Proof.
  intros R Hu Hv. unfold matvec, vadd at 2, vscal at 2. rewrite map_map. induction R as [|r H Hr HH IH]; cbn; [reflexivity|]. f_equal; [|exact IH].
  rewrite dot_vadd_r, dot_vscal_r by (rewrite ?vscal_length; congruence). reflexivity.
Qed.
Lemma qform_comb m Hs u v t : hess_ok m Hs -> List.length u = m -> List.length v = m ->
  qform m Hs (vadd u (vscal t v)) (vadd u (vscal t v)) = qform m Hs u u + 2 * t * qform m Hs u v + t * t * qform m Hs v v.
Proof.
  intros R Hu Hv. unfold qform. induction R as [|H Hs HH HHs IH]; cbn; [ring|]. rewrite IH, !(matvec_comb m) by auto.
  rewrite !dot_vadd_l, !dot_vadd_r, !dot_vscal_l, !dot_vscal_r by (rewrite ?vadd_length, ?vscal_length, ?matvec_len; auto; rewrite ?vscal_length, ?matvec_len; auto).
  rewrite (dot_comm (matvec H v) (matvec H u)). ring.
Qed.
Lemma phi_qform m Hs a : Hs <> [] -> blanchet_phi Hs a = / (4 * INR (List.length Hs)) * qform m Hs a a.
Proof.
  intros Hn. unfold blanchet_phi, rmean, qform. rewrite map_length. unfold sqnorm, hess_apply. unfold matvec. field. apply Rgt_not_eq, INR_length_pos, Hn.
Qed.
(* the linear coefficient of a quadratic that is never positive *)
Lemma linear_zero p q : (forall t, t * p - t * t * q <= 0) -> p = 0.
Proof.
  intros H. destruct (Req_dec p 0) as [E|E]; [exact E|exfalso].
  set (k := Rabs q + 1). assert (Hk : 0 < k) by (unfold k; pose proof (Rabs_pos q); lra). assert (Hq : q <= k) by (unfold k; pose proof (Rle_abs q); lra).
  specialize (H (p / (2 * k))). replace (p / (2 * k) * p - p / (2 * k) * (p / (2 * k)) * q) with ((p * p) * (2 * k - q) / (4 * (k * k))) in H by (field; lra).
  assert (0 < (p * p) * (2 * k - q) / (4 * (k * k))); [|lra].
  apply Rmult_lt_0_compat; [|apply Rinv_0_lt_compat; nra]. apply Rmult_lt_0_compat; [nra|lra].
Qed.
Lemma max_critical m Hs z w : Hs <> [] -> hess_ok m Hs -> List.length z = m ->
  is_max (fun a => List.length a = m) (fun a => dot a z - blanchet_phi Hs a) w ->
  exists a, List.length a = m /\ w = dot a z - blanchet_phi Hs a /\ forall u, List.length u = m -> dot u z = / (2 * INR (List.length Hs)) * qform m Hs u a.
Proof.
  intros Hn R Hz [(a & Ha & Ea) M]. exists a. split; [exact Ha|]. split; [auto|]. intros u Hu. pose proof (INR_length_pos Hs Hn) as HN.
  set (n := INR (List.length Hs)) in *. apply Rminus_diag_uniq. apply (linear_zero _ (/ (4 * n) * qform m Hs u u)). intros t.
  specialize (M (vadd a (vscal t u)) ltac:(rewrite vadd_length; rewrite ?vscal_length; congruence)). cbn beta in M. rewrite <- Ea in M.
  rewrite !(phi_qform m) in M by auto. rewrite qform_comb in M by auto. fold n in M.
  rewrite dot_vadd_l, dot_vscal_l in M by (rewrite ?vscal_length; congruence). rewrite (qform_sym m Hs a u) in M.
  match goal with |- ?L <= 0 => replace L with (dot a z + t * dot u z - / (4 * n) * (qform m Hs a a + 2 * t * qform m Hs u a + t * t * qform m Hs u u) - (dot a z - / (4 * n) * qform m Hs a a)) end; [lra|].
  field. lra.
Qed.
Lemma dot_all_eq m (x y : vec) : List.length x = m -> List.length y = m -> (forall u, List.length u = m -> dot u x = dot u y) -> x = y.
Proof.
  intros Hx Hy H. assert (S : sqnorm (vsub x y) = 0).
  { unfold sqnorm. rewrite dot_vsub_r by (rewrite ?vsub_length; congruence). rewrite (H (vsub x y)) by (rewrite vsub_length; congruence). ring. }
  apply sqnorm_zero in S. clear H. revert y Hy S. unfold vec in *. subst m. induction x as [|a x IH]; intros [|b y] Hy S; try discriminate; [reflexivity|].
  cbn in S. inversion S; subst. f_equal; [lra|]. apply IH; auto.
Qed.
Lemma phi_conjugate pinv m Hs z w : Hs <> [] -> hess_ok m Hs -> List.length z = m -> moore_penrose m (phi_A m Hs) (pinv (phi_A m Hs)) ->
  is_max (fun a => List.length a = m) (fun a => dot a z - blanchet_phi Hs a) w ->
  w = INR (List.length Hs) * INR (List.length Hs) * phi_star pinv m Hs z.
Proof.
  intros Hn R Hz MP Hw. destruct (max_critical m Hs z w Hn R Hz Hw) as (a & Ha & Ew & Cr). pose proof (INR_length_pos Hs Hn) as HN.
  destruct (wf_A m Hs R) as [LA FA]. set (A := phi_A m Hs) in *. set (P := pinv A) in *. destruct MP as (LP & _ & MP1 & _).
  set (n := INR (List.length Hs)) in *.
  set (b := vscal (/ (n * n)) a). assert (Hb : List.length b = m) by (unfold b; rewrite vscal_length; exact Ha).
  assert (Ez : z = matvec A b).
  { apply (dot_all_eq m); [exact Hz|rewrite matvec_len; exact LA|]. intros u Hu. unfold A. rewrite A_form by auto. fold n.
    unfold b. replace (qform m Hs u (vscal (/ (n * n)) a)) with (/ (n * n) * qform m Hs u a).
    - rewrite (Cr u Hu). fold n. field. lra.
    - unfold qform. rewrite <- rsum_map_scal. f_equal. apply map_ext. intros H. unfold matvec. rewrite <- dot_vscal_r. f_equal.
      unfold vscal at 1. rewrite map_map. apply map_ext. intros r. rewrite dot_vscal_r. reflexivity. }
  unfold phi_star. fold A. fold P. cbn zeta. set (c := matvec P z). assert (Hc : List.length c = m) by (unfold c; rewrite matvec_len; exact LP).
  assert (Ac : matvec A c = z) by (unfold c; rewrite Ez at 1; rewrite Ez; apply MP1; exact Hb).
  rewrite Ac, (dot_comm z c). 
  assert (E1 : dot c z = dot b z).
  { rewrite Ez at 1. rewrite <- Ac. unfold A. rewrite !A_form by auto. rewrite (qform_sym m Hs c b). reflexivity. }
  rewrite Ew, E1, (phi_qform m) by auto. fold n. unfold b. rewrite dot_vscal_l.
  rewrite (Cr a Ha). fold n. field. lra.
Qed.
Lemma phi_not_in_range : exists m Hs z pinv,
  Hs <> [] /\ hess_ok m Hs /\ List.length z = m /\ moore_penrose m (phi_A m Hs) (pinv (phi_A m Hs)) /\
  unbounded (fun a => List.length a = m) (fun a => dot a z - blanchet_phi Hs a) /\ phi_star pinv m Hs z = 0.
Proof.
  exists 2%nat, [[[1; 0]]], [0; 1], (fun _ => [[2; 0]; [0; 0]]).
  assert (EA : phi_A 2 [[[1; 0]]] = [[1 / 2; 0]; [0; 0]]).
  { unfold phi_A, gram, madd, outer, mscal, mzero, vscal, vadd. cbn. repeat (apply f_equal2); try reflexivity; field. }
  split; [discriminate|]. split; [repeat constructor|]. split; [reflexivity|]. rewrite EA. split; [|split].
  - repeat split; try (repeat constructor; fail).
    + intros [|a [|b [|c x]]] H; try discriminate. unfold mat_apply, dot. cbn. f_equal; [field|apply f_equal2; [field|reflexivity]].
    + intros [|a [|b [|c x]]] H; try discriminate. unfold mat_apply, dot. cbn. f_equal; [field|apply f_equal2; [field|reflexivity]].
    + intros [|a [|b [|c x]]] [|a' [|b' [|c' y]]] H H'; try discriminate. unfold mat_apply, dot. cbn. field.
    + intros [|a [|b [|c x]]] [|a' [|b' [|c' y]]] H H'; try discriminate. unfold mat_apply, dot. cbn. field.
  - intros M. exists [0; M + 1]. split; [reflexivity|]. unfold blanchet_phi, rmean, sqnorm, hess_apply, dot. cbn. lra.
  - unfold phi_star. rewrite EA. unfold matvec, dot. cbn. ring.
Qed.

(* ---------- the radius of the portfolio tuner ---------- *)
Lemma nth_bound (P : R -> Prop) z d k : Forall P z -> P d -> P (nth k z d).
Proof. intros H Hd. destruct (nth_in_or_default k z d) as [I|E]; [|rewrite E; exact Hd]. rewrite Forall_forall in H. auto. Qed.
Lemma nth_sorted z k : asc z -> nth k z 0 <= nth (S k) z (nth k z 0).
Proof.
  intros A. revert k. induction A as [|x z A IH F]; intros k; [destruct k; cbn; lra|]. destruct k as [|k]; cbn [nth].
  - destruct z as [|y z]; cbn; [lra|]. inversion F; auto.
  - apply IH.
Qed.
Lemma quantile_bounds level l lo hi : 0 <= level <= 1 -> l <> [] -> Forall (fun x => lo <= x <= hi) l -> lo <= quantile level l <= hi.
Proof.
  intros Hl Hn H. unfold quantile. cbn zeta. set (z := nsort l). set (pos := level * INR (List.length l - 1)).
  assert (Hpos : 0 <= pos) by (apply Rmult_le_pos; [lra|apply pos_INR]).
  destruct (base_Int_part pos) as [B1 B2]. assert (I0 : (0 <= Int_part pos)%Z).
  { assert (IZR (-1) < IZR (Int_part pos)) by (change (IZR (-1)) with (-1); lra). apply lt_IZR in H0. lia. }
  set (k := Z.to_nat (Int_part pos)). assert (Ek : INR k = IZR (Int_part pos)) by (unfold k; rewrite INR_IZR_INZ, Z2Nat.id by exact I0; reflexivity).
  pose proof (nsort_perm l) as PZ. fold z in PZ. assert (F : Forall (fun x => lo <= x <= hi) z).
  { rewrite Forall_forall in *. intros x Hx. apply H. eapply Permutation_in; eassumption. }
  assert (Hk : (k < List.length z)%nat).
  { rewrite (Permutation_length PZ). assert (pos <= INR (List.length l - 1)).
    { unfold pos. rewrite <- (Rmult_1_l (INR (List.length l - 1))) at 2. apply Rmult_le_compat_r; [apply pos_INR|lra]. }
    assert (INR k <= INR (List.length l - 1)) by lra. apply INR_le in H1. destruct l; [contradiction|]. cbn [List.length] in *. lia. }
  assert (N : lo <= nth k z 0 <= hi) by (rewrite Forall_forall in F; apply F, nth_In, Hk).
  assert (N' : lo <= nth (S k) z (nth k z 0) <= hi) by (apply (nth_bound (fun x => lo <= x <= hi)); auto).
  pose proof (nth_sorted z k (nsort_asc l)) as S. set (f := pos - INR k). assert (Hf : 0 <= f <= 1) by (unfold f; lra). nra.
Qed.
Lemma indicators_range theta tau X is : indicators theta tau X = Ok is -> List.length is = List.length X /\ Forall (fun i => 0 <= i <= 1) is.
Proof.
  revert is. induction X as [|x X IH]; cbn; intros is H; [injection H as <-; split; constructor|].
  destruct (indicator_cases theta x tau) as [[A B]|[[A B]|[A B]]]; rewrite B in H; cbn in H; try discriminate;
  destruct (indicators theta tau X) as [l|] eqn:E; cbn in H; try discriminate; injection H as <-; destruct (IH l eq_refl) as [L F]; split; cbn; try lia; constructor; auto; lra.
Qed.
Lemma phi_portfolio_bounds q eta alpha tau theta X z v : X <> [] -> 0 <= eta -> 0 < alpha ->
  phi_star_portfolio q eta alpha tau theta X z = Ok v -> 0 <= v <= pnorm q z * pnorm q z.
Proof.
  intros Hn He Ha H. unfold phi_star_portfolio in H. destruct (indicators theta tau X) as [is|] eqn:E; cbn in H; [|discriminate]. injection H as <-.
  destruct (indicators_range _ _ _ _ E) as [L F].
  set (C := rsum (map (fun i => 1 + eta / alpha * i) is)).
  assert (HC : INR (List.length X) <= C).
  { unfold C. rewrite rsum_map_plus, rsum_map_const, L. assert (0 <= rsum (map (Rmult (eta / alpha)) is)); [|lra].
    apply rsum_map_nonneg. intros i Hi. rewrite Forall_forall in F. apply Rmult_le_pos; [|apply F, Hi]. apply Rmult_le_pos; [exact He|]. apply Rlt_le, Rinv_0_lt_compat, Ha. }
  pose proof (INR_length_pos X Hn) as HX. set (s := pnorm q z * pnorm q z). assert (Hs : 0 <= s) by (unfold s; nra).
  split.
  - apply Rmult_le_pos; [apply Rmult_le_pos; lra|]. apply Rlt_le, Rinv_0_lt_compat. lra.
  - apply (Rmult_le_reg_r C); [lra|]. unfold Rdiv. rewrite Rmult_assoc, Rinv_l by lra. nra.
Qed.
Lemma all_phi_bounds q eta alpha tau theta X M : X <> [] -> 0 <= eta -> 0 < alpha -> forall zs l, all_phi q eta alpha tau theta X zs = Ok l ->
  Forall (fun z => pnorm q z <= M) zs -> Forall (fun z => 0 <= pnorm q z) zs -> List.length l = List.length zs /\ Forall (fun v => 0 <= v <= M * M) l.
Proof.
  intros Hn He Ha. induction zs as [|z zs IH]; cbn; intros l H F G; [injection H as <-; split; constructor|].
  destruct (phi_star_portfolio q eta alpha tau theta X z) as [v|] eqn:E; cbn in H; [|discriminate].
  destruct (all_phi q eta alpha tau theta X zs) as [l'|] eqn:E'; cbn in H; [|discriminate]. injection H as <-. inversion F; inversion G; subst.
  destruct (IH l' eq_refl ltac:(auto) ltac:(auto)) as [L B]. split; [cbn; lia|]. constructor; [|exact B].
  destruct (phi_portfolio_bounds _ _ _ _ _ _ _ _ Hn He Ha E) as [V0 V1]. split; [exact V0|]. eapply Rle_trans; [exact V1|]. nra.
Qed.
Lemma radius_bounds draw q eta alpha tau theta X rho M : X <> [] -> 0 <= eta -> 0 < alpha -> 0 <= M ->
  (forall S, draw S <> [] /\ Forall (fun z => 0 <= pnorm q z <= M) (draw S)) ->
  portfolio_radius draw q eta alpha tau theta X = Ok rho -> 0 <= rho <= M / sqrt (INR (List.length X)).
Proof.
  intros Hn He Ha HM HD H. unfold portfolio_radius in H. destruct (all_h eta alpha tau theta X) as [hs|]; cbn in H; [|discriminate].
  destruct (HD (np_cov hs)) as [D0 D1]. destruct (all_phi q eta alpha tau theta X (draw (np_cov hs))) as [l|] eqn:E; cbn in H; [|discriminate]. injection H as <-.
  destruct (all_phi_bounds q eta alpha tau theta X M Hn He Ha _ _ E) as [L B].
  { eapply Forall_impl; [|exact D1]. cbn; intros; lra. } { eapply Forall_impl; [|exact D1]. cbn; intros; lra. }
  assert (Hl : l <> []) by (intros ->; cbn in L; destruct (draw (np_cov hs)); [contradiction|discriminate]).
  pose proof (INR_length_pos X Hn) as HX. destruct (quantile_bounds (95 / 100) l 0 (M * M) ltac:(lra) Hl B) as [Q0 Q1].
  split; [apply sqrt_pos|]. replace (M / sqrt (INR (List.length X))) with (sqrt (1 / INR (List.length X) * (M * M))).
  - apply sqrt_le_1_alt. apply Rmult_le_compat_l; [|exact Q1]. unfold Rdiv. rewrite Rmult_1_l. apply Rlt_le, Rinv_0_lt_compat, HX.
  - rewrite sqrt_mult_alt; [|unfold Rdiv; rewrite Rmult_1_l; apply Rlt_le, Rinv_0_lt_compat, HX]. rewrite sqrt_square by exact HM.
    unfold Rdiv. rewrite Rmult_1_l. rewrite <- sqrt_inv by exact HX. ring.
Qed.
Lemma radius_defined draw q eta alpha tau theta X : (exists rho, portfolio_radius draw q eta alpha tau theta X = Ok rho) <-> Forall (fun x => dot theta x + tau <> 0) X.
Proof.
  assert (I : Forall (fun x => dot theta x + tau <> 0) X -> exists is, indicators theta tau X = Ok is).
  { induction 1 as [|x X Hx HX [is IH]]; cbn; [eauto|]. destruct (indicator_cases theta x tau) as [[A B]|[[A B]|[A B]]]; [contradiction| |]; rewrite B, IH; cbn; eauto. }
  assert (Hh : Forall (fun x => dot theta x + tau <> 0) X <-> exists hs, all_h eta alpha tau theta X = Ok hs).
  { clear I. induction X as [|x X IH]; cbn; [split; [eauto|constructor]|]. unfold compute_h. split.
    - intros H. inversion H; subst. destruct (proj1 IH H3) as [hs E]. destruct (indicator_cases theta x tau) as [[A B]|[[A B]|[A B]]]; [contradiction| |]; rewrite B, E; cbn; eauto.
    - intros [hs H]. destruct (indicator_cases theta x tau) as [[A B]|[[A B]|[A B]]]; rewrite B in H; cbn in H; [discriminate| |];
        (destruct (all_h eta alpha tau theta X) as [l|] eqn:E; cbn in H; [|discriminate]); constructor; try lra; apply IH; eauto. }
  unfold portfolio_radius. split.
  - intros [rho H]. apply Hh. destruct (all_h eta alpha tau theta X); cbn in H; [eauto|discriminate].
  - intros H. destruct (proj1 Hh H) as [hs ->]. cbn. destruct (I H) as [is Eis].
    assert (P : forall zs, exists l, all_phi q eta alpha tau theta X zs = Ok l).
    { induction zs as [|z zs [l IH]]; cbn; [eauto|]. unfold phi_star_portfolio. rewrite Eis. cbn. rewrite IH. cbn. eauto. }
    destruct (P (draw (np_cov hs))) as [l ->]. cbn. eauto.
Qed.
(* the covariance handed to the normal law: one row and column per sample, not per parameter *)
Lemma cov_size M : List.length (np_cov M) = List.length M /\ Forall (fun r => List.length r = List.length M) (np_cov M).
Proof. unfold np_cov. split; [apply map_length|]. apply Forall_forall. intros r Hr. apply in_map_iff in Hr. destruct Hr as (u & <- & _). apply map_length. Qed.
Lemma all_h_length eta alpha tau theta X hs : all_h eta alpha tau theta X = Ok hs -> List.length hs = List.length X /\ Forall2 (fun x h => List.length h = S (List.length x)) X hs.
Proof.
  revert hs. induction X as [|x X IH]; cbn; intros hs H; [injection H as <-; split; [reflexivity|constructor]|].
  destruct (compute_h eta alpha tau theta x) as [h|] eqn:E; cbn in H; [|discriminate]. destruct (all_h eta alpha tau theta X) as [l|]; cbn in H; [|discriminate]. injection H as <-.
  destruct (IH l eq_refl) as [L F]. split; [cbn; lia|]. constructor; [|exact F]. unfold compute_h in E.
  destruct (indicator theta x tau); cbn in E; [|discriminate]. injection E as <-. rewrite map_length, vadd_length; rewrite ?vscal_length, !app_length; cbn; lia.
Qed.

(* ---------- attributes ---------- *)
Lemma blanchet_never e ded r : exists x, blanchet_start e ded r = Raise x.
Proof. destruct e, ded, r as [[]|]; cbn; eauto. Qed.
Lemma pf_blanchet_only e ded r : pf_blanchet_start e ded r = Ok tt <-> e = EPortfolio /\ ded = true /\ r = Ok tt.
Proof.
  destruct e, ded, r as [[]|]; cbn; split; intros H; try discriminate; auto; try (destruct H as (? & ? & ?); discriminate).
Qed.

(* ---------- the quantile counts ---------- *)
Lemma counted_exists {A} (P : A -> Prop) (dec : forall x, {P x} + {~ P x}) l : exists n, counted P l n.
Proof. induction l as [|x l [n IH]]; [exists 0%nat; constructor|]. destruct (dec x); eexists; [eapply counted_in|eapply counted_out]; eauto. Qed.
Lemma counted_perm {A} (P : A -> Prop) l l' n : Permutation l l' -> counted P l n -> counted P l' n.
Proof.
  intros H. revert n. induction H; intros m C.
  - exact C.
  - inversion C; subst; eauto using counted_in, counted_out.
  - inversion C; subst; match goal with H : counted P (_ :: l) _ |- _ => inversion H; subst end; eauto using counted_in, counted_out.
  - auto.
Qed.
Lemma counted_fun {A} (P : A -> Prop) l n m : counted P l n -> counted P l m -> n = m.
Proof. intros H. revert m. induction H; intros m C; inversion C; subst; try contradiction; auto. Qed.
Lemma counted_map {A B} (f : A -> B) (P : B -> Prop) (Q : A -> Prop) l n : (forall a, Q a <-> P (f a)) -> counted P (map f l) n -> counted Q l n.
Proof.
  intros HQ. revert n. induction l as [|a l IH]; intros n C; inversion C; subst; [constructor| |].
  - apply counted_in; [apply HQ; assumption|auto].
  - apply counted_out; [rewrite HQ; assumption|auto].
Qed.
Lemma counted_low (P : R -> Prop) z k n : (forall i, (i <= k)%nat -> (i < List.length z)%nat -> P (nth i z 0)) -> (k < List.length z)%nat -> counted P z n -> (k < n)%nat.
Proof.
  revert k n. induction z as [|x z IH]; intros k n H Hk C; [cbn in Hk; lia|].
  pose proof (H 0%nat ltac:(lia) ltac:(cbn; lia)) as H0. cbn in H0. inversion C; subst; [|contradiction].
  destruct k as [|k]; [lia|]. cut (k < n0)%nat; [lia|]. apply IH; auto; [|cbn in Hk; lia].
  intros i Hi Hl. apply (H (S i)); [lia|cbn; lia].
Qed.
Lemma counted_high (P : R -> Prop) z k n : (forall i, (k < i)%nat -> (i < List.length z)%nat -> P (nth i z 0)) -> counted P z n -> (List.length z - 1 - k <= n)%nat.
Proof.
  revert k n. induction z as [|x z IH]; intros k n H C; [cbn; lia|].
  destruct k as [|k].
  - clear IH. cbn [List.length]. assert (F : Forall P z).
    { apply Forall_forall. intros y Hy. destruct (In_nth z y 0 Hy) as (i & Hi & <-). apply (H (S i)); [lia|cbn; lia]. }
    assert (G : forall m, counted P z m -> m = List.length z).
    { clear - F. induction F as [|y z Hy F IH]; intros m C; inversion C; subst; [reflexivity| |contradiction]. cbn. f_equal. auto. }
    inversion C; subst; rewrite (G _ H4); lia.
  - cbn [List.length]. assert (K : forall m, counted P z m -> (List.length z - 1 - k <= m)%nat).
    { intros m. apply IH. intros i Hi Hl. apply (H (S i)); [lia|cbn; lia]. }
    inversion C; subst; specialize (K _ H4); lia.
Qed.
Lemma asc_nth z : asc z -> forall i j, (i <= j)%nat -> (j < List.length z)%nat -> nth i z 0 <= nth j z 0.
Proof.
  induction 1 as [|x z A IH F]; intros i j H Hj; [cbn in Hj; lia|]. destruct j as [|j]; [replace i with 0%nat by lia; lra|].
  cbn in Hj. destruct i as [|i]; cbn [nth]; [|apply IH; lia]. rewrite Forall_forall in F. apply F, nth_In. lia.
Qed.
Lemma quantile_counts level l n m : 0 <= level <= 1 -> l <> [] -> counted (fun x => x <= quantile level l) l n -> counted (fun x => quantile level l <= x) l m ->
  level * (INR (List.length l) - 1) < INR n /\ (1 - level) * (INR (List.length l) - 1) <= INR m.
Proof.
  intros Hl Hn C D. set (Q := quantile level l) in *. assert (EQ : Q = quantile level l) by reflexivity. unfold quantile in EQ. cbn zeta in EQ.
  set (z := nsort l) in *. set (pos := level * INR (List.length l - 1)) in *.
  assert (Hpos : 0 <= pos) by (apply Rmult_le_pos; [lra|apply pos_INR]).
  destruct (base_Int_part pos) as [B1 B2]. assert (I0 : (0 <= Int_part pos)%Z).
  { assert (IZR (-1) < IZR (Int_part pos)) by (change (IZR (-1)) with (-1); lra). apply lt_IZR in H. lia. }
  set (k := Z.to_nat (Int_part pos)) in *. assert (Ek : INR k = IZR (Int_part pos)) by (unfold k; rewrite INR_IZR_INZ, Z2Nat.id by exact I0; reflexivity).
  pose proof (nsort_perm l) as PZ. fold z in PZ. pose proof (nsort_asc l) as AZ. fold z in AZ. pose proof (Permutation_length PZ) as LZ.
  assert (N1 : (1 <= List.length l)%nat) by (destruct l; [contradiction|cbn; lia]).
  assert (EN : INR (List.length l - 1) = INR (List.length l) - 1) by (rewrite minus_INR by exact N1; reflexivity).
  assert (Hpn : pos <= INR (List.length l - 1)).
  { unfold pos. rewrite <- (Rmult_1_l (INR (List.length l - 1))) at 2. apply Rmult_le_compat_r; [apply pos_INR|lra]. }
  assert (Hk : (k < List.length z)%nat).
  { rewrite LZ. assert (H1 : INR k <= INR (List.length l - 1)) by lra. apply INR_le in H1. lia. }
  pose proof (nth_sorted z k AZ) as S. set (f := pos - INR k) in *. assert (Hf : 0 <= f < 1) by (unfold f; lra).
  apply (counted_perm _ l z) in C; [|apply Permutation_sym; exact PZ]. apply (counted_perm _ l z) in D; [|apply Permutation_sym; exact PZ].
  split.
  - rewrite <- EN. fold pos. apply (counted_low _ z k) in C; auto.
    + assert (INR k + 1 <= INR n) by (rewrite <- S_INR; apply le_INR; lia). lra.
    + intros i Hi Hil. pose proof (asc_nth z AZ i k Hi Hk). nra.
  - apply (counted_high _ z k) in D.
    + rewrite <- EN. replace ((1 - level) * INR (List.length l - 1)) with (INR (List.length l - 1) - pos) by (unfold pos; ring).
      rewrite LZ in D. apply le_INR in D. rewrite minus_INR in D by (apply INR_le; lra). lra.
    + intros i Hi Hil. assert (nth (Datatypes.S k) z (nth k z 0) <= nth i z 0).
      { rewrite (nth_indep z (nth k z 0) 0) by lia. apply asc_nth; [exact AZ|lia|exact Hil]. }
      rewrite EQ. assert (nth k z 0 + f * (nth (Datatypes.S k) z (nth k z 0) - nth k z 0) <= nth (Datatypes.S k) z (nth k z 0)) by nra. lra.
Qed.
Lemma indicators_weight eta alpha theta tau X is : indicators theta tau X = Ok is ->
  map (fun i => 1 + eta / alpha * i) is = map (tail_weight eta alpha tau theta) X.
Proof.
  revert is. induction X as [|x X IH]; cbn; intros is H; [injection H as <-; reflexivity|].
  destruct (indicator_cases theta x tau) as [[A B]|[[A B]|[A B]]]; rewrite B in H; cbn in H; try discriminate;
  destruct (indicators theta tau X) as [l|] eqn:E; cbn in H; try discriminate; injection H as <-; cbn; (apply f_equal2; [|apply IH; reflexivity]);
  unfold tail_weight; destruct (Rlt_dec (dot theta x + tau) 0); try lra; rewrite ?Rmult_1_r, ?Rmult_0_r; reflexivity.
Qed.
Lemma all_phi_values q eta alpha tau theta X zs l : X <> [] -> all_phi q eta alpha tau theta X zs = Ok l ->
  l = map (fun z => INR (List.length X) * (pnorm q z * pnorm q z) / rsum (map (tail_weight eta alpha tau theta) X)) zs.
Proof.
  intros Hn. revert l. induction zs as [|z zs IH]; cbn; intros l H; [injection H as <-; reflexivity|].
  unfold phi_star_portfolio in H at 1. destruct (indicators theta tau X) as [is|] eqn:E; cbn in H; [|discriminate].
  destruct (all_phi q eta alpha tau theta X zs) as [l'|]; cbn in H; [|discriminate]. injection H as <-.
  rewrite <- (indicators_weight _ _ _ _ _ _ E). apply f_equal2; [reflexivity|]. rewrite (indicators_weight _ _ _ _ _ _ E). apply IH. reflexivity.
Qed.
Lemma tail_weight_ge1 eta alpha tau theta x : 0 <= eta -> 0 < alpha -> 1 <= tail_weight eta alpha tau theta x.
Proof. intros He Ha. unfold tail_weight. destruct Rlt_dec; [|lra]. assert (0 <= eta / alpha); [|lra]. apply Rmult_le_pos; [exact He|apply Rlt_le, Rinv_0_lt_compat, Ha]. Qed.
Lemma radius_coverage draw q eta alpha tau theta X rho : X <> [] -> 0 <= eta -> 0 < alpha -> (forall S, draw S <> []) ->
  portfolio_radius draw q eta alpha tau theta X = Ok rho ->
  exists hs, Forall2 (fun x g => List.length theta = List.length x -> is_gradient (fun th ta => mean_risk eta alpha th ta x) theta tau g) X hs /\
  let zs := draw (np_cov hs) in let W := rsum (map (tail_weight eta alpha tau theta) X) in forall n m,
  counted (fun z => pnorm q z * pnorm q z / W <= rho * rho) zs n -> counted (fun z => rho * rho <= pnorm q z * pnorm q z / W) zs m ->
  95 / 100 * (INR (List.length zs) - 1) < INR n /\ 5 / 100 * (INR (List.length zs) - 1) <= INR m.
Proof.
  intros Hn He Ha HD H. unfold portfolio_radius in H. destruct (all_h eta alpha tau theta X) as [hs|] eqn:EH; cbn in H; [|discriminate].
  exists hs. split.
  { clear - EH. revert hs EH. induction X as [|x X IH]; cbn; intros hs H; [injection H as <-; constructor|].
    destruct (compute_h eta alpha tau theta x) as [h|] eqn:E; cbn in H; [|discriminate]. destruct (all_h eta alpha tau theta X) as [l|]; cbn in H; [|discriminate]. injection H as <-.
    constructor; [|apply IH; reflexivity]. intros HL. apply h_is_gradient; auto. }
  cbn zeta. intros n m Cn Cm. set (zs := draw (np_cov hs)) in *. assert (D0 : zs <> []) by apply HD.
  destruct (all_phi q eta alpha tau theta X zs) as [l|] eqn:E; cbn in H; [|discriminate]. injection H as Er.
  pose proof (all_phi_values _ _ _ _ _ _ _ _ Hn E) as El. set (W := rsum (map (tail_weight eta alpha tau theta) X)) in *.
  pose proof (INR_length_pos X Hn) as HX. assert (HW : 0 < W).
  { unfold W. destruct X as [|x X]; [contradiction|]. cbn. pose proof (tail_weight_ge1 eta alpha tau theta x He Ha). assert (0 <= rsum (map (tail_weight eta alpha tau theta) X)); [|lra].
    apply rsum_map_nonneg. intros y _. pose proof (tail_weight_ge1 eta alpha tau theta y He Ha). lra. }
  assert (Q0 : 0 <= quantile (95 / 100) l).
  { assert (Hz : Forall (fun v => 0 <= v) l).
    { rewrite El. rewrite Forall_map. apply Forall_forall. intros z _. apply Rmult_le_pos; [|apply Rlt_le, Rinv_0_lt_compat, HW]. pose proof (pnorm_nonneg q z). apply Rmult_le_pos; nra. }
    assert (Hl : l <> []) by (rewrite El; destruct zs; [contradiction|discriminate]).
    apply (quantile_bounds (95 / 100) l 0 (rsum l)); [lra|exact Hl|]. clear - Hz. apply Forall_forall. intros x Hx. split; [rewrite Forall_forall in Hz; auto|].
    induction Hz as [|y l Hy Hl IH]; [contradiction|]. cbn. assert (0 <= rsum l) by (clear - Hl; induction Hl; cbn; lra). destruct Hx as [<-|Hx]; [lra|]. specialize (IH Hx). lra. }
  assert (Er2 : INR (List.length X) * (rho * rho) = quantile (95 / 100) l).
  { rewrite <- Er. rewrite sqrt_sqrt; [field; lra|]. apply Rmult_le_pos; [|exact Q0]. unfold Rdiv. rewrite Rmult_1_l. apply Rlt_le, Rinv_0_lt_compat, HX. }
  assert (T : forall a b, a <= b <-> INR (List.length X) * a <= INR (List.length X) * b).
  { intros a b. split; [apply Rmult_le_compat_l; lra|apply Rmult_le_reg_l; exact HX]. }
  assert (Hl : l <> []) by (rewrite El; destruct zs; [contradiction|discriminate]).
  destruct (counted_exists (fun x => x <= quantile (95 / 100) l) (fun x => Rle_dec x _) l) as [n' Cn'].
  destruct (counted_exists (fun x => quantile (95 / 100) l <= x) (fun x => Rle_dec _ x) l) as [m' Cm'].
  destruct (quantile_counts (95 / 100) l n' m' ltac:(lra) Hl Cn' Cm') as [R1 R2].
  assert (LZ : List.length l = List.length zs) by (rewrite El; apply map_length).
  set (Q := quantile (95 / 100) l) in *. clearbody Q. rewrite El in Cn', Cm'.
  apply (counted_map _ _ (fun z => pnorm q z * pnorm q z / W <= rho * rho)) in Cn'.
  2:{ intros z. rewrite T, Er2. unfold Rdiv. rewrite !Rmult_assoc. reflexivity. }
  apply (counted_map _ _ (fun z => rho * rho <= pnorm q z * pnorm q z / W)) in Cm'.
  2:{ intros z. rewrite T, Er2. unfold Rdiv. rewrite !Rmult_assoc. reflexivity. }
  rewrite (counted_fun _ _ _ _ Cn Cn'), (counted_fun _ _ _ _ Cm Cm'), <- LZ. split; [exact R1|]. lra.
Qed.
