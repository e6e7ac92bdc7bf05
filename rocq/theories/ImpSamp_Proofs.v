From Coq Require Import Reals List Lra Lia String.
From Verif Require Import PyBase RList XReal LogMeanExp Dual_Model Dual_Spec Dual_Proofs ImpSamp_Model ImpSamp_Spec.
Import ListNotations.
Local Open Scope R_scope.

Lemma sqrt_2PI_pos : 0 < sqrt (2 * PI).
Proof. apply sqrt_lt_R0. pose proof PI_RGT_0. lra. Qed.

Lemma gauss_pos s m x : 0 < s -> 0 < gauss s m x.
Proof.
  intros Hs. unfold gauss. apply Rmult_lt_0_compat; [|apply exp_pos].
  apply Rinv_0_lt_compat, Rmult_lt_0_compat; [exact Hs|apply sqrt_2PI_pos].
Qed.

Lemma gauss_vec_pos s m x : 0 < s -> 0 < gauss_vec s m x.
Proof.
  intros Hs. revert x. induction m as [|a m IH]; intros [|b x]; simpl; try lra.
  apply Rmult_lt_0_compat; [apply gauss_pos; exact Hs|apply IH].
Qed.

Lemma normal_log_prob_gauss s m x : 0 < s -> normal_log_prob s m x = ln (gauss s m x).
Proof.
  intros Hs. pose proof sqrt_2PI_pos as Hp. unfold gauss.
  rewrite ln_mult; [|apply Rinv_0_lt_compat, Rmult_lt_0_compat; assumption|apply exp_pos].
  rewrite ln_exp, ln_Rinv by (apply Rmult_lt_0_compat; assumption). rewrite ln_mult by assumption.
  unfold normal_log_prob. field. lra.
Qed.

Lemma row_log_prob_gauss s m x : 0 < s -> row_log_prob s m x = ln (gauss_vec s m x).
Proof.
  intros Hs. unfold row_log_prob. revert x. induction m as [|a m IH]; intros [|b x]; simpl; try (rewrite ln_1; reflexivity).
  rewrite IH, normal_log_prob_gauss by exact Hs. rewrite ln_mult; [reflexivity|apply gauss_pos; exact Hs|apply gauss_vec_pos; exact Hs].
Qed.

Lemma recentre (xi delta z : vec) :
  List.length delta = List.length xi -> List.length z = List.length xi ->
  vadd (vsub z (vadd xi delta)) xi = vsub z delta.
Proof.
  unfold vadd, vsub. revert delta z. induction xi as [|a xi IH]; intros [|b delta] [|c z] H1 H2; simpl in *; try discriminate; try reflexivity.
  f_equal; [ring|]. apply IH; injection H1; injection H2; auto.
Qed.

Lemma correction_ratio s xi delta z :
  0 < s -> List.length delta = List.length xi -> List.length z = List.length xi ->
  exp (nolabels_log_prob s xi z - nolabels_log_prob_recentered s xi (vadd xi delta) z)
  = gauss_vec s xi z / moved_gauss s xi delta z.
Proof.
  intros Hs H1 H2. unfold nolabels_log_prob, nolabels_log_prob_recentered, moved_gauss.
  rewrite recentre by assumption. rewrite !row_log_prob_gauss by exact Hs.
  unfold Rminus. rewrite exp_plus, exp_Ropp, !exp_ln by (apply gauss_vec_pos; exact Hs). reflexivity.
Qed.

Lemma correction_unlabelled s xi delta z :
  0 < s -> List.length delta = List.length xi -> List.length z = List.length xi ->
  exp (nolabels_log_prob s xi z - nolabels_log_prob_recentered s xi (vadd xi delta) z) * moved_gauss s xi delta z
  = gauss_vec s xi z.
Proof.
  intros Hs H1 H2. rewrite correction_ratio by assumption.
  pose proof (gauss_vec_pos s xi (vsub z delta) Hs). unfold moved_gauss. field. lra.
Qed.

(* ---- the value of the robust loss under importance sampling ---- *)
Section Value.
Variable loss : vec -> R.
Variable cost : vec -> vec -> R.
Variable delta : row vec -> vec.       (* displacement of each row *)
Variable s : R.
Hypothesis s_pos : 0 < s.

Definition move_rows (rows : list (row vec)) : Result (list (vec * list vec)) :=
  Ok (map (fun r => (vadd (r_xi r) (delta r), map (fun z => vadd z (delta r)) (r_zeta r))) rows).

Definition imp_cfg (rho lam eps p : R) : dual :=
  {| d_rho := Fin rho; d_lam := lam; d_eps := eps; d_power := p; d_reduction := "mean"; d_imp := true; d_erm := false |}.

(* the sampler is centred on the data points and all vectors have the same length *)
Definition centred (rows : list (row vec)) : Prop :=
  forall r, In r rows -> r_mean r = r_xi r /\ List.length (delta r) = List.length (r_xi r) /\
                         (forall z, In z (r_zeta r) -> List.length z = List.length (r_xi r)).

Definition weighted (lam eps : R) (r : row vec) : R :=
  rmean (map (fun z => let z' := vadd z (delta r) in
                       exp ((loss z' - lam * cost (r_xi r) z') / eps)
                       * (gauss_vec s (r_xi r) z' / moved_gauss s (r_xi r) (delta r) z')) (r_zeta r)).

Lemma weighted_value n rows rho lam eps p :
  batch_ok n rows -> 0 < rho -> 0 < eps -> centred rows ->
  compute_dual vec loss cost move_rows (nolabels_log_prob s) (nolabels_log_prob_recentered s) (imp_cfg rho lam eps p) n rows
  = Ok (Scalar (Fin (lam * Rpower rho p + rmean (map (fun r => eps * ln (weighted lam eps r)) rows)))).
Proof.
  intros Hb Hr He Hc. unfold compute_dual. cbn [d_rho d_erm imp_cfg]. rewrite not_zero_pos, pos_lt by exact Hr. cbn [orb]. cbv iota.
  unfold integrands. cbn [d_imp imp_cfg]. unfold move_rows. cbn [bind]. rewrite map2_map_r, map2_same.
  cbn [d_reduction d_lam d_eps d_power imp_cfg fst snd]. rewrite map_map.
  rewrite (map_ext_in _ (fun r => Fin (ln (weighted lam eps r) + ln (INR n)))).
  - destruct Hb as [Hn [Hne _]]. rewrite reduce_mean_fin by exact Hne. cbn [bind out_map]. rewrite (xlog_pos n Hn). simpl.
    do 3 f_equal. f_equal. rewrite rmean_map_plus, rmean_map_const, rmean_map_scal by exact Hne. ring.
  - intros r Hin. destruct (Hc r Hin) as [Hm [Hd Hz]].
    rewrite logsumexp_fin by (apply map_neq_nil, map_neq_nil; exact (batch_nonempty vec n rows Hb r Hin)).
    f_equal. rewrite !map_map. pose proof (batch_nonempty vec n rows Hb r Hin) as Hzne.
    assert (Hlen : List.length (r_zeta r) = n) by (destruct Hb as [_ [_ H]]; rewrite Forall_forall in H; apply H; exact Hin).
    assert (Hn : 0 < INR n) by (rewrite <- Hlen; apply INR_length_pos; exact Hzne).
    rewrite (map_ext_in _ (fun z => let z' := vadd z (delta r) in
               exp ((loss z' - lam * cost (r_xi r) z') / eps) * (gauss_vec s (r_xi r) z' / moved_gauss s (r_xi r) (delta r) z'))).
    + unfold weighted, rmean. rewrite map_length, Hlen.
      set (S := rsum _).
      assert (HS : 0 < S).
      { unfold S. apply rsum_pos; [apply map_neq_nil; exact Hzne|]. apply Forall_map, Forall_forall. intros z _. cbv zeta.
        apply Rmult_lt_0_compat; [apply exp_pos|]. apply Rdiv_lt_0_compat; apply gauss_vec_pos; exact s_pos. }
      unfold Rdiv. rewrite ln_mult by (try apply Rinv_0_lt_compat; assumption). rewrite ln_Rinv by exact Hn. ring.
    + intros z Hin'. cbv zeta. rewrite exp_plus. unfold integrand. cbn [d_lam d_eps imp_cfg]. rewrite Hm.
      rewrite correction_ratio; [reflexivity|exact s_pos|exact Hd|].
      unfold vadd. rewrite map2_length; [apply Hz; exact Hin'|]. rewrite (Hz z Hin'). symmetry; exact Hd.
Qed.
End Value.

(* ---- labelled sampler ---- *)
Lemma labelled_correction_zero sx sy mean xi zeta :
  labelled_log_prob sx sy mean zeta - labelled_log_prob_recentered sx sy mean xi zeta = 0.
Proof. unfold labelled_log_prob, labelled_log_prob_recentered. ring. Qed.

Lemma labelled_not_ratio :
  exists s (xi : vec) (y : vec) (delta : vec) (zx zy : vec),
    0 < s /\ List.length delta = List.length xi /\ List.length zx = List.length xi /\
    exp (labelled_log_prob s s (xi, y) (zx, zy) - labelled_log_prob_recentered s s (xi, y) (vadd xi delta, y) (zx, zy))
    * (moved_gauss s xi delta zx * gauss_vec s y zy)
    <> gauss_vec s xi zx * gauss_vec s y zy.
Proof.
  exists 1, [0], [0], [1], [1], [0]. split; [lra|]. split; [reflexivity|]. split; [reflexivity|].
  rewrite labelled_correction_zero, exp_0, Rmult_1_l. intros E.
  pose proof (gauss_vec_pos 1 [0] [0] ltac:(lra)) as Hp.
  apply Rmult_eq_reg_r in E; [|lra]. unfold moved_gauss, vsub in E. simpl in E.
  apply Rmult_eq_reg_r in E; [|lra]. unfold gauss in E. pose proof sqrt_2PI_pos as H2.
  assert (Hi : / (1 * sqrt (2 * PI)) <> 0) by (apply Rinv_neq_0_compat; lra).
  apply Rmult_eq_reg_l in E; [|exact Hi]. apply exp_inv in E. lra.
Qed.
