From Coq Require Import Reals List Bool String Lra Lia Permutation Psatz.
From Verif Require Import PyBase RList XReal LogMeanExp Dual_Model Dual_Spec.
Import ListNotations.
Local Open Scope R_scope.

(* the setting without importance sampling and ERM mode, mean reduction *)
Definition cfg (red : string) (rho lam eps p : R) : dual :=
  {| d_rho := Fin rho; d_lam := lam; d_eps := eps; d_power := p; d_reduction := red; d_imp := false; d_erm := false |}.

Lemma xsum_map_fin {A} (f : A -> R) l : xsum (map (fun a => Fin (f a)) l) = Fin (rsum (map f l)).
Proof.
  induction l as [|a l IH]; [reflexivity|].
  change (xsum (map (fun a => Fin (f a)) (a :: l))) with (xadd (Fin (f a)) (xsum (map (fun a => Fin (f a)) l))).
  rewrite IH. reflexivity.
Qed.

Lemma xdiv_len {A} (l : list A) r : l <> [] -> xdiv (Fin r) (Fin (INR (List.length l))) = Fin (r / INR (List.length l)).
Proof.
  intros H. simpl. pose proof (INR_length_pos l H). destruct (Reqb (INR (List.length l)) 0) eqn:E; [|reflexivity].
  apply Reqb_true in E. lra.
Qed.

Lemma reduce_mean_fin {A} (f : A -> R) l : l <> [] ->
  reduce_loss_batch "mean" 2 (map (fun a => Fin (f a)) l) = Ok (Scalar (Fin (rmean (map f l)))).
Proof.
  intros H. unfold reduce_loss_batch; simpl. rewrite xsum_map_fin, map_length, xdiv_len by exact H.
  unfold rmean. rewrite map_length. reflexivity.
Qed.

Section Dual.
Variable P : Type.
Variable loss : P -> R.
Variable cost : P -> P -> R.
Variable displace : list (row P) -> Result (list (P * list P)).
Variable log_prob : P -> P -> R.
Variable log_prob_recentered : P -> P -> P -> R.

Notation cd := (compute_dual P loss cost displace log_prob log_prob_recentered).
Notation fpost := (forward_post P loss cost displace log_prob log_prob_recentered).
Notation fpre := (forward_pre P loss cost displace log_prob log_prob_recentered).

(* penalised losses of the samples of a row *)
Definition pen (lam : R) (r : row P) : list R := map (fun z => loss z - lam * cost (r_xi r) z) (r_zeta r).
(* per-point robust value without the first term *)
Definition soft (eps lam : R) (r : row P) : R := softmaximum eps (pen lam r).
Definition objective (rho lam eps p : R) (rows : list (row P)) : R :=
  lam * Rpower rho p + rmean (map (soft eps lam) rows).

Lemma logsumexp_fin l : l <> [] -> logsumexp l = Fin (ln (rsum (map exp l))).
Proof. destruct l; [contradiction|reflexivity]. Qed.

Lemma batch_nonempty n (rows : list (row P)) : batch_ok n rows -> forall r, In r rows -> r_zeta r <> [].
Proof.
  intros [Hn [_ H]] r Hr. rewrite Forall_forall in H. specialize (H r Hr). destruct (r_zeta r); [simpl in H; lia|discriminate].
Qed.

Lemma pen_ne n rows lam r : batch_ok n rows -> In r rows -> pen lam r <> [].
Proof. intros H Hr. apply map_neq_nil. exact (batch_nonempty n rows H r Hr). Qed.

Lemma pen_length n rows lam r : batch_ok n rows -> In r rows -> List.length (pen lam r) = n.
Proof. intros [_ [_ H]] Hr. rewrite Forall_forall in H. unfold pen. rewrite map_length. apply H. exact Hr. Qed.

(* column of the integrand of a row *)
Lemma soft_lse n rows eps lam r rho p red : batch_ok n rows -> In r rows -> 0 < eps ->
  logsumexp (map (integrand P loss cost (cfg red rho lam eps p) (r_xi r)) (r_zeta r))
  = Fin (soft eps lam r / eps + ln (INR n)).
Proof.
  intros Hb Hr He. rewrite logsumexp_fin by (apply map_neq_nil; exact (batch_nonempty n rows Hb r Hr)).
  f_equal. unfold soft, softmaximum, lme, sumexp. rewrite !map_length, (pen_length n rows lam r Hb Hr).
  unfold pen. rewrite !map_map. unfold integrand; simpl. field. lra.
Qed.

Lemma xlog_pos n : (0 < n)%nat -> xlog_nat n = Fin (ln (INR n)).
Proof. destruct n; [lia|reflexivity]. Qed.

Lemma not_zero_pos rho : 0 < rho -> xeq (Fin rho) (Fin 0) = false.
Proof. intros H. simpl. apply Reqb_false. lra. Qed.
Lemma pos_lt rho : 0 < rho -> xlt (Fin 0) (Fin rho) = true.
Proof. intros H. simpl. apply Rltb_true. exact H. Qed.

Lemma cd_unfold n rows red rho lam eps p :
  batch_ok n rows -> 0 < rho -> 0 < eps ->
  cd (cfg red rho lam eps p) n rows =
  do s <- reduce_loss_batch red 2 (map (fun r => Fin (soft eps lam r / eps + ln (INR n))) rows);
  Ok (out_map (fun v => xadd (Fin (lam * Rpower rho p)) (xmul (Fin eps) (xsub v (Fin (ln (INR n)))))) s).
Proof.
  intros Hb Hr He. unfold compute_dual. simpl d_rho. rewrite not_zero_pos, pos_lt by exact Hr. simpl d_erm. simpl orb.
  cbv iota. unfold integrands. simpl d_imp. cbv iota. simpl d_reduction. simpl d_lam. simpl d_power. simpl d_eps.
  unfold bind at 1. rewrite map_map.
  rewrite (map_ext_in _ (fun r => Fin (soft eps lam r / eps + ln (INR n)))).
  - destruct Hb as [Hn _]. rewrite (xlog_pos n Hn). reflexivity.
  - intros r Hin. exact (soft_lse n rows eps lam r rho p red Hb Hin He).
Qed.

Lemma cd_mean n rows rho lam eps p :
  batch_ok n rows -> 0 < rho -> 0 < eps ->
  cd (cfg "mean" rho lam eps p) n rows = Ok (Scalar (Fin (objective rho lam eps p rows))).
Proof.
  intros Hb Hr He. rewrite cd_unfold by assumption. destruct Hb as [_ [Hne _]].
  rewrite reduce_mean_fin by exact Hne. simpl. do 3 f_equal. unfold objective. f_equal.
  rewrite rmean_map_plus, rmean_map_const by exact Hne.
  rewrite (map_ext (fun a => soft eps lam a / eps) (fun a => / eps * soft eps lam a)) by (intros; unfold Rdiv; ring).
  rewrite rmean_map_scal. field. lra.
Qed.

Lemma cd_none n rows rho lam eps p :
  batch_ok n rows -> 0 < rho -> 0 < eps ->
  cd (cfg "none" rho lam eps p) n rows = Ok (Vector (map (fun r => Fin (lam * Rpower rho p + soft eps lam r)) rows)).
Proof.
  intros Hb Hr He. rewrite cd_unfold by assumption. simpl. do 2 f_equal. rewrite map_map. apply map_ext. intros r. simpl.
  f_equal. f_equal. field. lra.
Qed.

Lemma cd_sum n rows rho lam eps p :
  batch_ok n rows -> 0 < rho -> 0 < eps ->
  cd (cfg "sum" rho lam eps p) n rows =
  Ok (Scalar (Fin (lam * Rpower rho p + rsum (map (soft eps lam) rows) + (INR (List.length rows) - 1) * (eps * ln (INR n))))).
Proof.
  intros Hb Hr He. rewrite cd_unfold by assumption. unfold reduce_loss_batch; simpl. rewrite xsum_map_fin. simpl. do 3 f_equal.
  rewrite rsum_map_plus, rsum_map_const.
  rewrite (map_ext (fun a => soft eps lam a / eps) (fun a => / eps * soft eps lam a)) by (intros; unfold Rdiv; ring).
  rewrite rsum_map_scal. field. lra.
Qed.

(* ---- C14 ---- *)
Lemma erm_mean d dim rows :
  dim = 2%nat -> rows <> [] -> d_reduction d = "mean"%string ->
  erm_branch P loss d dim rows =
  Ok (Scalar (xadd (xmul (d_rho d) (Fin (d_lam d))) (Fin (rmean (map (fun r => loss (r_xi r)) rows))))).
Proof.
  intros -> Hne Hred. unfold erm_branch. rewrite Hred, (reduce_mean_fin (fun r => loss (r_xi r))) by exact Hne. reflexivity.
Qed.

Lemma zero_radius_compute d n rows :
  d_rho d = Fin 0 -> d_reduction d = "mean"%string -> rows <> [] ->
  cd d n rows = Ok (Scalar (Fin (rmean (map (fun r => loss (r_xi r)) rows)))).
Proof.
  intros Hr Hred Hne. unfold compute_dual. rewrite Hr. simpl. 
  assert (E : Reqb 0 0 = true) by (apply Reqb_true; reflexivity). rewrite E. simpl.
  rewrite (erm_mean d 2 rows eq_refl Hne Hred), Hr. simpl. do 3 f_equal. ring.
Qed.

Lemma zero_radius_post d n rows :
  d_rho d = Fin 0 -> d_reduction d = "mean"%string -> rows <> [] ->
  fpost true d n rows = Ok (Scalar (Fin (rmean (map (fun r => loss (r_xi r)) rows)))).
Proof.
  intros Hr Hred Hne. unfold forward_post. rewrite Hr. simpl.
  assert (E : Reqb 0 0 = true) by (apply Reqb_true; reflexivity). rewrite E.
  assert (E' : Rltb 0 0 = false) by (apply Rltb_false; lra). rewrite E'. 
  rewrite (erm_mean d 2 rows eq_refl Hne Hred), Hr. simpl. do 3 f_equal. ring.
Qed.

Lemma map_with_samples (f : P -> R) (data : list (P * P)) z :
  List.length (snd z) = List.length data ->
  map (fun r => f (r_xi r)) (with_samples P data z) = map (fun mx => f (snd mx)) data.
Proof.
  unfold with_samples. destruct z as [n c]; simpl. revert c. induction data as [|a data IH]; intros [|b c] H; simpl in *; try discriminate; try reflexivity.
  f_equal. apply IH. injection H; auto.
Qed.

Lemma with_samples_ne (data : list (P * P)) z : List.length (snd z) = List.length data -> data <> [] -> with_samples P data z <> [].
Proof. destruct data, z as [n [|c cs]]; simpl; intros; try contradiction; discriminate. Qed.

Lemma zero_radius_pre d stored data z :
  d_rho d = Fin 0 -> d_reduction d = "mean"%string -> data <> [] -> List.length (snd z) = List.length data ->
  fpre d stored data (Some z) = (Some z, Ok (Scalar (Fin (rmean (map (fun mx => loss (snd mx)) data))))).
Proof.
  intros Hr Hred Hne Hl. unfold forward_pre. f_equal.
  rewrite zero_radius_compute by (try assumption; apply with_samples_ne; assumption).
  rewrite (map_with_samples loss data z Hl). reflexivity.
Qed.

(* reusing the stored samples at radius 0 always fails *)
Lemma zero_radius_pre_reuse d z data :
  d_rho d = Fin 0 -> fpre d (Some z) data None = (Some z, Raise AssertionError).
Proof.
  intros Hr. unfold forward_pre. rewrite Hr. simpl.
  assert (E : Reqb 0 0 = true) by (apply Reqb_true; reflexivity). rewrite E.
  assert (E' : Rltb 0 0 = false) by (apply Rltb_false; lra). rewrite E'. reflexivity.
Qed.

Lemma erm_mode_value d n rows rho :
  d_erm d = true -> d_rho d = Fin rho -> d_reduction d = "mean"%string -> rows <> [] ->
  cd d n rows = Ok (Scalar (Fin (rho * d_lam d + rmean (map (fun r => loss (r_xi r)) rows)))).
Proof.
  intros He Hr Hred Hne. unfold compute_dual. rewrite He, orb_true_r.
  rewrite (erm_mean d 2 rows eq_refl Hne Hred), Hr. reflexivity.
Qed.

(* ---- C15 ---- *)
Lemma negative_radius d n rows :
  d_erm d = false -> (d_rho d = MInf \/ exists r, d_rho d = Fin r /\ r < 0) -> cd d n rows = Raise ValueError.
Proof.
  intros He H. unfold compute_dual. rewrite He, orb_false_r. destruct H as [-> | [r [-> Hr]]]; [reflexivity|]. simpl.
  assert (E : Reqb r 0 = false) by (apply Reqb_false; lra). rewrite E.
  assert (E' : Rltb 0 r = false) by (apply Rltb_false; lra). rewrite E'. reflexivity.
Qed.

Lemma negative_radius_post d n rows hs :
  (d_rho d = MInf \/ exists r, d_rho d = Fin r /\ r < 0) -> fpost hs d n rows = Raise ValueError.
Proof.
  intros H. unfold forward_post. destruct hs; [|reflexivity]. simpl. destruct H as [-> | [r [-> Hr]]]; [reflexivity|]. simpl.
  assert (E' : Rltb r 0 = true) by (apply Rltb_true; lra). rewrite E'. reflexivity.
Qed.

Lemma negative_radius_pre d stored data zeta :
  d_erm d = false -> (d_rho d = MInf \/ exists r, d_rho d = Fin r /\ r < 0) ->
  snd (fpre d stored data zeta) = Raise ValueError.
Proof.
  intros He H. unfold forward_pre. destruct zeta as [z|]; [apply negative_radius; assumption|].
  destruct stored as [z|]; [|reflexivity]. simpl. destruct H as [-> | [r [-> Hr]]]; [reflexivity|]. simpl.
  assert (E' : Rltb r 0 = true) by (apply Rltb_true; lra). rewrite E'. reflexivity.
Qed.

Lemma nan_radius d n rows : d_erm d = false -> d_rho d = NaN -> cd d n rows = Ok (Scalar NaN).
Proof. intros He Hr. unfold compute_dual. rewrite He, Hr. reflexivity. Qed.

Lemma nan_radius_erm d n rows : d_erm d = true -> d_rho d = NaN -> rows <> [] -> d_reduction d = "mean"%string ->
  cd d n rows = Ok (Scalar NaN).
Proof.
  intros He Hr Hne Hred. unfold compute_dual. rewrite He, orb_true_r.
  rewrite (erm_mean d 2 rows eq_refl Hne Hred), Hr. reflexivity.
Qed.

Lemma xdiv_fin_pos a b : 0 < b -> xdiv (Fin a) (Fin b) = Fin (a / b).
Proof. intros H. simpl. destruct (Reqb b 0) eqn:E; [apply Reqb_true in E; lra|reflexivity]. Qed.

(* with importance sampling: the general shape of the value *)
Lemma inf_radius n rows lam eps p :
  batch_ok n rows -> 0 < eps -> 0 < p ->
  cd {| d_rho := PInf; d_lam := lam; d_eps := eps; d_power := p; d_reduction := "mean"; d_imp := false; d_erm := false |} n rows
  = Ok (Scalar (if Reqb lam 0 then NaN else if Rltb lam 0 then MInf else PInf)).
Proof.
  intros Hb He Hp. unfold compute_dual. cbn [d_rho d_erm xeq orb xlt]. cbv iota. unfold integrands.
  cbn [d_imp d_reduction d_lam d_eps d_power bind]. cbv iota. cbn [bind]. rewrite map_map.
  rewrite (map_ext_in _ (fun r => Fin (soft eps lam r / eps + ln (INR n)))).
  - destruct Hb as [Hn [Hne Hall]]. rewrite (reduce_mean_fin (fun r => soft eps lam r / eps + ln (INR n)) rows Hne).
    rewrite (xlog_pos n Hn). simpl.
    assert (E : Rltb 0 p = true) by (apply Rltb_true; exact Hp). rewrite E.
    simpl. unfold inf_times. destruct (Reqb lam 0); [reflexivity|]. destruct (Rltb lam 0); reflexivity.
  - intros r Hin. exact (soft_lse n rows eps lam r 1 1 "mean" Hb Hin He).
Qed.

(* ---- C16 ---- *)
Lemma rmean_map_ext {A} (f g : A -> R) l : (forall a, In a l -> f a = g a) -> rmean (map f l) = rmean (map g l).
Proof. intros H. rewrite (map_ext_in _ _ _ H). reflexivity. Qed.

Lemma soft_bounds n rows eps lam r M :
  batch_ok n rows -> In r rows -> 0 < eps -> (forall z, In z (r_zeta r) -> loss z - lam * cost (r_xi r) z <= M) ->
  rmean (pen lam r) <= soft eps lam r <= M.
Proof.
  intros Hb Hr He HM. apply softmaximum_bounds; [exact He|exact (pen_ne n rows lam r Hb Hr)|].
  intros a Ha. apply in_map_iff in Ha. destruct Ha as [z [<- Hz]]. apply HM; exact Hz.
Qed.

Lemma pen_max n rows lam r : batch_ok n rows -> In r rows -> exists M, forall z, In z (r_zeta r) -> loss z - lam * cost (r_xi r) z <= M.
Proof.
  intros Hb Hr. pose proof (pen_ne n rows lam r Hb Hr) as Hne. unfold pen in Hne.
  destruct (r_zeta r) as [|z0 zs] eqn:E; [contradiction|].
  exists (rmaxl (loss z0 - lam * cost (r_xi r) z0) (map (fun z => loss z - lam * cost (r_xi r) z) zs)).
  destruct (rmaxl_ge (loss z0 - lam * cost (r_xi r) z0) (map (fun z => loss z - lam * cost (r_xi r) z) zs)) as [H1 H2].
  intros z [<-|Hz]; [exact H1|]. rewrite Forall_forall in H2. apply H2. apply (in_map (fun z => loss z - lam * cost (r_xi r) z)). exact Hz.
Qed.

Lemma objective_bounds n rows rho lam eps p :
  batch_ok n rows -> 0 < rho -> 0 < eps ->
  exists v, cd (cfg "mean" rho lam eps p) n rows = Ok (Scalar (Fin v)) /\
    lam * Rpower rho p + rmean (map (fun r => rmean (map (fun z => loss z - lam * cost (r_xi r) z) (r_zeta r))) rows) <= v /\
    (forall B : row P -> R,
        (forall r z, In r rows -> In z (r_zeta r) -> loss z - lam * cost (r_xi r) z <= B r) ->
        v <= lam * Rpower rho p + rmean (map B rows)).
Proof.
  intros Hb Hr He. exists (objective rho lam eps p rows). split; [apply cd_mean; assumption|]. unfold objective. split.
  - apply Rplus_le_compat_l. apply rmean_map_le. intros r Hin.
    destruct (pen_max n rows lam r Hb Hin) as [M HM]. exact (proj1 (soft_bounds n rows eps lam r M Hb Hin He HM)).
  - intros B HB. apply Rplus_le_compat_l. apply rmean_map_le. intros r Hin.
    apply (soft_bounds n rows eps lam r (B r) Hb Hin He). intros z Hz. apply HB; assumption.
Qed.

(* ---- C17 ---- *)
Lemma adv_mean_expect f A (rows : list (row P)) :
  adv_mean f A rows = rmean (map2 (fun q r => expect q (map (f (r_xi r)) (r_zeta r))) A rows).
Proof. unfold adv_mean. f_equal. apply map2_ext. intros q r. unfold expect. rewrite map2_map_r. reflexivity. Qed.

Lemma rmean_map2_le {A B} (f g : A -> B -> R) l m :
  List.length l = List.length m -> (forall a b, In a l -> In b m -> f a b <= g a b) -> rmean (map2 f l m) <= rmean (map2 g l m).
Proof. intros Hl H. apply rmean_le; [rewrite !map2_length by exact Hl; reflexivity|]. apply rsum_map2_le; exact H. Qed.

Lemma rmean_map2_lin {A B} (f g h : A -> B -> R) s t l m :
  List.length l = List.length m ->
  rmean (map2 (fun a b => f a b + s * g a b + t * h a b) l m) = rmean (map2 f l m) + s * rmean (map2 g l m) + t * rmean (map2 h l m).
Proof.
  intros Hl. unfold rmean. rewrite !map2_length by exact Hl. rewrite !rsum_map2_plus, !rsum_map2_scal. unfold Rdiv. ring.
Qed.

(* penalised value of an adversary *)
Definition penalised (lam eps : R) (A : list (list R)) (rows : list (row P)) : R :=
  adv_mean (fun _ z => loss z) A rows - lam * adv_mean cost A rows - eps * adv_entropy A.

Lemma expect_pen q lam r : List.length q = List.length (r_zeta r) ->
  expect q (pen lam r) = expect q (map loss (r_zeta r)) - lam * expect q (map (cost (r_xi r)) (r_zeta r)).
Proof.
  intros H. unfold pen. 
  replace (map (fun z => loss z - lam * cost (r_xi r) z) (r_zeta r))
    with (map2 (fun a b => 1 * a + (- lam) * b) (map loss (r_zeta r)) (map (cost (r_xi r)) (r_zeta r))).
  - rewrite expect_combination by (rewrite !map_length; auto). ring.
  - rewrite map2_map_l, map2_map_r, map2_same. apply map_ext. intros; ring.
Qed.

Lemma penalised_eq n lam eps A rows :
  batch_ok n rows -> adversary n A rows ->
  penalised lam eps A rows = rmean (map2 (fun q r => expect q (pen lam r) - eps * entropy q) A rows).
Proof.
  intros [Hn [Hne Hz]] [Hl HA]. unfold penalised. rewrite !adv_mean_expect. unfold adv_entropy. cbv beta. change (fun z : P => loss z) with loss.
  replace (rmean (map entropy A)) with (rmean (map2 (fun q (_ : row P) => entropy q) A rows)).
  2:{ unfold rmean. rewrite map2_length, map_length by exact Hl. rewrite (rsum_map2_fst entropy A rows Hl). reflexivity. }
  transitivity (rmean (map2 (fun q r => expect q (map loss (r_zeta r)) + (- lam) * expect q (map (cost (r_xi r)) (r_zeta r))
                                        + (- eps) * entropy q) A rows)).
  - rewrite rmean_map2_lin by exact Hl. ring.
  - f_equal. apply map2_in_length. intros q r Hq Hr. rewrite Forall_forall in HA, Hz.
    destruct (HA q Hq) as [Hq1 _]. rewrite expect_pen by (rewrite Hq1; symmetry; apply Hz; exact Hr). ring.
Qed.

Lemma penalised_le n lam eps A rows :
  batch_ok n rows -> adversary n A rows -> 0 < eps ->
  penalised lam eps A rows <= rmean (map (soft eps lam) rows).
Proof.
  intros Hb HA He. rewrite (penalised_eq n) by assumption. destruct HA as [Hl HA].
  replace (rmean (map (soft eps lam) rows)) with (rmean (map2 (fun (_ : list R) r => soft eps lam r) A rows)).
  - apply rmean_map2_le; [exact Hl|]. intros q r Hq Hr.
    rewrite Forall_forall in HA. apply softmaximum_ge; [exact He|exact (pen_ne n rows lam r Hb Hr)|].
    rewrite (pen_length n rows lam r Hb Hr). apply HA; exact Hq.
  - unfold rmean. rewrite map2_length, map_length by exact Hl. rewrite (rsum_map2_snd (soft eps lam) A rows Hl), Hl. reflexivity.
Qed.

Definition best (eps lam : R) (r : row P) : list R := softmax (map (fun a => a / eps) (pen lam r)).

Lemma best_adversary n eps lam rows : batch_ok n rows -> adversary n (map (best eps lam) rows) rows.
Proof.
  intros Hb. split; [apply map_length|]. apply Forall_map, Forall_forall. intros r Hr.
  pose proof (softmax_weights (map (fun a => a / eps) (pen lam r)) (map_neq_nil _ _ (pen_ne n rows lam r Hb Hr))) as H.
  rewrite map_length, (pen_length n rows lam r Hb Hr) in H. exact H.
Qed.

Lemma best_attains n eps lam rows : batch_ok n rows -> 0 < eps ->
  penalised lam eps (map (best eps lam) rows) rows = rmean (map (soft eps lam) rows).
Proof.
  intros Hb He. rewrite (penalised_eq n) by (try assumption; apply best_adversary; exact Hb).
  rewrite map2_map_l, map2_same. apply rmean_map_ext. intros r Hr.
  exact (proj2 (softmaximum_attained eps (pen lam r) He (pen_ne n rows lam r Hb Hr))).
Qed.

Lemma weak_duality n rows rho lam eps p A :
  batch_ok n rows -> 0 < rho -> 0 < eps -> 0 <= lam -> adversary n A rows ->
  adv_mean cost A rows <= Rpower rho p ->
  exists v, cd (cfg "mean" rho lam eps p) n rows = Ok (Scalar (Fin v)) /\
            adv_mean (fun _ z => loss z) A rows - eps * adv_entropy A <= v.
Proof.
  intros Hb Hr He Hl HA Hc. exists (objective rho lam eps p rows). split; [apply cd_mean; assumption|].
  pose proof (penalised_le n lam eps A rows Hb HA He) as H. unfold penalised in H. unfold objective.
  assert (lam * adv_mean cost A rows <= lam * Rpower rho p) by (apply Rmult_le_compat_l; assumption). lra.
Qed.

Lemma tight n rows rho lam eps p :
  batch_ok n rows -> 0 < rho -> 0 < eps ->
  exists A v, adversary n A rows /\ cd (cfg "mean" rho lam eps p) n rows = Ok (Scalar (Fin v)) /\
    adv_mean (fun _ z => loss z) A rows - eps * adv_entropy A + lam * (Rpower rho p - adv_mean cost A rows) = v.
Proof.
  intros Hb Hr He. exists (map (best eps lam) rows), (objective rho lam eps p rows).
  split; [apply best_adversary; exact Hb|]. split; [apply cd_mean; assumption|].
  pose proof (best_attains n eps lam rows Hb He) as H. unfold penalised in H. unfold objective. lra.
Qed.

(* ---- C18 ---- *)
Lemma Rpower_mono r1 r2 p : 0 <= p -> 0 < r1 -> r1 <= r2 -> Rpower r1 p <= Rpower r2 p.
Proof. intros Hp H1 H2. apply Rle_Rpower_l; lra. Qed.

Lemma mono_rho n rows r1 r2 lam eps p :
  batch_ok n rows -> 0 < eps -> 0 <= p -> 0 <= lam -> 0 < r1 -> r1 <= r2 ->
  exists v1 v2, cd (cfg "mean" r1 lam eps p) n rows = Ok (Scalar (Fin v1)) /\
                cd (cfg "mean" r2 lam eps p) n rows = Ok (Scalar (Fin v2)) /\ v1 <= v2.
Proof.
  intros Hb He Hp Hl H1 H2. exists (objective r1 lam eps p rows), (objective r2 lam eps p rows).
  split; [apply cd_mean; assumption|]. split; [apply cd_mean; try assumption; lra|].
  unfold objective. apply Rplus_le_compat_r, Rmult_le_compat_l; [exact Hl|]. apply Rpower_mono; assumption.
Qed.

Lemma convex_lam n rows rho l1 l2 t eps p :
  batch_ok n rows -> 0 < eps -> 0 < rho -> 0 <= t <= 1 ->
  exists v1 v2 v, cd (cfg "mean" rho l1 eps p) n rows = Ok (Scalar (Fin v1)) /\
                  cd (cfg "mean" rho l2 eps p) n rows = Ok (Scalar (Fin v2)) /\
                  cd (cfg "mean" rho (t * l1 + (1 - t) * l2) eps p) n rows = Ok (Scalar (Fin v)) /\
                  v <= t * v1 + (1 - t) * v2.
Proof.
  intros Hb He Hr Ht. exists (objective rho l1 eps p rows), (objective rho l2 eps p rows), (objective rho (t * l1 + (1 - t) * l2) eps p rows).
  split; [apply cd_mean; assumption|]. split; [apply cd_mean; assumption|]. split; [apply cd_mean; assumption|].
  unfold objective.
  assert (H : rmean (map (soft eps (t * l1 + (1 - t) * l2)) rows)
              <= t * rmean (map (soft eps l1) rows) + (1 - t) * rmean (map (soft eps l2) rows)).
  { rewrite <- !rmean_map_scal, <- rmean_map_plus. apply rmean_map_le. intros r Hin. unfold soft.
    replace (pen (t * l1 + (1 - t) * l2) r) with (map2 (fun a b => t * a + (1 - t) * b) (pen l1 r) (pen l2 r)).
    - apply softmaximum_convex; try assumption; [exact (pen_ne n rows l1 r Hb Hin)|]. unfold pen. rewrite !map_length. reflexivity.
    - unfold pen. rewrite map2_map_l, map2_map_r, map2_same. apply map_ext. intros; ring. }
  lra.
Qed.

Lemma anti_eps n rows rho lam e1 e2 p :
  batch_ok n rows -> 0 < e1 -> e1 <= e2 -> 0 < rho ->
  exists v1 v2, cd (cfg "mean" rho lam e1 p) n rows = Ok (Scalar (Fin v1)) /\
                cd (cfg "mean" rho lam e2 p) n rows = Ok (Scalar (Fin v2)) /\ v2 <= v1.
Proof.
  intros Hb H1 H2 Hr. exists (objective rho lam e1 p rows), (objective rho lam e2 p rows).
  split; [apply cd_mean; assumption|]. split; [apply cd_mean; try assumption; lra|].
  unfold objective. apply Rplus_le_compat_l. apply rmean_map_le. intros r Hin.
  apply softmaximum_antitone; try assumption. exact (pen_ne n rows lam r Hb Hin).
Qed.

(* ---- C20 ---- *)
Lemma reductions n rows rho lam eps p :
  batch_ok n rows -> 0 < rho -> 0 < eps ->
  exists vs vm vsum,
    cd (cfg "none" rho lam eps p) n rows = Ok (Vector (map Fin vs)) /\ List.length vs = List.length rows /\
    cd (cfg "mean" rho lam eps p) n rows = Ok (Scalar (Fin vm)) /\ vm = rmean vs /\
    cd (cfg "sum" rho lam eps p) n rows = Ok (Scalar (Fin vsum)) /\
    rsum vs - vsum = (INR (List.length rows) - 1) * (lam * Rpower rho p - eps * ln (INR n)).
Proof.
  intros Hb Hr He. exists (map (fun r => lam * Rpower rho p + soft eps lam r) rows). eexists. eexists.
  split; [rewrite cd_none by assumption; rewrite map_map; reflexivity|]. split; [apply map_length|].
  split; [apply cd_mean; assumption|]. split.
  - unfold objective. rewrite rmean_map_plus, rmean_map_const by apply Hb. reflexivity.
  - split; [apply cd_sum; assumption|]. rewrite rsum_map_plus, rsum_map_const. ring.
Qed.

Lemma reductions_erm d n rows :
  d_rho d = Fin 0 -> rows <> [] ->
  let dr s := {| d_rho := d_rho d; d_lam := d_lam d; d_eps := d_eps d; d_power := d_power d; d_reduction := s; d_imp := d_imp d; d_erm := d_erm d |} in
  exists vs, cd (dr "none"%string) n rows = Ok (Vector (map Fin vs)) /\
    cd (dr "mean"%string) n rows = Ok (Scalar (Fin (rmean vs))) /\ cd (dr "sum"%string) n rows = Ok (Scalar (Fin (rsum vs))).
Proof.
  intros Hr Hne dr. exists (map (fun r => loss (r_xi r)) rows).
  split; [|split; [apply zero_radius_compute; try assumption; reflexivity|]].
  - unfold compute_dual, erm_branch. simpl. rewrite Hr. simpl. assert (E : Reqb 0 0 = true) by (apply Reqb_true; reflexivity). rewrite E. simpl.
    do 2 f_equal. rewrite !map_map. apply map_ext. intros r. simpl. f_equal. ring.
  - unfold compute_dual, erm_branch. simpl. rewrite Hr. simpl. assert (E : Reqb 0 0 = true) by (apply Reqb_true; reflexivity). rewrite E. simpl.
    unfold reduce_loss_batch. simpl. rewrite (xsum_map_fin (fun r => loss (r_xi r))). simpl. do 3 f_equal. ring.
Qed.

Lemma unknown_reduction rho eps p s n rows :
  s <> "mean"%string -> s <> "sum"%string -> s <> "none"%string -> 0 < rho ->
  exists d, dual_init (Fin rho) eps p (Some s) false = Ok d /\ cd d n rows = Raise NotImplementedError.
Proof.
  intros H1 H2 H3 Hr. eexists. split; [reflexivity|]. unfold compute_dual.
  cbn [d_rho d_erm]. rewrite not_zero_pos, pos_lt by exact Hr. cbn [orb]. cbv iota. unfold integrands. cbn [d_imp d_reduction]. cbv iota.
  unfold init_reduction. cbn [bind]. unfold reduce_loss_batch. cbn [Nat.eqb negb].
  apply String.eqb_neq in H1. apply String.eqb_neq in H2. apply String.eqb_neq in H3. rewrite H1, H2, H3. reflexivity.
Qed.
End Dual.
