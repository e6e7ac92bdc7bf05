(* C94: what the samplers built from a cost draw. *)
From Coq Require Import Reals List Bool ZArith Lra Lia.
From Verif Require Import PyBase RList XReal Costs_Model Costs_Proofs Samplers_Model Samplers_Spec Samplers_Proofs ImpSamp_Model ImpSamp_Spec Draws_Proofs.
Import ListNotations.
Local Open Scope R_scope.

(* The standard deviation / scale asked for, 1e-3 when none is given *)
Definition radius_of (sigma : option R) : R := match sigma with Some s => s | None => / 1000 end.
Lemma radius_default sigma : eps_default sigma = radius_of sigma.
Proof. destruct sigma; cbn; lra. Qed.

(* C94 (unlabelled): n tensors, each the batch plus sigma times the noise torch draws for the family and that shape *)
Theorem C94_unlabelled : forall (G : Type) (draw : fam -> nat -> list nat -> G -> list batch * G) c xi sigma seed s n g,
  nolabels_init c xi sigma seed = Ok s ->
  exists f, family (sc_p c) (sc_power c) = Some f /\
  forall noise g', draw f n (map (@List.length R) xi) g = (noise, g') -> shaped n xi noise ->
  exists z, sample G draw s n g = (z, None, g') /\ noisy n xi (radius_of sigma) noise z.
Proof.
  intros G draw c xi sigma seed s n g H. destruct (nolabels_inv _ _ _ _ _ H) as (f & F & _ & D & L).
  exists f. split; [exact F|]. intros noise g' Hd Hs.
  destruct (rsample_noisy G draw f xi (eps_default sigma) n g noise g' Hd Hs) as (z & R1 & R2).
  exists z. unfold sample. rewrite D, R1, L. rewrite <- radius_default. auto.
Qed.

(* C94 (labels that may not move): the plain norm cost, or kappa = inf. The labels are copied and nothing more is drawn. *)
Theorem C94_labels_fixed : forall (G : Type) (draw : fam -> nat -> list nat -> G -> list batch * G) c xi y sigma seed s n g,
  labeled_init c xi y sigma seed = Ok s ->
  (exists p w, c = SNC p w \/ c = SNLC p w PInf) ->
  exists f, family (sc_p c) (sc_power c) = Some f /\
  forall noise g', draw f n (map (@List.length R) xi) g = (noise, g') -> shaped n xi noise ->
  exists z zl, sample G draw s n g = (z, Some zl, g') /\ noisy n xi (radius_of sigma) noise z /\ copies n y zl.
Proof.
  intros G draw c xi y sigma seed s n g H Hc. destruct (labeled_inv _ _ _ _ _ _ H) as (f & l & F & _ & D & Sl & L).
  exists f. split; [exact F|]. intros noise g' Hd Hs.
  destruct (rsample_noisy G draw f xi (eps_default sigma) n g noise g' Hd Hs) as (z & R1 & R2).
  assert (El : l = DiracAt y) by (destruct Hc as (p & w & [E|E]); subst c; cbn in Sl; inversion Sl; reflexivity).
  destruct (rsample_copies G draw y n g') as (zl & Q1 & Q2).
  exists z, zl. unfold sample. rewrite D, R1, L, El, Q1, <- radius_default. auto.
Qed.

(* C94 (labels that may move): both parts are noisy copies; the noise of the labels is drawn from the state the data
   left behind; the scale of the labels is sigma / kappa for power 1 and sigma for power 2. *)
Theorem C94_labels_moved : forall (G : Type) (draw : fam -> nat -> list nat -> G -> list batch * G) p w k xi y sigma seed s n g,
  labeled_init (SNLC (Fin p) (Fin w) (Fin k)) xi y sigma seed = Ok s -> 0 < k ->
  exists f, family (Fin p) (Fin w) = Some f /\
  forall noise g1 noise' g2,
    draw f n (map (@List.length R) xi) g = (noise, g1) -> shaped n xi noise ->
    draw f n (map (@List.length R) y) g1 = (noise', g2) -> shaped n y noise' ->
  exists z zl, sample G draw s n g = (z, Some zl, g2) /\ noisy n xi (radius_of sigma) noise z /\
    (w = 1 -> noisy n y (radius_of sigma / k) noise' zl) /\ (w = 2 -> noisy n y (radius_of sigma) noise' zl).
Proof.
  intros G draw p w k xi y sigma seed s n g H Hk. destruct (labeled_inv _ _ _ _ _ _ H) as (f & l & F & He & D & Sl & L).
  exists f. split; [exact F|]. intros noise g1 noise' g2 Hd Hs Hd' Hs'.
  destruct (rsample_noisy G draw f xi (eps_default sigma) n g noise g1 Hd Hs) as (z & R1 & R2).
  cbn [sc_p sc_power] in F. cbn [sampler_labels] in Sl. rewrite F in Sl.
  change (xeq (Fin k) PInf) with false in Sl. cbn iota in Sl.
  assert (Kz : Reqb k 0 = false) by (apply Reqb_false; lra).
  assert (W : w = 1 \/ w = 2).
  { assert (N : family (Fin p) (Fin w) <> None) by congruence. apply family_some in N.
    destruct N as [[E _]|[E _]]; inversion E; auto. }
  destruct W as [W|W]; subst w.
  - rewrite (proj2 (xeq_fin (Fin 1) 1) eq_refl) in Sl. cbn [xdiv] in Sl. rewrite Kz in Sl.
    destruct (loc_scale _ _ _) as [dd|] eqn:E; [|discriminate]. apply loc_scale_inv in E. destruct E as [E _].
    cbn in Sl. inversion Sl; subst dd l.
    destruct (rsample_noisy G draw f y (eps_default sigma / k) n g1 noise' g2 Hd' Hs') as (zl & Q1 & Q2).
    exists z, zl. unfold sample. rewrite D, R1, L, Q1, <- radius_default. split; [reflexivity|]. split; [exact R2|].
    split; [auto|intros E; lra].
  - rewrite xeq_21 in Sl.
    destruct (loc_scale _ _ _) as [dd|] eqn:E; [|discriminate]. apply loc_scale_inv in E. destruct E as [E _].
    cbn in Sl. inversion Sl; subst dd l.
    destruct (rsample_noisy G draw f y (eps_default sigma) n g1 noise' g2 Hd' Hs') as (zl & Q1 & Q2).
    exists z, zl. unfold sample. rewrite D, R1, L, Q1, <- radius_default. split; [reflexivity|]. split; [exact R2|].
    split; [intros E; lra|auto].
Qed.

(* C94 (reference law): for the 1- and 2-norms the drawn points are the likelier the cheaper they are to reach *)
Theorem C94_rank : forall p w xi sigma seed s j z z',
  nolabels_init (SNC (Fin p) (Fin w)) xi sigma seed = Ok s ->
  exists d d', row_log_density (cs_data s) j z = Some d /\ row_log_density (cs_data s) j z' = Some d' /\
    (d <= d' <-> nc_value (PFin p) w (nth j xi []) z' <= nc_value (PFin p) w (nth j xi []) z).
Proof.
  intros p w xi sigma seed s j z z' H. destruct (nolabels_inv _ _ _ _ _ H) as (f & F & He & D & _).
  rewrite D. cbn [row_log_density]. eexists; eexists. split; [reflexivity|]. split; [reflexivity|].
  apply family_rank; assumption.
Qed.

(* C94 (Gibbs): exactly the law exp(-c/sigma) for the 1-norm, and exp(-c/(2 sigma^2)) for the squared 2-norm *)
Theorem C94_gibbs : forall xi sigma seed s j z,
  (nolabels_init (SNC (Fin 1) (Fin 1)) xi sigma seed = Ok s ->
   row_log_density (cs_data s) j z = Some (- (nc_value (PFin 1) 1 (nth j xi []) z / radius_of sigma))) /\
  (nolabels_init (SNC (Fin 2) (Fin 2)) xi sigma seed = Ok s ->
   row_log_density (cs_data s) j z = Some (- (nc_value (PFin 2) 2 (nth j xi []) z / (2 * (radius_of sigma * radius_of sigma))))).
Proof.
  intros xi sigma seed s j z. rewrite <- radius_default. split; intros H; destruct (nolabels_inv _ _ _ _ _ H) as (f & F & He & D & _);
    cbn [sc_p sc_power] in F; rewrite D; cbn [row_log_density].
  - rewrite family_11 in F. inversion F. cbn [log_density]. rewrite norm1_value. reflexivity.
  - rewrite family_22 in F. inversion F. cbn [log_density]. rewrite norm2_value2. reflexivity.
Qed.

(* C94 (labelled, 1-norm): the joint law of data and labels is exp(-(1 + kappa) c / sigma), whatever the labels *)
Theorem C94_labelled_gibbs : forall k xi y sigma seed s j z zl, 0 < k ->
  labeled_init (SNLC (Fin 1) (Fin 1) (Fin k)) xi y sigma seed = Ok s ->
  exists l d d' c, cs_labels s = Some l /\
    row_log_density (cs_data s) j z = Some d /\ row_log_density l j zl = Some d' /\
    nlc_value (PFin 1) 1 (KFin k) (nth j xi []) z (Some (nth j y [])) (Some zl) = Ok c /\
    d + d' = - ((1 + k) * c / radius_of sigma).
Proof.
  intros k xi y sigma seed s j z zl Hk H. destruct (labeled_inv _ _ _ _ _ _ H) as (f & l & F & He & D & Sl & L).
  cbn [sc_p sc_power] in F. cbn [sampler_labels] in Sl. rewrite F in Sl. rewrite family_11 in F. inversion F; subst f; clear F.
  change (xeq (Fin k) PInf) with false in Sl. cbn iota in Sl.
  rewrite (proj2 (xeq_fin (Fin 1) 1) eq_refl) in Sl. cbn [xdiv] in Sl.
  assert (Kz : Reqb k 0 = false) by (apply Reqb_false; lra). rewrite Kz in Sl.
  destruct (loc_scale _ _ _) as [dd|] eqn:E; [|discriminate]. apply loc_scale_inv in E. destruct E as [E _].
  cbn in Sl. inversion Sl; subst dd l. rewrite D, L. exists (LocScale FLaplace y (Fin (eps_default sigma / k))).
  rewrite nlc_value_finite by lra. unfold nlc_finite. eexists; eexists; eexists.
  split; [reflexivity|]. split; [reflexivity|]. split; [reflexivity|]. split; [reflexivity|].
  cbn [log_density]. rewrite ppow_1.
  2:{ apply Rmult_le_pos; [|apply Rlt_le, Rinv_0_lt_compat; lra]. pose proof (pnorm_nonneg (PFin 1) (vsub (nth j xi []) z)).
      pose proof (pnorm_nonneg (PFin 1) (vsub (nth j y []) zl)). nra. }
  rewrite !pnorm_1, (vsub_abs_sym z), (vsub_abs_sym zl), <- radius_default. field. lra.
Qed.

(* REFUTED for the sup norm: two points at the same cost are not equally likely *)
Theorem C94_supnorm_refuted : exists xi s z z' d d',
  nolabels_init (SNC PInf (Fin 1)) xi (Some 1) None = Ok s /\
  nc_value PInfty 1 (nth 0 xi []) z = nc_value PInfty 1 (nth 0 xi []) z' /\
  row_log_density (cs_data s) 0 z = Some d /\ row_log_density (cs_data s) 0 z' = Some d' /\ d < d'.
Proof.
  exists [[0; 0]]. eexists. exists [1; 1], [1; 0]. eexists; eexists.
  split. { unfold nolabels_init, sampler_data. cbn [sc_p sc_power]. rewrite family_i1, loc_scale_ok; [reflexivity|]. cbn. apply Rltb_true. lra. }
  split. { unfold nc_value. rewrite !tpow_pos by lra. f_equal. cbn.
           replace (0 - 1) with (-1) by lra. replace (0 - 0) with 0 by lra. rewrite Rabs_R0, Rabs_left by lra.
           unfold Rmax. repeat destruct (Rle_dec _ _); lra. }
  split; [reflexivity|]. split; [reflexivity|]. unfold eps_default. cbn. lra.
Qed.

(* REFUTED for the labelled squared cost: two points at the same cost are not equally likely *)
Theorem C94_labelled_square_refuted : exists xi y s l z zl z' zl' d e d' e',
  labeled_init (SNLC (Fin 2) (Fin 2) (Fin 1)) xi y (Some 1) None = Ok s /\ cs_labels s = Some l /\
  nlc_value (PFin 2) 2 (KFin 1) (nth 0 xi []) z (Some (nth 0 y [])) (Some zl) =
  nlc_value (PFin 2) 2 (KFin 1) (nth 0 xi []) z' (Some (nth 0 y [])) (Some zl') /\
  row_log_density (cs_data s) 0 z = Some d /\ row_log_density l 0 zl = Some e /\
  row_log_density (cs_data s) 0 z' = Some d' /\ row_log_density l 0 zl' = Some e' /\ d + e < d' + e'.
Proof.
  exists [[0]], [[0]]. eexists. eexists. exists [2], [0], [1], [1]. do 4 eexists.
  split. { unfold labeled_init, sampler_data, sampler_labels. cbn [sc_p sc_power].
           change (xeq (Fin 1) PInf) with false. cbn iota. rewrite family_22, xeq_21, !loc_scale_ok; [reflexivity|..]; cbn; apply Rltb_true; lra. }
  split; [reflexivity|].
  split. { rewrite !nlc_value_finite by lra. unfold nlc_finite. do 2 f_equal. rewrite !pnorm_2. unfold norm2, sqnorm, dot. cbn.
           replace ((0 - 2) * (0 - 2) + 0) with (2 * 2) by ring. replace ((0 - 0) * (0 - 0) + 0) with (0 * 0) by ring.
           replace ((0 - 1) * (0 - 1) + 0) with (1 * 1) by ring. rewrite !sqrt_square by lra. lra. }
  do 4 (split; [reflexivity|]). unfold eps_default. cbn. lra.
Qed.

(* C94 (no ambiguity): at radius zero nothing is drawn, and the generator is left as the reseeding put it *)
Theorem C94_no_draw_at_zero : forall (G : Type) manual_seed (draw : fam -> nat -> list nat -> G -> list batch * G) n xi y s g,
  (post_forward G manual_seed draw 0 n xi y false s g = Ok (None, s, g)) /\
  (forall s', cs_reset s xi y = Ok s' ->
     post_forward G manual_seed draw 0 n xi y true s g = Ok (None, s', reseed G manual_seed (cs_seed s') g)) /\
  (forall rho b, 0 < rho -> (b = true -> exists s', cs_reset s xi y = Ok s') ->
     exists zs s1 g1, post_forward G manual_seed draw rho n xi y b s g = Ok (Some zs, s1, g1)) /\
  (forall rho, rho < 0 -> post_forward G manual_seed draw rho n xi y false s g = Raise ValueError).
Proof.
  intros. assert (Z : Rltb 0 0 = false) by (apply Rltb_false; lra). assert (E : Reqb 0 0 = true) by (apply Reqb_true; reflexivity).
  split; [|split; [|split]].
  - unfold post_forward. cbn [bind]. rewrite Z, E. reflexivity.
  - intros s' H. unfold post_forward. rewrite H. cbn [bind]. rewrite Z, E. reflexivity.
  - intros rho b Hr Hb. assert (Z1 : Rltb rho 0 = false) by (apply Rltb_false; lra). assert (E1 : Reqb rho 0 = false) by (apply Reqb_false; lra).
    unfold post_forward. destruct b.
    + destruct (Hb eq_refl) as [s' H]. rewrite H. cbn [bind]. rewrite Z1, E1. destruct (sample _ _ _ _ _) as [[z zl] g2]. eauto.
    + cbn [bind]. rewrite Z1, E1. destruct (sample _ _ _ _ _) as [[z zl] g2]. eauto.
  - intros rho Hr. unfold post_forward. cbn [bind]. rewrite (proj2 (Rltb_true rho 0) Hr). reflexivity.
Qed.

(* C21 (densities): the log-densities of the importance-sampling correction are those of the Gaussian laws drawn from *)
Lemma exp_normal s m x : 0 < s -> exp (normal_log_prob s m x) = gauss s m x.
Proof.
  intros Hs. unfold normal_log_prob, gauss, Rminus. rewrite !exp_plus, !exp_Ropp.
  assert (P : 0 < sqrt (2 * PI)) by (apply sqrt_lt_R0; pose proof PI_RGT_0; lra).
  rewrite !exp_ln by assumption.
  replace (- ((x + - m) / s) ^ 2 / 2) with (- ((x + - m) * (x + - m)) / (2 * (s * s))) by (field; lra).
  rewrite Rinv_mult_distr by lra. ring.
Qed.
Theorem C21_density : forall s m z, 0 < s -> List.length m = List.length z ->
  exp (nolabels_log_prob s m z) = gauss_vec s m z.
Proof.
  intros s m z Hs. unfold nolabels_log_prob, row_log_prob. revert z.
  induction m as [|a m IH]; intros [|b z] H; try discriminate; cbn [map2 gauss_vec].
  - apply exp_0.
  - change (rsum (normal_log_prob s a b :: map2 (normal_log_prob s) m z)) with (normal_log_prob s a b + rsum (map2 (normal_log_prob s) m z)).
    rewrite exp_plus, exp_normal by exact Hs. rewrite IH by (cbn in H; congruence). reflexivity.
Qed.
Theorem C21_labelled_density : forall sx sy m y z zl, 0 < sx -> 0 < sy -> List.length m = List.length z -> List.length y = List.length zl ->
  exp (labelled_log_prob sx sy (m, y) (z, zl)) = gauss_vec sx m z * gauss_vec sy y zl.
Proof.
  intros. unfold labelled_log_prob. cbn [fst snd]. rewrite exp_plus.
  rewrite <- (C21_density sx m z), <- (C21_density sy y zl) by assumption. reflexivity.
Qed.
Example C21_ex_density : exp (labelled_log_prob 1 2 ([0], [1]) ([3], [4])) = gauss_vec 1 [0] [3] * gauss_vec 2 [1] [4].
Proof. apply C21_labelled_density; try lra; reflexivity. Qed.

(* ---------- concrete cases ---------- *)
Definition unit_draw (f : fam) (n : nat) (sh : list nat) (g : nat) : list batch * nat :=
  (repeat (map (fun d => repeat (INR (S g)) d) sh) n, S g).
Lemma unit_draw_shaped f n b g : shaped n b (fst (unit_draw f n (map (@List.length R) b) g)).
Proof.
  cbn. split; [apply repeat_length|]. apply Forall_forall. intros u Hu. apply repeat_spec in Hu. subst u.
  induction b as [|q b IH]; cbn [map]; constructor; [apply repeat_length|exact IH].
Qed.
Example C94_ex_labels_moved : exists s z zl,
  labeled_init (SNLC (Fin 1) (Fin 1) (Fin 4)) [[3; 5]] [[7]] (Some 2) None = Ok s /\
  sample nat unit_draw s 2 0%nat = (z, Some zl, 2%nat) /\
  xat3 z 1 0 1 = Fin (5 + 2 * 1) /\ xat3 zl 1 0 0 = Fin (7 + 2 / 4 * (1 + 1)).
Proof.
  assert (I : exists s, labeled_init (SNLC (Fin 1) (Fin 1) (Fin 4)) [[3; 5]] [[7]] (Some 2) None = Ok s).
  { unfold labeled_init, sampler_data, sampler_labels. cbn [sc_p sc_power]. change (xeq (Fin 4) PInf) with false. cbn iota.
    rewrite family_11, (proj2 (xeq_fin (Fin 1) 1) eq_refl), !loc_scale_ok; [cbn; eauto|..]; cbn.
    - assert (Q : Reqb 4 0 = false) by (apply Reqb_false; lra). rewrite Q. apply Rltb_true. lra.
    - apply Rltb_true; lra. }
  destruct I as [s I]. exists s.
  destruct (C94_labels_moved nat unit_draw 1 1 4 _ _ _ _ _ 2%nat 0%nat I) as (f & F & K); [lra|].
  destruct (K _ _ _ _ eq_refl (unit_draw_shaped f 2 [[3;5]] 0) eq_refl (unit_draw_shaped f 2 [[7]] 1)) as (z & zl & E & N & N1 & _).
  exists z, zl. split; [exact I|]. split; [exact E|]. split.
  - destruct N as [_ N]. rewrite N by (cbn; lia). reflexivity.
  - destruct (N1 eq_refl) as [_ N2]. rewrite N2 by (cbn; lia). reflexivity.
Qed.
Example C94_ex_labels_fixed : exists s z zl,
  labeled_init (SNLC (Fin 2) (Fin 2) PInf) [[3; 5]] [[7]] None (Some 3%Z) = Ok s /\
  sample nat unit_draw s 2 0%nat = (z, Some zl, 1%nat) /\
  xat3 z 1 0 1 = Fin (5 + / 1000 * 1) /\ xat3 zl 1 0 0 = Fin 7.
Proof.
  assert (I : exists s, labeled_init (SNLC (Fin 2) (Fin 2) PInf) [[3; 5]] [[7]] None (Some 3%Z) = Ok s).
  { unfold labeled_init, sampler_data, sampler_labels. cbn [sc_p sc_power]. change (xeq PInf PInf) with true. cbn iota.
    rewrite family_22, !loc_scale_ok; [cbn; eauto|]. cbn. apply Rltb_true; lra. }
  destruct I as [s I]. exists s.
  destruct (C94_labels_fixed nat unit_draw _ _ _ _ _ _ 2%nat 0%nat I) as (f & F & K); [exists (Fin 2), (Fin 2); auto|].
  destruct (K _ _ eq_refl (unit_draw_shaped f 2 [[3;5]] 0)) as (z & zl & E & [_ N] & [_ N1]).
  exists z, zl. split; [exact I|]. split; [exact E|]. split.
  - rewrite N by (cbn; lia). reflexivity.
  - rewrite N1 by (cbn; lia). reflexivity.
Qed.
Example C94_ex_unlabelled : exists s z, nolabels_init (SNC (Fin 2) (Fin 1)) [[3]] (Some 2) None = Ok s /\
  sample nat unit_draw s 1 0%nat = (z, None, 1%nat) /\ xat3 z 0 0 0 = Fin (3 + 2 * 1).
Proof.
  assert (I : exists s, nolabels_init (SNC (Fin 2) (Fin 1)) [[3]] (Some 2) None = Ok s).
  { unfold nolabels_init, sampler_data. cbn [sc_p sc_power]. rewrite family_21, loc_scale_ok; [cbn; eauto|]. cbn. apply Rltb_true; lra. }
  destruct I as [s I]. exists s.
  destruct (C94_unlabelled nat unit_draw _ _ _ _ _ 1%nat 0%nat I) as (f & F & K).
  destruct (K _ _ eq_refl (unit_draw_shaped f 1 [[3]] 0)) as (z & E & [_ N]).
  exists z. split; [exact I|]. split; [exact E|]. rewrite N by (cbn; lia). reflexivity.
Qed.
Example C94_ex_gibbs : exists s, nolabels_init (SNC (Fin 1) (Fin 1)) [[0; 1]] (Some 2) None = Ok s /\
  row_log_density (cs_data s) 0 [3; 5] = Some (- (nc_value (PFin 1) 1 [0; 1] [3; 5] / 2)).
Proof.
  assert (I : exists s, nolabels_init (SNC (Fin 1) (Fin 1)) [[0; 1]] (Some 2) None = Ok s).
  { unfold nolabels_init, sampler_data. cbn [sc_p sc_power]. rewrite family_11, loc_scale_ok; [cbn; eauto|]. cbn. apply Rltb_true; lra. }
  destruct I as [s I]. exists s. split; [exact I|]. exact (proj1 (C94_gibbs [[0;1]] (Some 2) None s 0 [3;5]) I).
Qed.
Example C94_ex_labelled_gibbs : exists s l d d' c,
  labeled_init (SNLC (Fin 1) (Fin 1) (Fin 4)) [[3; 5]] [[7]] (Some 2) None = Ok s /\ cs_labels s = Some l /\
  row_log_density (cs_data s) 0 [0; 0] = Some d /\ row_log_density l 0 [1] = Some d' /\
  nlc_value (PFin 1) 1 (KFin 4) [3; 5] [0; 0] (Some [7]) (Some [1]) = Ok c /\ d + d' = - ((1 + 4) * c / 2).
Proof.
  destruct C94_ex_labels_moved as (s & _ & _ & I & _). exists s.
  destruct (C94_labelled_gibbs 4 [[3;5]] [[7]] (Some 2) None s 0 [0;0] [1] ltac:(lra) I) as (l & d & d' & c & H).
  exists l, d, d', c. split; [exact I|]. exact H.
Qed.
Example C94_ex_zero : exists s s1 zs g1, nolabels_init (SNC (Fin 2) (Fin 1)) [[3]] (Some 2) None = Ok s /\
  post_forward nat (fun _ => 0%nat) unit_draw 0 3 [[4]] None false s 5%nat = Ok (None, s, 5%nat) /\
  post_forward nat (fun _ => 0%nat) unit_draw (1/2) 3 [[4]] None true s 5%nat = Ok (Some zs, s1, g1).
Proof.
  destruct C94_ex_unlabelled as (s & _ & I & _). exists s.
  destruct (C94_no_draw_at_zero nat (fun _ => 0%nat) unit_draw 3 [[4]] None s 5%nat) as (A & _ & C & _).
  destruct (C (1/2) true) as (zs & s1 & g1 & E); [lra| |].
  { intros _. destruct (reset_ok s [[4]] None) as (s' & E & _); [exists (SNC (Fin 2) (Fin 1)), [[3]], (Some 2), None; auto| |eauto].
    destruct (nolabels_inv _ _ _ _ _ I) as (_ & _ & _ & _ & L). unfold has_labels. rewrite L. discriminate. }
  exists s1, zs, g1. auto.
Qed.

Print Assumptions C94_unlabelled.
Print Assumptions C94_labels_fixed.
Print Assumptions C94_labels_moved.
Print Assumptions C94_rank.
Print Assumptions C94_gibbs.
Print Assumptions C94_labelled_gibbs.
Print Assumptions C94_supnorm_refuted.
Print Assumptions C94_labelled_square_refuted.
Print Assumptions C94_no_draw_at_zero.
Print Assumptions C21_density.
Print Assumptions C21_labelled_density.

(* C94 (labels missing): a labelled sampler of a plain norm cost built without labels is refused; an unsupported cost or radius is reported first, with the
   error the unlabelled sampler gives. With labels it is the constructor of the other theorems. *)
Theorem C94_labels_required : forall p w xi sigma seed,
  (forall s, nolabels_init (SNC p w) xi sigma seed = Ok s -> labeled_init_nc p w xi None sigma seed = Raise ValueError) /\
  (forall e, nolabels_init (SNC p w) xi sigma seed = Raise e -> labeled_init_nc p w xi None sigma seed = Raise e) /\
  (forall y, labeled_init_nc p w xi (Some y) sigma seed = labeled_init (SNC p w) xi y sigma seed).
Proof.
  intros p w xi sigma seed. unfold nolabels_init, labeled_init_nc, labeled_init. destruct (sampler_data (SNC p w) xi sigma) as [d|e0]; cbn.
  - split; [intros s _; reflexivity|]. split; [intros e H; discriminate|]. intros y. reflexivity.
  - split; [intros s H; discriminate|]. split; [intros e H; exact H|]. intros y. reflexivity.
Qed.
Print Assumptions C94_labels_required.
Example C94_labels_required_case : labeled_init_nc (Fin 2) (Fin 1) [[3]] None (Some 2) None = Raise ValueError.
Proof. destruct C94_ex_unlabelled as (s & _ & I & _). exact (proj1 (C94_labels_required _ _ _ _ _) s I). Qed.
