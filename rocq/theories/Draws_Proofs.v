(* What the samplers built from a cost draw. *)
From Coq Require Import Reals List Bool ZArith Lra Lia.
From Verif Require Import PyBase RList XReal Costs_Model Costs_Proofs Samplers_Model Samplers_Spec Samplers_Proofs.
Import ListNotations.
Local Open Scope R_scope.

(* ---------- spec ---------- *)
(* logarithm of the density of the law of family f, scale s and location l at x, up to a constant *)
Definition log_density (f : fam) (s : R) (l x : vec) : R :=
  match f with
  | FLaplace => - (rsum (map Rabs (vsub x l)) / s)
  | FNormal => - (sqnorm (vsub x l) / (2 * (s * s)))
  end.
(* the same for the j-th row of a law on batches; [None] when there is no density *)
Definition row_log_density (d : dist) (j : nat) (x : vec) : option R :=
  match d with
  | LocScale f loc (Fin s) => Some (log_density f s (nth j loc []) x)
  | _ => None
  end.
(* entries of a list of batches *)
Definition at3 (t : list batch) (i j k : nat) : R := nth k (nth j (nth i t []) []) 0.
Definition xat3 (t : list (list (list xr))) (i j k : nat) : xr := nth k (nth j (nth i t []) []) NaN.
(* n tensors of the shape of b *)
Definition shaped {A} (n : nat) (b : batch) (t : list (list (list A))) : Prop :=
  List.length t = n /\ Forall (fun u => Forall2 (fun r s => List.length r = List.length s) u b) t.

(* every one of the n tensors of [z] is the batch [b] plus [s] times the noise *)
Definition noisy (n : nat) (b : batch) (s : R) (noise : list batch) (z : list (list (list xr))) : Prop :=
  shaped n b z /\
  forall i j k, (i < n)%nat -> (j < List.length b)%nat -> (k < List.length (nth j b []))%nat ->
    xat3 z i j k = Fin (nth k (nth j b []) 0 + s * at3 noise i j k).
(* n exact copies *)
Definition copies (n : nat) (b : batch) (z : list (list (list xr))) : Prop :=
  shaped n b z /\
  forall i j k, (i < n)%nat -> (j < List.length b)%nat -> (k < List.length (nth j b []))%nat ->
    xat3 z i j k = Fin (nth k (nth j b []) 0).

(* ---------- densities ---------- *)
Lemma vsub_abs_sym x y : map Rabs (vsub x y) = map Rabs (vsub y x).
Proof. unfold vsub. revert y. induction x as [|a x IH]; intros [|b y]; cbn; try reflexivity. f_equal; [apply Rabs_minus_sym|apply IH]. Qed.
Lemma sqnorm_sym x y : sqnorm (vsub x y) = sqnorm (vsub y x).
Proof. unfold sqnorm, dot, vsub. revert y. induction x as [|a x IH]; intros [|b y]; cbn; try reflexivity. rewrite IH. ring. Qed.
Lemma norm1_value xi z : nc_value (PFin 1) 1 xi z = rsum (map Rabs (vsub z xi)).
Proof.
  unfold nc_value. rewrite tpow_pos, ppow_1, pnorm_1 by (try apply pnorm_nonneg; lra).
  f_equal. apply vsub_abs_sym.
Qed.
Lemma norm2_value1 xi z : nc_value (PFin 2) 1 xi z = norm2 (vsub z xi).
Proof.
  unfold nc_value. rewrite tpow_pos, ppow_1, pnorm_2 by (try apply pnorm_nonneg; lra).
  unfold norm2. f_equal. apply sqnorm_sym.
Qed.
Lemma norm2_value2 xi z : nc_value (PFin 2) 2 xi z = sqnorm (vsub z xi).
Proof.
  unfold nc_value. rewrite tpow_pos, ppow_2, pnorm_2, norm2_sq by (try apply pnorm_nonneg; lra). apply sqnorm_sym.
Qed.
Lemma div_le_iff a b c : 0 < c -> (a / c <= b / c <-> a <= b).
Proof.
  intros H. assert (0 < / c) by (apply Rinv_0_lt_compat; exact H). unfold Rdiv. split; intros.
  - apply Rmult_le_reg_r with (/ c); assumption.
  - apply Rmult_le_compat_r; lra.
Qed.
Lemma norm2_le_iff x y : norm2 x <= norm2 y <-> sqnorm x <= sqnorm y.
Proof.
  rewrite <- (norm2_sq x), <- (norm2_sq y). pose proof (norm2_nonneg x). pose proof (norm2_nonneg y).
  split; intros; [apply Rmult_le_compat; assumption|]. apply Rnot_lt_le. intros L. nra.
Qed.

Lemma family_11 : family (Fin 1) (Fin 1) = Some FLaplace.
Proof. unfold family. rewrite (proj2 (xeq_fin (Fin 1) 1) eq_refl). reflexivity. Qed.
Lemma xeq_21 : xeq (Fin 2) (Fin 1) = false.
Proof. cbn. apply Reqb_false. lra. Qed.
Lemma family_21 : family (Fin 2) (Fin 1) = Some FNormal.
Proof. unfold family. rewrite (proj2 (xeq_fin (Fin 1) 1) eq_refl), xeq_21, (proj2 (xeq_fin (Fin 2) 2) eq_refl). reflexivity. Qed.
Lemma family_22 : family (Fin 2) (Fin 2) = Some FNormal.
Proof. unfold family. rewrite xeq_21, (proj2 (xeq_fin (Fin 2) 2) eq_refl). reflexivity. Qed.
Lemma family_i1 : family PInf (Fin 1) = Some FNormal.
Proof. unfold family. rewrite (proj2 (xeq_fin (Fin 1) 1) eq_refl). reflexivity. Qed.

(* the exact norms the samplers accept *)
Lemma family_rank p w f s xi z z' : family (Fin p) (Fin w) = Some f -> 0 < s ->
  (log_density f s xi z <= log_density f s xi z' <-> nc_value (PFin p) w xi z' <= nc_value (PFin p) w xi z).
Proof.
  intros F Hs. assert (H : family (Fin p) (Fin w) <> None) by congruence. apply family_some in H.
  assert (P2 : 0 < 2 * (s * s)) by nra.
  destruct H as [[Ew [Ep|[Ep|Ep]]]|[Ew Ep]]; inversion Ep; inversion Ew; subst; clear Ep Ew.
  - rewrite family_11 in F. inversion F; subst f. cbn [log_density]. rewrite !norm1_value.
    rewrite <- (div_le_iff (rsum (map Rabs (vsub z' xi))) _ s Hs). split; intros; lra.
  - rewrite family_21 in F. inversion F; subst f. cbn [log_density]. rewrite !norm2_value1, norm2_le_iff.
    rewrite <- (div_le_iff (sqnorm (vsub z' xi)) _ _ P2). split; intros; lra.
  - rewrite family_22 in F. inversion F; subst f. cbn [log_density]. rewrite !norm2_value2.
    rewrite <- (div_le_iff (sqnorm (vsub z' xi)) _ _ P2). split; intros; lra.
Qed.

(* ---------- what is drawn ---------- *)
Lemma nth_map2 {A B C} (f : A -> B -> C) da db dc : forall a b i, (i < List.length a)%nat -> (i < List.length b)%nat ->
  nth i (map2 f a b) dc = f (nth i a da) (nth i b db).
Proof. induction a as [|x a IH]; intros [|y b] [|i] Ha Hb; cbn in *; try lia; auto. apply IH; lia. Qed.
Lemma map2_len {A B C} (f : A -> B -> C) : forall a b, List.length a = List.length b -> List.length (map2 f a b) = List.length a.
Proof. induction a as [|x a IH]; intros [|y b] H; cbn in *; try discriminate; auto. Qed.

Lemma forall2_nth {A B} (P : A -> B -> Prop) da db : forall a b, Forall2 P a b -> forall i, (i < List.length b)%nat -> P (nth i a da) (nth i b db).
Proof. induction 1; intros [|i] Hi; cbn in *; try lia; auto. apply IHForall2. lia. Qed.
Lemma forall2_len {A B} (P : A -> B -> Prop) a b : Forall2 P a b -> List.length a = List.length b.
Proof. induction 1; cbn; congruence. Qed.

Section Draws.
  Variable G : Type.
  Variable draw : fam -> nat -> list nat -> G -> list batch * G.

  Lemma rsample_noisy f b s n g noise g' :
    draw f n (map (@List.length R) b) g = (noise, g') -> shaped n b noise ->
    exists z, rsample G draw (LocScale f b (Fin s)) n g = (z, g') /\ noisy n b s noise z.
  Proof.
    intros D [L F]. cbn. rewrite D. eexists; split; [reflexivity|]. split.
    - split; [rewrite map_length; exact L|]. apply Forall_map. eapply Forall_impl; [|exact F]. cbn beta.
      intros u H. clear D. clear F L. revert b H. induction u as [|r u IH]; intros [|q b] H; inversion H; subst; cbn; constructor.
      + rewrite map2_len by congruence. reflexivity.
      + apply IH. assumption.
    - intros i j k Hi Hj Hk. unfold xat3, at3, batch, vec in *.
      assert (U : Forall2 (fun r s0 => List.length r = List.length s0) (nth i noise []) b).
      { rewrite Forall_forall in F. apply F. apply nth_In. lia. }
      pose proof (forall2_len _ _ _ U) as LU.
      rewrite (nth_indep _ [] (map2 (map2 (fun l e => xadd (Fin l) (xmul (Fin s) (Fin e)))) b [])) by (rewrite map_length; lia).
      rewrite map_nth with (f := map2 (map2 (fun l e => xadd (Fin l) (xmul (Fin s) (Fin e)))) b).
      unfold batch, vec in *. rewrite (nth_map2 _ [] []) by lia.
      pose proof (forall2_nth _ [] [] _ _ U j Hj) as LR. cbn beta in LR.
      rewrite (nth_map2 _ 0 0) by lia. reflexivity.
  Qed.

  Lemma rsample_copies b n g : exists z, rsample G draw (DiracAt b) n g = (z, g) /\ copies n b z.
  Proof.
    cbn. eexists; split; [reflexivity|]. split.
    - split; [apply repeat_length|]. apply Forall_forall. intros u Hu. apply repeat_spec in Hu. subst u.
      induction b as [|q b IH]; cbn; constructor; [apply map_length|exact IH].
    - intros i j k Hi Hj Hk. unfold xat3. rewrite (nth_indep _ [] (map (map Fin) b)) by (rewrite repeat_length; exact Hi).
      rewrite nth_repeat. rewrite (nth_indep _ [] (map Fin [])) by (rewrite map_length; exact Hj). rewrite map_nth.
      rewrite (nth_indep _ NaN (Fin 0)) by (rewrite map_length; exact Hk). apply map_nth.
  Qed.
End Draws.

Lemma nolabels_inv c xi sigma seed s : nolabels_init c xi sigma seed = Ok s ->
  exists f, family (sc_p c) (sc_power c) = Some f /\ 0 < eps_default sigma /\
    cs_data s = LocScale f xi (Fin (eps_default sigma)) /\ cs_labels s = None.
Proof.
  unfold nolabels_init, sampler_data. destruct (family _ _) as [f|]; [|discriminate]. unfold loc_scale.
  destruct (xlt (Fin 0) (Fin (eps_default sigma))) eqn:E; [|discriminate]. cbn. intros H; inversion H; subst; cbn.
  cbn in E. apply Rltb_true in E. eauto.
Qed.
Lemma labeled_inv c xi y sigma seed s : labeled_init c xi y sigma seed = Ok s ->
  exists f l, family (sc_p c) (sc_power c) = Some f /\ 0 < eps_default sigma /\
    cs_data s = LocScale f xi (Fin (eps_default sigma)) /\ sampler_labels c y sigma = Ok (Some l) /\ cs_labels s = Some l.
Proof.
  unfold labeled_init, sampler_data. destruct (family _ _) as [f|]; [|discriminate]. unfold loc_scale.
  destruct (xlt (Fin 0) (Fin (eps_default sigma))) eqn:E; [|discriminate]. cbn [bind].
  destruct (sampler_labels c y sigma) as [[l|]|]; try discriminate. cbn. intros H; inversion H; subst; cbn.
  cbn in E. apply Rltb_true in E. exists f, l. auto.
Qed.
