(* C144: a change of units. Features (and labels) multiplied by t, the radius and the scale of the samples by t, the model read in
   the new units: same samples, same objective, with the multiplier divided by t^power. What the defaults do to it. *)
From Coq Require Import Reals List String Lra Lia Arith Bool ZArith.
From Verif Require Import PyBase RList XReal LogMeanExp Tensor Loss_Model Loss_Spec Costs_Model Costs_Spec Costs_Proofs Displace_Model Displace_Proofs
  ImpSamp_Model ImpSamp_Spec Dual_Model Dual_Spec Dual_Proofs InitGuess_Model InitGuess_Spec Samplers_Model Samplers_Spec Samplers_Proofs Draws_Proofs Props_Draws
  Wrap_Model Wrap_Proofs NewsV_Model TDual_Model TDual_Spec TDual_Proofs Props_Loss Props_TDual Props_NewsV.
Import ListNotations.
Local Open Scope R_scope.
Notation length := List.length.

(* ---------- lemmas ---------- *)
Lemma vsub_scaled t x z : vsub (vscal t x) (vscal t z) = vscal t (vsub x z).
Proof. apply vsub_vscal. Qed.
Lemma nth_scaled t (l : list vec) j : nth j (map (vscal t) l) [] = vscal t (nth j l []).
Proof. change (@nil R) with (vscal t []) at 1. apply map_nth. Qed.
Lemma widths_scaled k t l : widths k l -> widths k (map (vscal t) l).
Proof. unfold widths. rewrite Forall_map. apply Forall_impl. intros a E. rewrite vscal_length. exact E. Qed.
Lemma grid_scaled n m k t zs : is_grid n m k zs -> is_grid n m k (map (map (vscal t)) zs).
Proof.
  intros [H1 H2]. split; [rewrite map_length; exact H1|]. rewrite Forall_map. revert H2. apply Forall_impl.
  intros a [L W]. split; [rewrite map_length; exact L|apply widths_scaled, W].
Qed.
Lemma rp_pos x e : 0 < Rpower x e.
Proof. apply exp_pos. Qed.
Lemma tpow_scaled t d w : 0 < t -> 0 <= d -> 0 < w -> tpow (t * d) w = Rpower t w * tpow d w.
Proof. intros Ht Hd Hw. rewrite !tpow_pos by exact Hw. rewrite ppow_mult by lra. rewrite (ppow_pos t) by exact Ht. reflexivity. Qed.
Lemma nonempty_map {A B} (f : A -> B) l : l <> [] -> map f l <> [].
Proof. destruct l; [congruence|discriminate]. Qed.
Lemma nth_width k j (l : list vec) : widths k l -> (j < length l)%nat -> length (nth j l []) = k.
Proof. intros W H. unfold widths in W. rewrite Forall_forall in W. apply W, nth_In, H. Qed.
Lemma grid_point n m k zs z j : is_grid n m k zs -> In z zs -> (j < m)%nat -> length (nth j z []) = k.
Proof. intros [_ G] I H. rewrite Forall_forall in G. destruct (G z I) as [L W]. apply nth_width; [exact W|unfold vec in *; rewrite L; exact H]. Qed.
Lemma radius_scaled t rho lam w : 0 < t -> 0 < rho -> lam / Rpower t w * Rpower (t * rho) w = lam * Rpower rho w.
Proof. intros Ht Hr. rewrite <- Rpower_mult_distr by assumption. field. apply Rgt_not_eq, rp_pos. Qed.

Lemma cancel_scale l lam a d eps : a <> 0 -> (l - lam / a * (a * d)) / eps = (l - lam * d) / eps.
Proof. intros Ha. f_equal. f_equal. field. exact Ha. Qed.

(* ---------- the objective ---------- *)
(* without labels: any norm, any power *)
Theorem C144_features : forall loss w s grads loss' w' s' grads' p power k (L L' : vec -> R) n xs zs rho lam eps t,
  samplewise (w_value loss w) k L -> samplewise (w_value loss' w') k L' -> (forall z, length z = k -> L' (vscal t z) = L z) ->
  widths k xs -> is_grid n (length xs) k zs -> xs <> [] -> zs <> [] -> 0 < rho -> eps <> 0 -> 0 < t -> valid_exp p -> 0 < power ->
  t_compute_dual loss' w' (TNC p power) s' grads' (cfg "mean" (t * rho) (lam / Rpower t power) eps power)
    (Tensor.batch [length xs] k (map (vscal t) xs)) None (grid n (length xs) k (map (map (vscal t)) zs)) None
  = t_compute_dual loss w (TNC p power) s grads (cfg "mean" rho lam eps power) (Tensor.batch [length xs] k xs) None (grid n (length xs) k zs) None.
Proof.
  intros loss w s grads loss' w' s' grads' p power k L L' n xs zs rho lam eps t H H' HL W G Nx Nz Hr He Ht Hp Hw.
  rewrite (C112_value_unlabelled loss w s grads p power k L n xs zs rho lam eps H W G Nx Nz Hr He).
  pose proof (C112_value_unlabelled loss' w' s' grads' p power k L' n (map (vscal t) xs) (map (map (vscal t)) zs) (t * rho) (lam / Rpower t power) eps H'
    (widths_scaled _ _ _ W)) as E. rewrite !map_length in E.
  refine (eq_trans (E (grid_scaled _ _ _ _ _ G) (nonempty_map _ _ Nx) (nonempty_map _ _ Nz) (Rmult_lt_0_compat _ _ Ht Hr) He) _). clear E.
  rewrite radius_scaled by assumption. do 5 f_equal. apply map_ext_in. intros j Hj. apply in_seq in Hj. do 4 f_equal. rewrite map_map. apply map_ext_in. intros z Hz.
  rewrite !nth_scaled, vsub_scaled, pnorm_vscal by exact Hp. rewrite Rabs_right by lra. rewrite tpow_scaled by (try assumption; apply pnorm_nonneg).
  rewrite HL by (eapply grid_point; eauto; lia). apply (cancel_scale _ lam (Rpower t power)), Rgt_not_eq, rp_pos.
Qed.
Print Assumptions C144_features.

(* the cost of labelled points, features and labels in the new unit *)
Lemma pt_cost_scaled c t a b : 0 < t -> valid_exp (tc_p c) -> 0 < tc_power c -> (forall p w k, c = TNLC p w (KFin k) -> 0 <= k) ->
  pt_cost c (vscal t (fst a), vscal t (snd a)) (vscal t (fst b), vscal t (snd b)) = Rpower t (tc_power c) * pt_cost c a b.
Proof.
  intros Ht Hp Hw Hk. assert (A : Rabs t = t) by (apply Rabs_right; lra).
  destruct c as [p w|p w [k|]]; cbn [tc_p tc_power] in *; unfold pt_cost, nc_value, nlc_point; cbn [fst snd]; rewrite ?vsub_scaled.
  - rewrite pnorm_vscal by exact Hp. rewrite A. apply tpow_scaled; try assumption. apply pnorm_nonneg.
  - destruct (Reqb k 0) eqn:E.
    + rewrite pnorm_vscal by exact Hp. rewrite A. apply tpow_scaled; try assumption. apply pnorm_nonneg.
    + apply Reqb_false in E. pose proof (Hk p w k eq_refl) as K. rewrite !pnorm_vscal by exact Hp. rewrite A.
      replace ((t * pnorm p (vsub (fst a) (fst b)) + k * (t * pnorm p (vsub (snd a) (snd b)))) / (1 + k))
        with (t * ((pnorm p (vsub (fst a) (fst b)) + k * pnorm p (vsub (snd a) (snd b))) / (1 + k))) by (field; lra).
      apply tpow_scaled; try assumption. apply Rmult_le_pos; [|apply Rlt_le, Rinv_0_lt_compat; lra].
      pose proof (pnorm_nonneg p (vsub (fst a) (fst b))). pose proof (pnorm_nonneg p (vsub (snd a) (snd b))).
      assert (0 <= k * pnorm p (vsub (snd a) (snd b))) by (apply Rmult_le_pos; assumption). lra.
  - rewrite pnorm_vscal by exact Hp. rewrite A. apply tpow_scaled; try assumption. apply pnorm_nonneg.
Qed.

Lemma map2_maps {A B A' B' C} (f : A' -> B' -> C) (g : A -> A') (h : B -> B') l l' :
  map2 f (map g l) (map h l') = map2 (fun a b => f (g a) (h b)) l l'.
Proof. revert l'. induction l as [|a l IH]; intros [|b l']; cbn; try reflexivity. rewrite IH. reflexivity. Qed.

(* a general form: the points change, the cost is multiplied by [a], the radius to the power by [a], the multiplier is divided by [a] *)
Lemma labelled_change loss w s grads loss' w' s' grads' c c' k kl (L L' : vec -> vec -> R) n xs ys zs zls rho rho' lam eps (a : R) (fx fy : vec -> vec) :
  samplewise_labelled (w_value loss w) k kl L -> samplewise_labelled (w_value loss' w') k kl L' ->
  (forall x y, length x = k -> length y = kl -> L' (fx x) (fy y) = L x y) -> (forall x, length (fx x) = length x) -> (forall y, length (fy y) = length y) ->
  fx [] = [] -> fy [] = [] ->
  (forall x y x' y', pt_cost c' (fx x, fy y) (fx x', fy y') = a * pt_cost c (x, y) (x', y')) -> 0 < a ->
  Rpower rho' (tc_power c') = a * Rpower rho (tc_power c) ->
  widths k xs -> widths kl ys -> length ys = length xs -> is_grid n (length xs) k zs -> is_grid n (length xs) kl zls -> xs <> [] -> zs <> [] ->
  0 < rho -> 0 < rho' -> eps <> 0 ->
  t_compute_dual loss' w' c' s' grads' (cfg "mean" rho' (lam / a) eps (tc_power c'))
    (Tensor.batch [length xs] k (map fx xs)) (Some (Tensor.batch [length xs] kl (map fy ys))) (grid n (length xs) k (map (map fx) zs)) (Some (grid n (length xs) kl (map (map fy) zls)))
  = t_compute_dual loss w c s grads (cfg "mean" rho lam eps (tc_power c)) (Tensor.batch [length xs] k xs) (Some (Tensor.batch [length xs] kl ys))
      (grid n (length xs) k zs) (Some (grid n (length xs) kl zls)).
Proof.
  intros H H' HL Fx Fy Fx0 Fy0 HC Ha HR W W' E G G' Nx Nz Hr Hr' He.
  assert (WX : forall q l (f : vec -> vec), (forall x, length (f x) = length x) -> widths q l -> widths q (map f l)).
  { intros q l f Hf. unfold widths. rewrite Forall_map. apply Forall_impl. intros b Eb. rewrite Hf. exact Eb. }
  assert (GX : forall q l (f : vec -> vec), (forall x, length (f x) = length x) -> is_grid n (length xs) q l -> is_grid n (length xs) q (map (map f) l)).
  { intros q l f Hf [G1 G2]. split; [rewrite map_length; exact G1|]. rewrite Forall_map. revert G2. apply Forall_impl.
    intros b [Lb Wb]. split; [rewrite map_length; exact Lb|apply WX; assumption]. }
  rewrite (C112_value_labelled loss w s grads c k kl L n xs ys zs zls rho lam eps H W W' E G G' Nx Nz Hr He).
  pose proof (C112_value_labelled loss' w' s' grads' c' k kl L' n (map fx xs) (map fy ys) (map (map fx) zs) (map (map fy) zls) rho' (lam / a) eps H'
    (WX _ _ _ Fx W) (WX _ _ _ Fy W')) as Q. rewrite !map_length in Q.
  refine (eq_trans (Q E (GX _ _ _ Fx G) (GX _ _ _ Fy G') (nonempty_map _ _ Nx) (nonempty_map _ _ Nz) Hr' He) _). clear Q.
  replace (lam / a * Rpower rho' (tc_power c')) with (lam * Rpower rho (tc_power c)) by (rewrite HR; field; lra).
  do 5 f_equal. apply map_ext_in. intros j Hj. apply in_seq in Hj. do 4 f_equal. rewrite map2_maps. apply map2_ext_in. intros z zl Hz.
  assert (NX : forall l, nth j (map fx l) [] = fx (nth j l [])) by (intros l; rewrite <- Fx0 at 1; apply map_nth).
  assert (NY : forall l, nth j (map fy l) [] = fy (nth j l [])) by (intros l; rewrite <- Fy0 at 1; apply map_nth).
  rewrite !NX, !NY, HC.
  rewrite HL; [apply (cancel_scale _ lam a); lra| |].
  - eapply grid_point; [exact G|eapply in_combine_l, Hz|lia].
  - eapply grid_point; [exact G'|eapply in_combine_r, Hz|lia].
Qed.

(* with labels: both costs; kappa is unchanged when labels and features change unit together *)
Theorem C144_labelled : forall loss w s grads loss' w' s' grads' c k kl (L L' : vec -> vec -> R) n xs ys zs zls rho lam eps t,
  samplewise_labelled (w_value loss w) k kl L -> samplewise_labelled (w_value loss' w') k kl L' ->
  (forall x y, length x = k -> length y = kl -> L' (vscal t x) (vscal t y) = L x y) ->
  widths k xs -> widths kl ys -> length ys = length xs -> is_grid n (length xs) k zs -> is_grid n (length xs) kl zls -> xs <> [] -> zs <> [] ->
  0 < rho -> eps <> 0 -> 0 < t -> valid_exp (tc_p c) -> 0 < tc_power c -> (forall p q kappa, c = TNLC p q (KFin kappa) -> 0 <= kappa) ->
  t_compute_dual loss' w' c s' grads' (cfg "mean" (t * rho) (lam / Rpower t (tc_power c)) eps (tc_power c))
    (Tensor.batch [length xs] k (map (vscal t) xs)) (Some (Tensor.batch [length xs] kl (map (vscal t) ys)))
    (grid n (length xs) k (map (map (vscal t)) zs)) (Some (grid n (length xs) kl (map (map (vscal t)) zls)))
  = t_compute_dual loss w c s grads (cfg "mean" rho lam eps (tc_power c)) (Tensor.batch [length xs] k xs) (Some (Tensor.batch [length xs] kl ys))
      (grid n (length xs) k zs) (Some (grid n (length xs) kl zls)).
Proof.
  intros loss w s grads loss' w' s' grads' c k kl L L' n xs ys zs zls rho lam eps t H H' HL W W' E G G' Nx Nz Hr He Ht Hp Hw Hk.
  apply (labelled_change loss w s grads loss' w' s' grads' c c k kl L L' n xs ys zs zls rho (t * rho) lam eps (Rpower t (tc_power c)) (vscal t) (vscal t)); try assumption;
    try (intros; apply vscal_length); try reflexivity.
  - intros x y x' y'. exact (pt_cost_scaled c t (x, y) (x', y') Ht Hp Hw Hk).
  - apply rp_pos.
  - rewrite <- Rpower_mult_distr by assumption. reflexivity.
  - apply Rmult_lt_0_compat; assumption.
Qed.
Print Assumptions C144_labelled.

(* the features alone change unit: kappa must be multiplied by t, and the radius by t (1 + kappa) / (1 + t kappa) *)
Theorem C144_features_of_labelled : forall loss w s grads loss' w' s' grads' p power kappa k kl (L L' : vec -> vec -> R) n xs ys zs zls rho lam eps t,
  samplewise_labelled (w_value loss w) k kl L -> samplewise_labelled (w_value loss' w') k kl L' ->
  (forall x y, length x = k -> length y = kl -> L' (vscal t x) y = L x y) ->
  widths k xs -> widths kl ys -> length ys = length xs -> is_grid n (length xs) k zs -> is_grid n (length xs) kl zls -> xs <> [] -> zs <> [] ->
  0 < rho -> eps <> 0 -> 0 < t -> valid_exp p -> 0 < power -> 0 < kappa ->
  let f := t * (1 + kappa) / (1 + t * kappa) in
  t_compute_dual loss' w' (TNLC p power (KFin (t * kappa))) s' grads' (cfg "mean" (f * rho) (lam / Rpower f power) eps power)
    (Tensor.batch [length xs] k (map (vscal t) xs)) (Some (Tensor.batch [length xs] kl (map (fun y => y) ys)))
    (grid n (length xs) k (map (map (vscal t)) zs)) (Some (grid n (length xs) kl (map (map (fun y => y)) zls)))
  = t_compute_dual loss w (TNLC p power (KFin kappa)) s grads (cfg "mean" rho lam eps power) (Tensor.batch [length xs] k xs) (Some (Tensor.batch [length xs] kl ys))
      (grid n (length xs) k zs) (Some (grid n (length xs) kl zls)).
Proof.
  intros loss w s grads loss' w' s' grads' p power kappa k kl L L' n xs ys zs zls rho lam eps t H H' HL W W' E G G' Nx Nz Hr He Ht Hp Hw Hk f.
  assert (Htk : 0 < t * kappa) by (apply Rmult_lt_0_compat; assumption).
  assert (Hf : 0 < f) by (unfold f; apply Rdiv_lt_0_compat; [apply Rmult_lt_0_compat; lra|lra]).
  apply (labelled_change loss w s grads loss' w' s' grads' (TNLC p power (KFin kappa)) (TNLC p power (KFin (t * kappa))) k kl L L' n xs ys zs zls rho (f * rho) lam eps
    (Rpower f power) (vscal t) (fun y => y)); try assumption; try reflexivity; try (intros; apply vscal_length).
  - intros x y x' y'. unfold pt_cost, nlc_point; cbn [fst snd].
    assert (Reqb (t * kappa) 0 = false) as -> by (apply Reqb_false; lra). assert (Reqb kappa 0 = false) as -> by (apply Reqb_false; lra).
    rewrite vsub_scaled, pnorm_vscal by exact Hp. rewrite Rabs_right by lra.
    pose proof (pnorm_nonneg p (vsub x x')). pose proof (pnorm_nonneg p (vsub y y')).
    replace ((t * pnorm p (vsub x x') + t * kappa * pnorm p (vsub y y')) / (1 + t * kappa))
      with (f * ((pnorm p (vsub x x') + kappa * pnorm p (vsub y y')) / (1 + kappa))) by (unfold f; field; lra).
    apply tpow_scaled; try assumption. apply Rmult_le_pos; [|apply Rlt_le, Rinv_0_lt_compat; lra].
    assert (0 <= kappa * pnorm p (vsub y y')) by (apply Rmult_le_pos; lra). lra.
  - apply rp_pos.
  - cbn [tc_power]. rewrite <- Rpower_mult_distr by assumption. reflexivity.
  - apply Rmult_lt_0_compat; assumption.
Qed.
Print Assumptions C144_features_of_labelled.

Lemma rmean_scaled a l : rmean (map (Rmult a) l) = a * rmean l.
Proof. unfold rmean. rewrite map_length, <- (map_id l) at 1. rewrite map_map, rsum_map_scal, map_id. unfold Rdiv. ring. Qed.
(* the unit of the loss: epsilon and the multiplier change with it, the radius does not *)
Theorem C144_loss : forall loss w s grads loss' w' s' grads' p power k (L L' : vec -> R) n xs zs rho lam eps a,
  samplewise (w_value loss w) k L -> samplewise (w_value loss' w') k L' -> (forall z, length z = k -> L' z = a * L z) ->
  widths k xs -> is_grid n (length xs) k zs -> xs <> [] -> zs <> [] -> 0 < rho -> 0 < eps -> 0 < a ->
  exists v, t_compute_dual loss w (TNC p power) s grads (cfg "mean" rho lam eps power) (Tensor.batch [length xs] k xs) None (grid n (length xs) k zs) None = Ok (Scalar (Fin v)) /\
    t_compute_dual loss' w' (TNC p power) s' grads' (cfg "mean" rho (a * lam) (a * eps) power) (Tensor.batch [length xs] k xs) None (grid n (length xs) k zs) None
    = Ok (Scalar (Fin (a * v))).
Proof.
  intros loss w s grads loss' w' s' grads' p power k L L' n xs zs rho lam eps a H H' HL W G Nx Nz Hr He Ha.
  assert (Hae : 0 < a * eps) by (apply Rmult_lt_0_compat; assumption).
  rewrite (C112_value_unlabelled loss w s grads p power k L n xs zs rho lam eps H W G Nx Nz Hr ltac:(lra)).
  rewrite (C112_value_unlabelled loss' w' s' grads' p power k L' n xs zs rho (a * lam) (a * eps) H' W G Nx Nz Hr ltac:(lra)).
  eexists. split; [reflexivity|]. do 3 f_equal. rewrite Rmult_plus_distr_l. f_equal; [ring|].
  rewrite <- rmean_scaled, map_map. f_equal. apply map_ext_in. intros j Hj. apply in_seq in Hj. rewrite Rmult_assoc. do 5 f_equal. apply map_ext_in. intros z Hz.
  rewrite HL by (eapply grid_point; eauto; lia). field. lra.
Qed.
Print Assumptions C144_loss.

(* the best multiplier in the new units is the old one divided by t^power *)
Theorem C144_best_multiplier : forall loss w s grads loss' w' s' grads' p power k (L L' : vec -> R) n xs zs rho eps t (f f' : R -> R) lam,
  samplewise (w_value loss w) k L -> samplewise (w_value loss' w') k L' -> (forall z, length z = k -> L' (vscal t z) = L z) ->
  widths k xs -> is_grid n (length xs) k zs -> xs <> [] -> zs <> [] -> 0 < rho -> eps <> 0 -> 0 < t -> valid_exp p -> 0 < power ->
  (forall l, t_compute_dual loss w (TNC p power) s grads (cfg "mean" rho l eps power) (Tensor.batch [length xs] k xs) None (grid n (length xs) k zs) None = Ok (Scalar (Fin (f l)))) ->
  (forall l, t_compute_dual loss' w' (TNC p power) s' grads' (cfg "mean" (t * rho) l eps power)
    (Tensor.batch [length xs] k (map (vscal t) xs)) None (grid n (length xs) k (map (map (vscal t)) zs)) None = Ok (Scalar (Fin (f' l)))) ->
  (forall l, 0 <= l -> f lam <= f l) <-> (forall l, 0 <= l -> f' (lam / Rpower t power) <= f' l).
Proof.
  intros loss w s grads loss' w' s' grads' p power k L L' n xs zs rho eps t f f' lam H H' HL W G Nx Nz Hr He Ht Hp Hw Hf Hf'.
  assert (E : forall l, f' (l / Rpower t power) = f l).
  { intros l. pose proof (C144_features loss w s grads loss' w' s' grads' p power k L L' n xs zs rho l eps t H H' HL W G Nx Nz Hr He Ht Hp Hw) as Q.
    rewrite Hf in Q. pose proof (eq_trans (eq_sym (Hf' (l / Rpower t power))) Q) as Q1. injection Q1 as Q1. exact Q1. }
  pose proof (rp_pos t power) as T. split; intros B l Hl.
  - rewrite E. replace l with (l * Rpower t power / Rpower t power) by (field; lra). rewrite E. apply B. apply Rmult_le_pos; lra.
  - rewrite <- !E. apply B. apply Rmult_le_pos; [exact Hl|]. apply Rlt_le, Rinv_0_lt_compat, T.
Qed.
Print Assumptions C144_best_multiplier.

(* ---------- importance sampling ---------- *)
Lemma gauss_scaled t s m x : 0 < t -> 0 < s -> gauss (t * s) (t * m) (t * x) = / t * gauss s m x.
Proof.
  intros Ht Hs. unfold gauss. assert (0 < sqrt (2 * PI)) by (apply sqrt_lt_R0; pose proof PI_RGT_0; lra).
  replace ((t * x - t * m) / (t * s)) with ((x - m) / s) by (field; lra). field. lra.
Qed.
Lemma gauss_vec_scaled t s m : 0 < t -> 0 < s -> forall x, length x = length m -> gauss_vec (t * s) (vscal t m) (vscal t x) = (/ t) ^ length m * gauss_vec s m x.
Proof.
  intros Ht Hs. induction m as [|a m IH]; intros [|b x] E; try discriminate; [cbn; ring|]. injection E as E.
  change (vscal t (a :: m)) with (t * a :: vscal t m). change (vscal t (b :: x)) with (t * b :: vscal t x).
  cbn [gauss_vec length pow]. rewrite gauss_scaled by assumption. rewrite IH by exact E. ring.
Qed.
Lemma vadd_scaled t x y : vadd (vscal t x) (vscal t y) = vscal t (vadd x y).
Proof. unfold vadd, vscal. revert y. induction x as [|a x IH]; intros [|b y]; cbn; try reflexivity. rewrite IH. f_equal. ring. Qed.
Lemma vscal_vscal a b x : vscal a (vscal b x) = vscal (a * b) x.
Proof. unfold vscal. rewrite map_map. apply map_ext. intros c. ring. Qed.
Lemma vsub_len x y : length x = length y -> length (vsub x y) = length x.
Proof. unfold vsub. revert y. induction x as [|a x IH]; intros [|b y] E; cbn in *; try discriminate; [reflexivity|]. rewrite IH by lia. reflexivity. Qed.
Lemma vadd_len x y : length x = length y -> length (vadd x y) = length x.
Proof. unfold vadd. revert y. induction x as [|a x IH]; intros [|b y] E; cbn in *; try discriminate; [reflexivity|]. rewrite IH by lia. reflexivity. Qed.
Lemma shift_scaled t lam g : 0 < t -> lam <> 0 -> 0 < norm2 g -> norm2 g <= threshold_default -> norm2 g / t <= threshold_default ->
  shift (lam / Rpower t 2) (vscal (/ t) g) = vscal t (shift lam g).
Proof.
  intros Ht Hl Hn H1 H2. unfold shift. rewrite norm2_vscal, Rabs_right by (apply Rle_ge, Rlt_le, Rinv_0_lt_compat, Ht).
  assert (E2 : Rpower t 2 = t * t) by (replace 2 with (INR 2) by (cbn; lra); rewrite Rpower_pow by exact Ht; cbn; ring).
  rewrite E2, !vscal_vscal. rewrite (Rmin_right threshold_default (norm2 g)) by exact H1.
  rewrite Rmin_right by (replace (/ t * norm2 g) with (norm2 g / t) by (unfold Rdiv; ring); exact H2). f_equal. field. lra.
Qed.

(* with importance sampling on, for the cost it exists for: the displacement, the densities and the value follow the unit,
   as long as no gradient is clipped at the threshold *)
Theorem C144_importance : forall loss w grads loss' w' grads' sc k (L L' : vec -> R) n xs zs G rho lam eps t,
  samplewise (w_value loss w) k L -> samplewise (w_value loss' w') k L' -> (forall z, length z = k -> L' (vscal t z) = L z) ->
  widths k xs -> is_grid n (length xs) k zs -> xs <> [] -> zs <> [] -> 0 < rho -> eps <> 0 -> lam <> 0 -> 0 < sc -> 0 < t ->
  grads (Tensor.batch [length xs] k xs) None = Ok (map (map Fin) G, None) ->
  grads' (Tensor.batch [length xs] k (map (vscal t) xs)) None = Ok (map (map Fin) (map (vscal (/ t)) G), None) ->
  length G = length xs -> widths k G -> Forall (Exists (fun a => a <> 0)) G ->
  Forall (fun g => norm2 g <= threshold_default /\ norm2 g / t <= threshold_default) G ->
  t_compute_dual loss' w' (TNC (PFin 2) 2) (TPlain (Tensor.batch [length xs] k (map (vscal t) xs)) (t * sc)) grads' (imp_on (t * rho) (lam / Rpower t 2) eps 2)
    (Tensor.batch [length xs] k (map (vscal t) xs)) None (grid n (length xs) k (map (map (vscal t)) zs)) None
  = t_compute_dual loss w (TNC (PFin 2) 2) (TPlain (Tensor.batch [length xs] k xs) sc) grads (imp_on rho lam eps 2)
      (Tensor.batch [length xs] k xs) None (grid n (length xs) k zs) None.
Proof.
  intros loss w grads loss' w' grads' sc k L L' n xs zs G rho lam eps t H H' HL W Gz Nx Nz Hr He Hl Hsc Ht Hg Hg' LG WG FG TG.
  assert (Hl' : lam / Rpower t 2 <> 0).
  { unfold Rdiv. apply Rmult_integral_contrapositive_currified; [exact Hl|]. apply Rinv_neq_0_compat, Rgt_not_eq, rp_pos. }
  assert (FG' : Forall (Exists (fun a => a <> 0)) (map (vscal (/ t)) G)).
  { rewrite Forall_map. revert FG. apply Forall_impl. intros g. unfold vscal. rewrite Exists_map. rewrite !Exists_exists.
    intros (a & I & Na). exists a. split; [exact I|]. apply Rmult_integral_contrapositive_currified; [apply Rinv_neq_0_compat; lra|exact Na]. }
  rewrite (C112_importance loss w grads sc k L n xs zs G rho lam eps H W Gz Nx Nz Hr He Hl Hsc Hg LG WG FG).
  pose proof (C112_importance loss' w' grads' (t * sc) k L' n (map (vscal t) xs) (map (map (vscal t)) zs) (map (vscal (/ t)) G) (t * rho) (lam / Rpower t 2) eps H'
    (widths_scaled _ _ _ W)) as E. rewrite !map_length in E.
  refine (eq_trans (E (grid_scaled _ _ _ _ _ Gz) (nonempty_map _ _ Nx) (nonempty_map _ _ Nz) (Rmult_lt_0_compat _ _ Ht Hr) He Hl' (Rmult_lt_0_compat _ _ Ht Hsc)
    Hg' LG (widths_scaled _ _ _ WG) FG') _). clear E.
  rewrite radius_scaled by assumption. do 5 f_equal. apply map_ext_in. intros j Hj. apply in_seq in Hj. do 3 f_equal. rewrite map_map. apply map_ext_in. intros z Hz. cbv zeta.
  assert (Ij : (j < length G)%nat) by (rewrite LG; lia).
  assert (Ng : 0 < norm2 (nth j G [])).
  { apply nonzero_norm. rewrite Forall_forall in FG. apply FG, nth_In, Ij. }
  assert (Tg : norm2 (nth j G []) <= threshold_default /\ norm2 (nth j G []) / t <= threshold_default).
  { rewrite Forall_forall in TG. apply TG, nth_In, Ij. }
  assert (Lz : length (nth j z []) = k) by (eapply grid_point; eauto; lia).
  assert (Lx : length (nth j xs []) = k) by (apply nth_width; [exact W|exact (proj2 Hj)]).
  assert (Ls : length (shift lam (nth j G [])) = k) by (unfold shift; rewrite vscal_length; apply nth_width; assumption).
  rewrite !nth_scaled. pose proof (shift_scaled t lam (nth j G []) Ht Hl Ng (proj1 Tg) (proj2 Tg)) as SS. unfold vec in *. rewrite SS. clear SS.
  set (x := nth j xs []) in *. set (dl := shift lam (nth j G [])) in *. rewrite vadd_scaled. set (z' := vadd (nth j z []) dl).
  assert (Lz' : length z' = k) by (unfold z'; rewrite vadd_len; unfold vec in *; congruence).
  unfold moved_gauss. rewrite (vsub_scaled t z' dl), (vsub_scaled t x z'), !gauss_vec_scaled by (try assumption; rewrite ?vsub_len; unfold vec in *; congruence).
  rewrite pnorm_vscal by (cbn; lra). rewrite Rabs_right by lra. rewrite tpow_scaled by (try assumption; try lra; apply pnorm_nonneg).
  rewrite HL by exact Lz'. f_equal.
  - f_equal. apply (cancel_scale _ lam (Rpower t 2)), Rgt_not_eq, rp_pos.
  - assert (P1 : 0 < (/ t) ^ length x) by (apply pow_lt, Rinv_0_lt_compat, Ht).
    pose proof (ImpSamp_Proofs.gauss_vec_pos sc x (vsub z' dl) Hsc). field. split; lra.
Qed.
Print Assumptions C144_importance.

(* ---------- the samples ---------- *)
(* the same seed gives the same samples in the new unit *)
Theorem C144_draws : forall (G : Type) (draw : fam -> nat -> list nat -> G -> list Samplers_Model.batch * G) c xi sigma seed s s' n g t noise g' f,
  nolabels_init c xi (Some sigma) seed = Ok s -> nolabels_init c (map (vscal t) xi) (Some (t * sigma)) seed = Ok s' ->
  family (sc_p c) (sc_power c) = Some f -> draw f n (map (@List.length R) xi) g = (noise, g') -> shaped n xi noise ->
  exists z z', sample G draw s n g = (z, None, g') /\ sample G draw s' n g = (z', None, g') /\
    forall i j k, (i < n)%nat -> (j < length xi)%nat -> (k < length (nth j xi []))%nat -> exists a, xat3 z i j k = Fin a /\ xat3 z' i j k = Fin (t * a).
Proof.
  intros G draw c xi sigma seed s s' n g t noise g' f H H' F D Sh.
  destruct (C94_unlabelled G draw c xi (Some sigma) seed s n g H) as (f1 & F1 & Q1). rewrite F in F1. injection F1 as <-.
  destruct (C94_unlabelled G draw c (map (vscal t) xi) (Some (t * sigma)) seed s' n g H') as (f2 & F2 & Q2). rewrite F in F2. injection F2 as <-.
  destruct (Q1 noise g' D Sh) as (z & S1 & _ & N1).
  assert (LL : map (@List.length R) (map (vscal t) xi) = map (@List.length R) xi) by (rewrite map_map; apply map_ext; intros x; apply vscal_length).
  assert (Sh' : shaped n (map (vscal t) xi) noise).
  { destruct Sh as [A B]. split; [exact A|]. revert B. apply Forall_impl. intros u B. clear -B.
    induction B as [|r s u b E _ IH]; cbn; constructor; [rewrite vscal_length; exact E|exact IH]. }
  destruct (Q2 noise g') as (z' & S2 & _ & N2); [rewrite LL; exact D|exact Sh'|].
  exists z, z'. split; [exact S1|]. split; [exact S2|]. intros i j k Hi Hj Hk. eexists. split; [apply (N1 i j k Hi Hj Hk)|].
  rewrite N2; [|exact Hi|rewrite map_length; exact Hj|].
  - f_equal. rewrite nth_scaled. cbn [radius_of]. unfold vscal. rewrite (nth_indep _ 0 (t * 0)) by (rewrite map_length; exact Hk). rewrite map_nth. ring.
  - rewrite nth_scaled. fold (length (vscal t (nth j xi []))). rewrite vscal_length. exact Hk.
Qed.
Print Assumptions C144_draws.

(* ---------- the first multiplier ---------- *)
Lemma guess_scaled_div A b T lam : 0 <= b -> 0 < T ->
  xadd (xmul (Fin lam) (Fin 0)) (xdiv A (Fin (T * b))) = xdiv (xadd (xmul (Fin lam) (Fin 0)) (xdiv A (Fin b))) (Fin T).
Proof.
  intros Hb HT. assert (T0 : Reqb T 0 = false) by (apply Reqb_false; lra). assert (T1 : Rltb T 0 = false) by (apply Rltb_false; lra).
  destruct (Req_dec b 0) as [->|Nb].
  - assert (Z : Reqb (T * 0) 0 = true) by (apply Reqb_true; lra). assert (Z0 : Reqb 0 0 = true) by (apply Reqb_true; reflexivity).
    assert (Z1 : Rltb (T * 0) 0 = false) by (apply Rltb_false; lra). assert (Z2 : Rltb 0 0 = false) by (apply Rltb_false; lra).
    destruct A as [a| | |]; cbn [xdiv xmul xadd]; rewrite ?Z, ?Z0, ?Z1, ?Z2.
    + destruct (Reqb a 0); [reflexivity|]. destruct (Rltb a 0); cbn [xadd xdiv]; rewrite ?T1; reflexivity.
    + cbn [xadd xdiv]. rewrite T1. reflexivity.
    + cbn [xadd xdiv]. rewrite T1. reflexivity.
    + reflexivity.
  - assert (Pb : 0 < b) by lra. assert (Z : Reqb (T * b) 0 = false) by (apply Reqb_false; apply Rgt_not_eq, Rmult_lt_0_compat; lra).
    assert (Z0 : Reqb b 0 = false) by (apply Reqb_false; lra). assert (Z1 : Rltb b 0 = false) by (apply Rltb_false; lra).
    assert (Z2 : Rltb (T * b) 0 = false) by (apply Rltb_false; apply Rlt_le, Rmult_lt_0_compat; lra).
    destruct A as [a| | |]; cbn [xdiv xmul xadd]; rewrite ?Z, ?Z0, ?Z1, ?Z2; cbn [xdiv xadd]; rewrite ?T0, ?T1; try reflexivity.
    f_equal. field. lra.
Qed.
(* the starting guess follows the unit, for every power, power 1 included *)
Theorem C144_guess : forall p power grads rho lam t, valid_exp p -> 0 < power -> 0 < rho -> 0 < t ->
  exists l0, initial_guess (Fin rho) (Fin lam) true power (grads_norms p power grads) = Ok l0 /\
    initial_guess (Fin (t * rho)) (Fin lam) true power (grads_norms p power (map (vscal (/ t)) grads)) = Ok (xdiv l0 (Fin (Rpower t power))).
Proof.
  intros p power grads rho lam t Hp Hw Hr Ht. pose proof (rp_pos t power) as T. pose proof (Rmult_lt_0_compat _ _ Ht Hr) as Htr.
  assert (GN : grads_norms p power (map (vscal (/ t)) grads) = map (fun v => v / Rpower t power) (grads_norms p power grads)).
  { unfold grads_norms. rewrite !map_map. apply map_ext. intros g. unfold nc_value.
    assert (zeros_like (vscal (/ t) g) = vscal (/ t) (zeros_like g)) as ->.
    { unfold zeros_like, vscal. rewrite !map_map. apply map_ext. intros a. ring. }
    assert (0 < / t) by (apply Rinv_0_lt_compat, Ht).
    rewrite vsub_scaled, pnorm_vscal by exact Hp. rewrite Rabs_right by lra. rewrite tpow_scaled by (try assumption; apply pnorm_nonneg).
    assert (Rpower (/ t) power = / Rpower t power) as -> by (rewrite <- !ppow_pos by assumption; apply ppow_inv; exact Ht).
    unfold Rdiv. ring. }
  rewrite GN. clear GN. set (gn := grads_norms p power grads). clearbody gn. unfold initial_guess.
  assert (xlt (Fin 0) (Fin rho) = true) as -> by (apply Rltb_true; exact Hr). assert (xlt (Fin 0) (Fin (t * rho)) = true) as -> by (apply Rltb_true; exact Htr).
  cbv zeta. rewrite map_length, map_map.
  assert (P0 : forall r, 0 < r -> xpow (Fin r) (Fin power) = Fin (Rpower r power)).
  { intros r P. unfold xpow. assert (Reqb power 0 = false) as -> by (apply Reqb_false; lra). assert (Reqb r 0 = false) as -> by (apply Reqb_false; lra). reflexivity. }
  rewrite (P0 rho Hr), (P0 (t * rho) Htr). rewrite <- Rpower_mult_distr by assumption. cbn [xmul].
  set (q := if Reqb power 1 then PInf else Fin (power / (power - 1))).
  eexists. split; [reflexivity|]. f_equal.
  replace (map (fun x : R => xpow (Fin (x / Rpower t power * (INR (length gn) * (Rpower t power * Rpower rho power)))) (xsub q (Fin 1))) gn)
    with (map (fun g : R => xpow (Fin (g * (INR (length gn) * Rpower rho power))) (xsub q (Fin 1))) gn)
    by (apply map_ext; intros g; do 2 f_equal; field; lra).
  replace (power * (INR (length gn) * (Rpower t power * Rpower rho power))) with (Rpower t power * (power * (INR (length gn) * Rpower rho power))) by ring.
  apply guess_scaled_div; [|exact T]. pose proof (rp_pos rho power). pose proof (pos_INR (length gn)).
  apply Rmult_le_pos; [lra|]. apply Rmult_le_pos; lra.
Qed.
Print Assumptions C144_guess.

(* the multiplier of a fresh robust loss is divided by t whatever the power: right for power 1 only *)
Theorem C144_start : forall rho eps power red imp t d d', 0 < rho -> 0 < t ->
  dual_init (Fin rho) eps power red imp = Ok d -> dual_init (Fin (t * rho)) eps power red imp = Ok d' -> d_lam d' = d_lam d / t.
Proof.
  intros rho eps power red imp t d d' Hr Ht E E'. injection E as <-. injection E' as <-. cbn [d_lam].
  assert (Rltb 0 rho = true) as -> by (apply Rltb_true; exact Hr).
  assert (Rltb 0 (t * rho) = true) as -> by (apply Rltb_true, Rmult_lt_0_compat; assumption). field. lra.
Qed.
Print Assumptions C144_start.
Theorem C144_start_refuted : exists rho t d d', 0 < rho /\ 0 < t /\
  dual_init (Fin rho) 1 2 None false = Ok d /\ dual_init (Fin (t * rho)) 1 2 None false = Ok d' /\ d_lam d' <> d_lam d / Rpower t 2.
Proof.
  exists 1, 2. eexists _, _. split; [lra|]. split; [lra|]. split; [reflexivity|]. split; [reflexivity|]. cbn [d_lam].
  assert (Rltb 0 1 = true) as -> by (apply Rltb_true; lra). assert (Rltb 0 (2 * 1) = true) as -> by (apply Rltb_true; lra).
  assert (Rpower 2 2 = 4) as -> by (replace 2 with (INR 2) at 2 by (cbn; lra); rewrite Rpower_pow by lra; cbn; lra). lra.
Qed.
Print Assumptions C144_start_refuted.

(* ---------- the defaults ---------- *)
(* the automatic scale of the samples follows the radius *)
Theorem C144_default_sigma : forall rho t, 0 < rho -> 0 < t -> expert_sigma (t * rho) None SIGMA_FACTOR = t * expert_sigma rho None SIGMA_FACTOR.
Proof.
  intros rho t Hr Ht. unfold expert_sigma. assert (Rltb 0 rho = true) as -> by (apply Rltb_true; exact Hr).
  assert (Rltb 0 (t * rho) = true) as -> by (apply Rltb_true, Rmult_lt_0_compat; assumption). ring.
Qed.
Print Assumptions C144_default_sigma.
(* the automatic regularisation does not depend on the unit of the features for power 1 *)
Theorem C144_default_epsilon_power_1 : forall rho t, 0 < rho -> 0 < t ->
  expert_epsilon (t * rho) (Fin 1) None EPSILON_SIGMA_FACTOR SIGMA_FACTOR = expert_epsilon rho (Fin 1) None EPSILON_SIGMA_FACTOR SIGMA_FACTOR.
Proof. intros rho t Hr Ht. rewrite !auto_epsilon_1; [reflexivity|lra|]. apply Rlt_le, Rmult_lt_0_compat; assumption. Qed.
Print Assumptions C144_default_epsilon_power_1.
(* for power 2 it is proportional to the radius: another unit, another problem. One data point at 0, samples at 0 and 1, the loss is the
   feature; in units 40000 times smaller the objective at multiplier 0 falls from over 0.99 to under 0.51. *)
Definition unit_rows (t : R) : list (row vec) := [{| r_mean := vscal t [0]; r_xi := vscal t [0]; r_zeta := [vscal t [0]; vscal t [1]] |}].
Definition in_old_unit (t : R) (z : vec) : R := / t * hd 0 z.
Theorem C144_default_epsilon_refuted : exists rho t eps eps' v v', 0 < rho /\ 0 < t /\
  expert_epsilon rho (Fin 2) None EPSILON_SIGMA_FACTOR SIGMA_FACTOR = Fin eps /\
  expert_epsilon (t * rho) (Fin 2) None EPSILON_SIGMA_FACTOR SIGMA_FACTOR = Fin eps' /\
  compute_dual vec (in_old_unit 1) (nc_value (PFin 2) 2) (fun _ => Ok []) (fun _ _ => 0) (fun _ _ _ => 0) (cfg "mean" rho 0 eps 2) 2 (unit_rows 1) = Ok (Scalar (Fin v)) /\
  compute_dual vec (in_old_unit t) (nc_value (PFin 2) 2) (fun _ => Ok []) (fun _ _ => 0) (fun _ _ _ => 0) (cfg "mean" (t * rho) 0 eps' 2) 2 (unit_rows t) = Ok (Scalar (Fin v')) /\
  99 / 100 < v /\ v' < 51 / 100.
Proof.
  exists 1, 40000, (1 / 400), (40000 * 1 / 400).
  assert (C : forall t rho eps, 0 < rho -> 0 < t -> eps <> 0 ->
    compute_dual vec (in_old_unit t) (nc_value (PFin 2) 2) (fun _ => Ok []) (fun _ _ => 0) (fun _ _ _ => 0) (cfg "mean" rho 0 eps 2) 2 (unit_rows t)
    = Ok (Scalar (Fin (eps * (ln (1 + exp (/ eps)) - ln 2))))).
  { intros t rho eps Hr Ht He. unfold compute_dual, cfg. cbn [d_rho d_erm d_imp d_lam d_eps d_power d_reduction].
    assert (xeq (Fin rho) (Fin 0) = false) as -> by (cbn; apply Reqb_false; lra). assert (xlt (Fin 0) (Fin rho) = true) as -> by (cbn; apply Rltb_true; exact Hr).
    cbn [orb]. unfold integrands. cbn [d_imp unit_rows map bind r_zeta r_xi]. unfold integrand; cbn [d_lam d_eps]. unfold in_old_unit. cbn [vscal map hd].
    unfold reduce_loss_batch. cbn [Nat.eqb negb String.eqb Ascii.eqb Bool.eqb bind map out_map logsumexp rsum fold_right xsum List.length].
    assert (Q : Reqb (INR 1) 0 = false) by (apply Reqb_false; cbn; lra).
    cbn [xadd xdiv xopp xsub xlog_nat xpow_pos xmul]. rewrite Q. cbn [xadd xdiv xopp xsub xlog_nat xpow_pos xmul out_map]. do 3 f_equal.
    replace ((/ t * (t * 0) - 0 * nc_value (PFin 2) 2 [t * 0] [t * 0]) / eps) with 0 by (field; lra).
    replace ((/ t * (t * 1) - 0 * nc_value (PFin 2) 2 [t * 0] [t * 1]) / eps) with (/ eps) by (field; lra).
    rewrite exp_0. replace (1 + (exp (/ eps) + 0)) with (1 + exp (/ eps)) by ring. replace (INR 2) with 2 by (cbn; lra). cbn [INR]. field. }
  eexists _, _. split; [lra|]. split; [lra|].
  split; [rewrite auto_epsilon_2 by lra; rewrite Rmax_left by lra; reflexivity|].
  split; [rewrite auto_epsilon_2 by lra; rewrite Rmax_left by lra; reflexivity|].
  split; [apply C; lra|]. split; [apply C; lra|].
  assert (L2 : ln 2 < 1).
  { apply exp_lt_inv. rewrite exp_ln by lra. pose proof (exp_ineq1 1 ltac:(lra)). lra. }
  split.
  - assert (/ (1 / 400) < ln (1 + exp (/ (1 / 400)))).
    { rewrite <- (ln_exp (/ (1 / 400))) at 1. apply ln_increasing; [apply exp_pos|lra]. }
    replace (/ (1 / 400)) with 400 in * by field. lra.
  - replace (40000 * 1 / 400) with 100 by field. assert (LD : ln (1 + exp (/ 100)) - ln 2 = ln ((1 + exp (/ 100)) / 2)).
    { unfold Rdiv. rewrite ln_mult, ln_Rinv by (pose proof (exp_pos (/ 100)); lra). ring. }
    rewrite LD. clear LD.
    assert (E1 : exp (/ 100) <= 1 / (1 - / 100)).
    { pose proof (exp_ineq1_le (- / 100)) as Q. rewrite exp_Ropp in Q. replace (exp (/ 100)) with (/ / exp (/ 100)) by (rewrite Rinv_inv; reflexivity).
      unfold Rdiv. rewrite Rmult_1_l. apply Rinv_le_contravar; [lra|]. replace (1 - / 100) with (1 + - / 100) by ring. exact Q. }
    set (y := (1 + exp (/ 100)) / 2). assert (Y : 0 < y <= 1 + 1 / 198) by (unfold y; pose proof (exp_pos (/ 100)); lra).
    assert (LY : ln y <= y - 1).
    { apply Rnot_lt_le. intros Hn. apply exp_increasing in Hn. rewrite exp_ln in Hn by apply Y. pose proof (exp_ineq1_le (y - 1)). lra. }
    lra.
Qed.
Print Assumptions C144_default_epsilon_refuted.

(* ---------- the dedicated newsvendor solver ---------- *)
Lemma insert_scaled t x l : 0 < t -> insert (t * x) (map (Rmult t) l) = map (Rmult t) (insert x l).
Proof.
  intros Ht. induction l as [|y l IH]; cbn; [reflexivity|].
  destruct (Rle_dec (t * x) (t * y)) as [A|A], (Rle_dec x y) as [B|B]; cbn; try reflexivity.
  - apply Rmult_le_reg_l in A; [contradiction|exact Ht].
  - exfalso. apply A. apply Rmult_le_compat_l; lra.
  - rewrite IH. reflexivity.
Qed.
Lemma nsort_scaled t l : 0 < t -> nsort (map (Rmult t) l) = map (Rmult t) (nsort l).
Proof. intros Ht. induction l as [|x l IH]; cbn; [reflexivity|]. rewrite IH. apply insert_scaled, Ht. Qed.
Lemma rsum_scaled t l : rsum (map (Rmult t) l) = t * rsum l.
Proof. induction l as [|a l IH]; cbn; [ring|]. unfold rsum in *. cbn. rewrite IH. ring. Qed.
Lemma quotient_scaled t a b : t <> 0 -> t * a / (t * b) = a / b.
Proof. intros Ht. unfold Rdiv. rewrite Rinv_mult. replace (t * a * (/ t * / b)) with (t * / t * (a * / b)) by ring. rewrite Rinv_r by exact Ht. ring. Qed.
Lemma existsb_ext {A} (f g : A -> bool) l : (forall a, f a = g a) -> existsb f l = existsb g l.
Proof. intros E. induction l as [|a l IH]; cbn; [reflexivity|]. rewrite E, IH. reflexivity. Qed.
Lemma first_index_ext f g l : (forall a, f a = g a) -> first_index f l = first_index g l.
Proof. intros E. induction l as [|a l IH]; cbn; [reflexivity|]. rewrite E, IH. reflexivity. Qed.
Lemma Rltb_scaled t a b : 0 < t -> Rltb (t * a) (t * b) = Rltb a b.
Proof.
  intros Ht. destruct (Rltb a b) eqn:E.
  - apply Rltb_true in E. apply Rltb_true. apply Rmult_lt_compat_l; assumption.
  - apply Rltb_false in E. apply Rltb_false. apply Rmult_le_compat_l; lra.
Qed.
Lemma Rleb_scaled t a b : 0 < t -> Rleb (t * a) (t * b) = Rleb a b.
Proof.
  intros Ht. destruct (Rleb a b) eqn:E.
  - apply Rleb_true in E. apply Rleb_true. apply Rmult_le_compat_l; lra.
  - apply Rleb_false in E. apply Rleb_false. apply Rmult_lt_compat_l; assumption.
Qed.
(* demands, radius and the order of the sample-average problem in units t times smaller: the order is the same, in the new unit *)
Theorem C144_newsvendor : forall saa k u rho samples t coef dual, 0 < t ->
  nv_fit saa k u rho samples = Ok (coef, dual) -> nv_fit (t * saa) k u (t * rho) (map (Rmult t) samples) = Ok (t * coef, dual).
Proof.
  intros saa k u rho samples t coef dual Ht. unfold nv_fit, nv_solver.
  assert (E : match nv_exit_of k u (t * rho) (map (Rmult t) samples), nv_exit_of k u rho samples with
              | Ok ExitNoLower, Ok ExitNoLower | Ok ExitNoUpper, Ok ExitNoUpper | Ok (ExitZero _), Ok (ExitZero _) | Ok (ExitSAA _), Ok (ExitSAA _) => True
              | Raise a, Raise b => a = b
              | _, _ => False
              end).
  { unfold nv_exit_of. rewrite nsort_scaled by exact Ht. set (z := nsort samples). rewrite map_length.
    assert (Nth : forall i, nth i (map (Rmult t) z) 0 = t * nth i z 0).
    { intros i. replace 0 with (t * 0) at 1 by ring. apply map_nth. }
    assert (Fs : forall i, rsum (firstn i (map (Rmult t) z)) = t * rsum (firstn i z)).
    { intros i. rewrite firstn_map. apply rsum_scaled. }
    assert (Lo : forall i, nv_lower (map (Rmult t) z) (t * rho) i = nv_lower z rho i).
    { intros i. unfold nv_lower, nv_a, nv_b. rewrite Fs, Nth, map_length.
      replace (INR (length z) * (t * rho) - t * nth (S i) z 0) with (t * (INR (length z) * rho - nth (S i) z 0)) by ring. apply Rltb_scaled, Ht. }
    assert (Up : forall i, nv_upper (map (Rmult t) z) (t * rho) i = nv_upper z rho i).
    { intros i. unfold nv_upper, nv_a, nv_c. rewrite Fs, map_length.
      replace (INR (length z) * (t * rho)) with (t * (INR (length z) * rho)) by ring. apply Rleb_scaled, Ht. }
    rewrite (existsb_ext _ _ _ Lo), (existsb_ext _ _ _ Up).
    destruct (negb (existsb (nv_lower z rho) _)); [exact I|]. destruct (negb (existsb (nv_upper z rho) _)); [exact I|].
    rewrite (first_index_ext _ (fun i => nv_upper z rho i && nv_lower z rho i)) by (intros i; rewrite Lo, Up; reflexivity).
    destruct (first_index _ _) as [i|]; [|reflexivity].
    assert (T : nv_T (map (Rmult t) z) k u (t * rho) (nth (S i) (map (Rmult t) z) 0) = nv_T z k u rho (nth (S i) z 0)).
    { rewrite Nth. unfold nv_T. rewrite map_map. f_equal; [f_equal|do 2 f_equal].
      - replace (u * (t * rho)) with (t * (u * rho)) by ring. apply quotient_scaled. lra.
      - apply map_ext. intros a. f_equal. apply quotient_scaled. lra. }
    rewrite T. destruct (Rleb 0 _); exact I. }
  intros H.
  assert (Z : forall c, Reqb (t * c) 0 = Reqb c 0).
  { intros c. destruct (Reqb c 0) eqn:Ec.
    - apply Reqb_true in Ec. apply Reqb_true. subst c. ring.
    - apply Reqb_false in Ec. apply Reqb_false. apply Rmult_integral_contrapositive_currified; [lra|exact Ec]. }
  assert (Z0 : forall c : R, c = 0 -> t * c = 0) by (intros c ->; ring).
  destruct (nv_exit_of k u (t * rho) (map (Rmult t) samples)) as [[| | |]|e], (nv_exit_of k u rho samples) as [[| | |]|e']; try contradiction; cbn [bind] in *; try discriminate;
    injection H as <- <-; rewrite ?Z, ?(Z0 0 eq_refl); reflexivity.
Qed.
Print Assumptions C144_newsvendor.

(* ---------- the cost without one half ---------- *)
(* tests/torch_tests/test_regularized_linear_exact.py:12-16 compares with a reference whose cost is half the squared distance and
   multiplies the radius by the square root of 2 "because no 0.5 in cost". This is right, and the multiplier then doubles. *)
Theorem C144_half_cost : forall (P : Type) loss cost displace lp lpr red rho lam eps n (rows : list (row P)), 0 < rho ->
  compute_dual P loss cost displace lp lpr (cfg red (sqrt 2 * rho) lam eps 2) n rows
  = compute_dual P loss (fun x z => cost x z / 2) displace lp lpr (cfg red rho (2 * lam) eps 2) n rows.
Proof.
  intros P loss cost displace lp lpr red rho lam eps n rows Hr. assert (S2 : 0 < sqrt 2) by (apply sqrt_lt_R0; lra).
  assert (Hs : 0 < sqrt 2 * rho) by (apply Rmult_lt_0_compat; assumption).
  unfold compute_dual.
  assert (I : integrands P loss cost displace lp lpr (cfg red (sqrt 2 * rho) lam eps 2) rows
            = integrands P loss (fun x z => cost x z / 2) displace lp lpr (cfg red rho (2 * lam) eps 2) rows).
  { unfold integrands, cfg. cbn [d_imp]. f_equal. apply map_ext. intros r. apply map_ext. intros z. unfold integrand. cbn [d_lam d_eps].
    f_equal. field. }
  rewrite I. clear I. unfold cfg at 1 2 4 5 6 7 8. cbn [d_rho d_erm d_lam d_eps d_power d_reduction].
  unfold cfg at 1 2 4 5 6 7 8. cbn [d_rho d_erm d_lam d_eps d_power d_reduction].
  assert (xeq (Fin (sqrt 2 * rho)) (Fin 0) = false) as -> by (cbn; apply Reqb_false; lra).
  assert (xeq (Fin rho) (Fin 0) = false) as -> by (cbn; apply Reqb_false; lra).
  assert (xlt (Fin 0) (Fin (sqrt 2 * rho)) = true) as -> by (cbn; apply Rltb_true; exact Hs).
  assert (xlt (Fin 0) (Fin rho) = true) as -> by (cbn; apply Rltb_true; exact Hr). cbn [orb].
  assert (X : xmul (Fin lam) (xpow_pos (Fin (sqrt 2 * rho)) 2) = xmul (Fin (2 * lam)) (xpow_pos (Fin rho) 2)).
  { cbn [xpow_pos xmul]. f_equal. assert (Q : forall r, 0 < r -> Rpower r 2 = r * r) by (intros r H; replace 2 with (INR 2) by (cbn; lra); rewrite Rpower_pow by exact H; cbn; ring).
    rewrite !Q by assumption. replace (lam * (sqrt 2 * rho * (sqrt 2 * rho))) with (lam * (sqrt 2 * sqrt 2) * (rho * rho)) by ring. rewrite sqrt_sqrt by lra. ring. }
  rewrite X. reflexivity.
Qed.
Print Assumptions C144_half_cost.

(* ---------- cases ---------- *)
Lemma nv_samplewise k u theta d : (0 < d)%nat ->
  samplewise (w_value (nv_call k u theta) (nv_wrapped theta)) d (fun x => rmean [rmean (map (fun a => k * theta - u * Rmin theta a) x)] + 0).
Proof.
  intros Hd. apply (C112_losses_unlabelled _ _ 0 d 1 (fun x => [rmean (map (fun a => k * theta - u * Rmin theta a) x)])); try reflexivity; try lia.
  - left. split; reflexivity.
  - apply nv_rowwise. exact Hd.
Qed.
Lemma bin_samplewise w : samplewise_labelled (w_value (bin_loss [w] 0) (bin_wrapped [w] 0)) 1 1 (fun x y => rmean [ln (1 + exp (- (hd 0 y * (dot [w] x + 0))))] + 0).
Proof.
  apply (C112_losses_labelled _ _ 0 1 1 1 (fun x y => [ln (1 + exp (- (hd 0 y * (dot [w] x + 0))))])); try reflexivity; try lia.
  - left. split; reflexivity.
  - apply (bin_rowwise [w] 0).
Qed.
(* the newsvendor with prices per unit in dozens: the order 5 becomes 60 and prices are divided by 12 *)
Example C144_features_case :
  let xs := [[1]; [3]] in let zs := [[[2]; [4]]; [[0]; [3]]] in
  t_compute_dual (nv_call (1 / 12) (2 / 12) 60) (nv_wrapped 60) (TNC (PFin 2) 2) (TPlain (Tensor.batch [2%nat] 1 xs) 1) (fun _ _ => Raise ValueError) (cfg "mean" (12 * 1) (3 / Rpower 12 2) 1 2)
    (Tensor.batch [2%nat] 1 (map (vscal 12) xs)) None (grid 2 2 1 (map (map (vscal 12)) zs)) None
  = t_compute_dual (nv_call 1 2 5) (nv_wrapped 5) (TNC (PFin 2) 2) (TPlain (Tensor.batch [2%nat] 1 xs) 1) (fun _ _ => Raise ValueError) (cfg "mean" 1 3 1 2) (Tensor.batch [2%nat] 1 xs) None (grid 2 2 1 zs) None.
Proof.
  cbv zeta.
  apply (C144_features _ _ _ _ _ _ _ _ _ _ 1 _ _ 2 [[1]; [3]] [[[2]; [4]]; [[0]; [3]]] 1 3 1 12 (nv_samplewise 1 2 5 1 ltac:(lia)) (nv_samplewise (1 / 12) (2 / 12) 60 1 ltac:(lia)));
    try lra; try discriminate.
  - intros [|a [|b z]] E; try discriminate. cbn [vscal map]. unfold rmean. cbn [rsum fold_right List.length INR].
    replace (Rmin 60 (12 * a)) with (12 * Rmin 5 a); [field|]. replace 60 with (12 * 5) by lra. symmetry. apply Rmin_case_strong; intros; [rewrite (Rmin_left 5 a) by lra|rewrite (Rmin_right 5 a) by lra]; reflexivity.
  - repeat constructor.
  - split; [reflexivity|]. repeat (apply Forall_cons; [split; [reflexivity|repeat constructor]|]). constructor.
  - cbn. lra.
Qed.
(* the labels +1 and -1 keep their unit: kappa and the radius change *)
Example C144_features_of_labelled_case :
  let xs := [[1]; [3]] in let ys := [[1]; [-1]] in let zs := [[[2]; [4]]; [[0]; [3]]] in let zls := [[[1]; [-1]]; [[1]; [-1]]] in
  t_compute_dual (bin_loss [2 / 4] 0) (bin_wrapped [2 / 4] 0) (TNLC (PFin 2) 2 (KFin (4 * 1))) (TPlain (Tensor.batch [2%nat] 1 xs) 1) (fun _ _ => Raise ValueError)
    (cfg "mean" (4 * (1 + 1) / (1 + 4 * 1) * 5) (3 / Rpower (4 * (1 + 1) / (1 + 4 * 1)) 2) 1 2)
    (Tensor.batch [2%nat] 1 (map (vscal 4) xs)) (Some (Tensor.batch [2%nat] 1 (map (fun y => y) ys))) (grid 2 2 1 (map (map (vscal 4)) zs)) (Some (grid 2 2 1 (map (map (fun y => y)) zls)))
  = t_compute_dual (bin_loss [2] 0) (bin_wrapped [2] 0) (TNLC (PFin 2) 2 (KFin 1)) (TPlain (Tensor.batch [2%nat] 1 xs) 1) (fun _ _ => Raise ValueError) (cfg "mean" 5 3 1 2)
    (Tensor.batch [2%nat] 1 xs) (Some (Tensor.batch [2%nat] 1 ys)) (grid 2 2 1 zs) (Some (grid 2 2 1 zls)).
Proof.
  cbv zeta.
  apply (C144_features_of_labelled _ _ _ _ _ _ _ _ (PFin 2) 2 1 1 1 _ _ 2 [[1]; [3]] [[1]; [-1]] [[[2]; [4]]; [[0]; [3]]] [[[1]; [-1]]; [[1]; [-1]]] 5 3 1 4 (bin_samplewise 2) (bin_samplewise (2 / 4)));
    try lra; try discriminate; try reflexivity.
  - intros [|a [|b x]] [|c [|d y]] E F; try discriminate. cbn [vscal map hd]. do 5 f_equal. unfold dot. cbn. do 3 f_equal. field.
  - repeat constructor.
  - repeat constructor.
  - split; [reflexivity|]. repeat (apply Forall_cons; [split; [reflexivity|repeat constructor]|]). constructor.
  - split; [reflexivity|]. repeat (apply Forall_cons; [split; [reflexivity|repeat constructor]|]). constructor.
  - cbn. lra.
Qed.
(* a quadratic-cost case of the gradients hypotheses *)
Example C144_importance_case : let G := [[1]; [-2]] in
  length G = 2%nat /\ widths 1 G /\ Forall (Exists (fun a => a <> 0)) G /\ Forall (fun g => norm2 g <= threshold_default /\ norm2 g / 3 <= threshold_default) G.
Proof.
  cbv zeta. split; [reflexivity|]. split; [repeat constructor|]. split; [repeat (apply Forall_cons; [constructor; lra|]); constructor|].
  assert (N : forall a, norm2 [a] = Rabs a) by (intros a; unfold norm2; cbn; rewrite <- sqrt_Rsqr_abs; f_equal; unfold Rsqr; ring).
  unfold threshold_default. repeat (apply Forall_cons; [rewrite N; unfold Rabs; destruct (Rcase_abs _); lra|]). constructor.
Qed.
Example C144_draws_case : exists s s' z z', nolabels_init (SNC (Fin 2) (Fin 1)) [[3]] (Some 2) None = Ok s /\
  nolabels_init (SNC (Fin 2) (Fin 1)) (map (vscal 10) [[3]]) (Some (10 * 2)) None = Ok s' /\
  sample nat unit_draw s 1 0%nat = (z, None, 1%nat) /\ sample nat unit_draw s' 1 0%nat = (z', None, 1%nat) /\ exists a, xat3 z 0 0 0 = Fin a /\ xat3 z' 0 0 0 = Fin (10 * a).
Proof.
  assert (I : forall x sg, 0 < sg -> exists s, nolabels_init (SNC (Fin 2) (Fin 1)) x (Some sg) None = Ok s).
  { intros x sg H. unfold nolabels_init, sampler_data. cbn [sc_p sc_power]. rewrite family_21, loc_scale_ok; [cbn; eauto|]. cbn. apply Rltb_true; lra. }
  destruct (I [[3]] 2 ltac:(lra)) as [s Hs]. destruct (I (map (vscal 10) [[3]]) (10 * 2) ltac:(lra)) as [s' Hs']. exists s, s'.
  destruct (C144_draws nat unit_draw _ _ _ _ _ _ 1%nat 0%nat 10 _ _ _ Hs Hs' family_21 eq_refl (unit_draw_shaped FNormal 1 [[3]] 0)) as (z & z' & A & B & C).
  exists z, z'. repeat split; try assumption. apply C; cbn; lia.
Qed.
Example C144_guess_case : exists l0, initial_guess (Fin 1) (Fin 3) true 2 (grads_norms (PFin 2) 2 [[2]; [-4]]) = Ok l0 /\
  initial_guess (Fin (12 * 1)) (Fin 3) true 2 (grads_norms (PFin 2) 2 (map (vscal (/ 12)) [[2]; [-4]])) = Ok (xdiv l0 (Fin (Rpower 12 2))).
Proof. apply C144_guess; cbn; lra. Qed.
Example C144_start_case : exists d d', dual_init (Fin 2) 1 1 None false = Ok d /\ dual_init (Fin (10 * 2)) 1 1 None false = Ok d' /\ d_lam d' = d_lam d / 10.
Proof.
  assert (I : forall r, 0 < r -> exists d, dual_init (Fin r) 1 1 None false = Ok d) by (intros r Hr; eexists; reflexivity).
  destruct (I 2 ltac:(lra)) as [d Hd]. destruct (I (10 * 2) ltac:(lra)) as [d' Hd']. exists d, d'. repeat split; try assumption.
  exact (C144_start 2 1 1 None false 10 d d' ltac:(lra) ltac:(lra) Hd Hd').
Qed.
Example C144_newsvendor_case : nv_fit (12 * 2) 1 2 (12 * 0) (map (Rmult 12) [2; 2]) = Ok (12 * 2, 2).
Proof. apply (C144_newsvendor 2 1 2 0 [2; 2] 12 2 2); [lra|exact two_fit]. Qed.
(* the rows of the labelled case, features and labels in the new unit *)
Example C144_labelled_case : samplewise_labelled (w_value (bin_loss [2] 0) (bin_wrapped [2] 0)) 1 1 (fun x y => rmean [ln (1 + exp (- (hd 0 y * (dot [2] x + 0))))] + 0) /\
  samplewise_labelled (w_value (bin_loss [2 / (3 * 3)] 0) (bin_wrapped [2 / (3 * 3)] 0)) 1 1 (fun x y => rmean [ln (1 + exp (- (hd 0 y * (dot [2 / (3 * 3)] x + 0))))] + 0) /\
  forall x y, length x = 1%nat -> length y = 1%nat ->
    rmean [ln (1 + exp (- (hd 0 (vscal 3 y) * (dot [2 / (3 * 3)] (vscal 3 x) + 0))))] + 0 = rmean [ln (1 + exp (- (hd 0 y * (dot [2] x + 0))))] + 0.
Proof.
  split; [apply bin_samplewise|]. split; [apply bin_samplewise|].
  intros [|a [|b x]] [|c [|d y]] E F; try discriminate. cbn [vscal map hd]. do 6 f_equal. unfold dot. cbn. field.
Qed.
Example C144_loss_case : forall a z, length z = 1%nat ->
  rmean [rmean (map (fun b => a * 1 * 5 - a * 2 * Rmin 5 b) z)] + 0 = a * (rmean [rmean (map (fun b => 1 * 5 - 2 * Rmin 5 b) z)] + 0).
Proof. intros a [|b [|c z]] E; try discriminate. cbn [map]. unfold rmean. cbn [rsum fold_right List.length INR]. field. Qed.
