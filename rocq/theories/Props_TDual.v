(* C112: the robust loss as it is computed on tensors. The wrapped primal loss is any function that treats samples separately
   (C112_losses_* derive this for wrapped losses from C60); costs, log-densities, displacement and broadcasting are those of the code. *)
From Coq Require Import Reals List String Lra Lia Arith Bool.
From Verif Require Import PyBase RList XReal LogMeanExp Tensor Loss_Model Loss_Spec Loss_Proofs Costs_Model Displace_Model Displace_Proofs ImpSamp_Model ImpSamp_Spec
  Dual_Model Dual_Spec Dual_Proofs TDual_Model TDual_Spec TDual_Proofs Props_Loss Props_Dual.
Import ListNotations.
Local Open Scope R_scope.
Notation length := List.length.

(* ---------- losses ---------- *)
Lemma flat_vals {A B} (f : A -> B -> R) (zs : list (list A)) (zls : list (list B)) : Forall2 (fun x y => length x = length y) zs zls ->
  map2 f (List.concat zs) (List.concat zls) = List.concat (map2 (map2 f) zs zls).
Proof. apply map2_concat. Qed.

Theorem C112_losses_labelled loss w c d dl k g :
  regularised_by w c -> w_has_labels w = true -> w_reduce w = true -> (0 < k)%nat -> (forall x y, length (g x y) = k) -> rowwise_labelled loss d dl k g ->
  samplewise_labelled (w_value loss w) d dl (fun x y => rmean (g x y) + c).
Proof.
  intros Hc HL Hr K Hg Hl n m zs zls G G'.
  pose proof (grid_flat_length n m d zs G) as L1. pose proof (grid_flat_length n m dl zls G') as L2.
  destruct (C60_zetas_labelled loss w c d dl k g [n; m] (List.concat zs) (List.concat zls) Hc HL Hr K Hg Hl) as [E _].
  - simpl; lia.
  - unfold vec in *. rewrite L1. simpl. lia.
  - eapply grid_widths; eauto.
  - eapply grid_widths; eauto.
  - unfold vec in *. congruence.
  - unfold grid. rewrite E. unfold per_sample, per_point. rewrite flat_vals; [reflexivity|]. eapply grids_Forall2; eauto.
Qed.
Print Assumptions C112_losses_labelled.

Theorem C112_losses_flat loss w c d dl h :
  regularised_by w c -> w_has_labels w = true -> w_reduce w = false -> rowwise_flat_labelled loss d dl h ->
  samplewise_labelled (w_value loss w) d dl (fun x y => h x y + c).
Proof.
  intros Hc HL Hr Hl n m zs zls G G'.
  pose proof (grid_flat_length n m d zs G) as L1. pose proof (grid_flat_length n m dl zls G') as L2.
  pose proof (C60_no_trailing_axis loss w c d dl h [n; m] (List.concat zs) (List.concat zls) Hc HL Hr Hl) as E.
  unfold grid. rewrite E.
  - unfold per_sample, per_point. rewrite flat_vals; [reflexivity|]. eapply grids_Forall2; eauto.
  - unfold vec in *. rewrite L1. simpl. lia.
  - eapply grid_widths; eauto.
  - eapply grid_widths; eauto.
  - unfold vec in *. congruence.
  - left. simpl. lia.
Qed.
Print Assumptions C112_losses_flat.

Theorem C112_losses_unlabelled loss w c d k g :
  regularised_by w c -> w_has_labels w = false -> w_reduce w = true -> (0 < k)%nat -> (forall x, length (g x) = k) -> rowwise loss d k g ->
  samplewise (w_value loss w) d (fun x => rmean (g x) + c).
Proof.
  intros Hc HL Hr K Hg Hl n m zs G. pose proof (grid_flat_length n m d zs G) as L1.
  pose proof (C60_zetas_unlabelled loss w c d k g [n; m] (List.concat zs) Hc HL Hr K Hg Hl) as E.
  unfold grid. rewrite E.
  - unfold per_sample, per_point. rewrite <- concat_map. reflexivity.
  - simpl; lia.
  - unfold vec in *. rewrite L1. simpl. lia.
  - eapply grid_widths; eauto.
Qed.
Print Assumptions C112_losses_unlabelled.

(* ---------- without importance sampling ---------- *)
Section Plain.
Variable loss_call : tensor -> option tensor -> Result tensor.
Variable w : wrapped.
Variable s : tsampler.
Variable grads : tensor -> option tensor -> Result (list (list xr) * option (list (list xr))).
Notation t_dual := (fun c => t_compute_dual loss_call w c s grads).

Lemma erm_unlabelled k L xs : samplewise (w_value loss_call w) k L -> widths k xs ->
  w_value loss_call w (unsqueeze_first (batch [length xs] k xs)) (option_map unsqueeze_first None) = Ok (grid 1 (length xs) 1 (scalars [map L xs])).
Proof.
  intros H W. rewrite unsq_grid. cbn [option_map]. rewrite (H 1%nat (length xs) [xs]) by (apply grid_one; auto). rewrite per_point_scalars. reflexivity.
Qed.
Lemma erm_labelled k kl L xs ys : samplewise_labelled (w_value loss_call w) k kl L -> widths k xs -> widths kl ys -> length ys = length xs ->
  w_value loss_call w (unsqueeze_first (batch [length xs] k xs)) (option_map unsqueeze_first (Some (batch [length xs] kl ys)))
  = Ok (grid 1 (length xs) 1 (scalars [map (fun q => L (fst q) (snd q)) (pairs xs ys)])).
Proof.
  intros H W W' E. cbn [option_map]. rewrite !unsq_grid.
  rewrite (H 1%nat (length xs) [xs] [ys]) by (apply grid_one; auto). rewrite per_point_scalars. cbn [map2]. rewrite pairs_map2. reflexivity.
Qed.

Theorem C112_unlabelled p power k L d n xs zs displ lp lpr :
  samplewise (w_value loss_call w) k L -> widths k xs -> is_grid n (length xs) k zs -> d_power d = power -> d_imp d = false ->
  t_dual (TNC p power) d (batch [length xs] k xs) None (grid n (length xs) k zs) None
  = compute_dual vec L (nc_value p power) displ lp lpr d n (point_rows [] xs xs zs).
Proof.
  intros H W G Hp Hi.
  apply (dual_plain loss_call w (TNC p power) s grads vec [] L (nc_value p power) (batch [length xs] k xs) None xs xs n (length xs) eq_refl eq_refl
           (erm_unlabelled k L xs H W) d (grid n (length xs) k zs) None displ lp lpr zs); auto.
  - eapply grid_points; eauto.
  - rewrite (H n (length xs) zs G). rewrite per_point_scalars. reflexivity.
  - apply tcost_nc; auto.
Qed.

Theorem C112_labelled c k kl L d n xs ys zs zls displ lp lpr :
  samplewise_labelled (w_value loss_call w) k kl L -> widths k xs -> widths kl ys -> length ys = length xs ->
  is_grid n (length xs) k zs -> is_grid n (length xs) kl zls -> d_power d = tc_power c -> d_imp d = false ->
  t_dual c d (batch [length xs] k xs) (Some (batch [length xs] kl ys)) (grid n (length xs) k zs) (Some (grid n (length xs) kl zls))
  = compute_dual (vec * vec) (fun q => L (fst q) (snd q)) (pt_cost c) displ lp lpr d n (point_rows ([], []) (pairs xs ys) (pairs xs ys) (map2 pairs zs zls)).
Proof.
  intros H W W' E G G' Hp Hi.
  assert (Lp : length (pairs xs ys) = length xs) by (apply pairs_length; symmetry; exact E).
  apply (dual_plain loss_call w c s grads (vec * vec) ([], []) (fun q => L (fst q) (snd q)) (pt_cost c) (batch [length xs] k xs) (Some (batch [length xs] kl ys))
           (pairs xs ys) (pairs xs ys) n (length xs) Lp Lp (erm_labelled k kl L xs ys H W W' E) d (grid n (length xs) k zs) (Some (grid n (length xs) kl zls)) displ lp lpr (pgrid zs zls)); auto.
  - eapply pgrid_points; eauto.
  - rewrite (H n (length xs) zs zls G G'). rewrite per_point_scalars, pgrid_map2. reflexivity.
  - apply tcost_labelled; auto.
Qed.
End Plain.
Print Assumptions C112_unlabelled.
Print Assumptions C112_labelled.

(* a labelled cost and no labels *)
Theorem C112_labels_missing loss_call w s grads p power kap k L d n xs zs :
  samplewise (w_value loss_call w) k L -> is_grid n (length xs) k zs -> d_imp d = false -> d_erm d = false -> xlt (Fin 0) (d_rho d) = true ->
  t_compute_dual loss_call w (TNLC p power kap) s grads d (batch [length xs] k xs) None (grid n (length xs) k zs) None = Raise AssertionError.
Proof.
  intros H G Hi He Hr. unfold t_compute_dual. rewrite He, orb_false_r, Hr.
  assert (xeq (d_rho d) (Fin 0) = false) as ->.
  { destruct (d_rho d) as [r| | |]; try reflexivity. simpl in *. unfold Rltb in Hr. destruct (Rlt_dec 0 r); [|discriminate]. unfold Reqb. destruct (Req_EM_T r 0); [lra|reflexivity]. }
  unfold t_integrand. rewrite Hi. unfold t_penalised. rewrite (H n (length xs) zs G). reflexivity.
Qed.
Print Assumptions C112_labels_missing.

(* ---------- the value for a positive radius, in full ---------- *)
Theorem C112_value_unlabelled loss_call w s grads p power k L n xs zs rho lam eps :
  samplewise (w_value loss_call w) k L -> widths k xs -> is_grid n (length xs) k zs -> xs <> [] -> zs <> [] -> 0 < rho -> eps <> 0 ->
  t_compute_dual loss_call w (TNC p power) s grads (cfg "mean" rho lam eps power) (batch [length xs] k xs) None (grid n (length xs) k zs) None
  = Ok (Scalar (Fin (lam * Rpower rho power + rmean (map (fun j => eps * ln (rmean (map exp
      (map (fun z => (L (nth j z []) - lam * tpow (pnorm p (vsub (nth j xs []) (nth j z []))) power) / eps) zs)))) (seq 0 (length xs)))))).
Proof.
  intros H W G Nx Nz Hr He.
  assert (Hn : (0 < n)%nat) by (destruct G as [<- _]; destruct zs; [congruence|simpl; lia]).
  assert (Hm : (0 < length xs)%nat) by (destruct xs; [congruence|simpl; lia]).
  destruct (integrand_plain loss_call w (TNC p power) s grads vec [] L (nc_value p power) (batch [length xs] k xs) None xs xs n (length xs) eq_refl eq_refl
    (cfg "mean" rho lam eps power) (grid n (length xs) k zs) None zs) as (vals & V & E & F); auto.
  - eapply grid_points; eauto.
  - rewrite (H n (length xs) zs G), per_point_scalars. reflexivity.
  - apply tcost_nc; auto.
  - rewrite (mean_value loss_call w (TNC p power) s grads vec L (batch [length xs] k xs) None xs xs n (length xs) eq_refl eq_refl (erm_unlabelled loss_call w k L xs H W) (cfg "mean" rho lam eps power) (grid n (length xs) k zs) None vals rho
               (fun j => map (fun z => (L (nth j z []) - lam * tpow (pnorm p (vsub (nth j xs []) (nth j z []))) power) / eps) zs)); auto.
Qed.
Print Assumptions C112_value_unlabelled.

Theorem C112_value_labelled loss_call w s grads c k kl L n xs ys zs zls rho lam eps :
  samplewise_labelled (w_value loss_call w) k kl L -> widths k xs -> widths kl ys -> length ys = length xs ->
  is_grid n (length xs) k zs -> is_grid n (length xs) kl zls -> xs <> [] -> zs <> [] -> 0 < rho -> eps <> 0 ->
  t_compute_dual loss_call w c s grads (cfg "mean" rho lam eps (tc_power c)) (batch [length xs] k xs) (Some (batch [length xs] kl ys))
    (grid n (length xs) k zs) (Some (grid n (length xs) kl zls))
  = Ok (Scalar (Fin (lam * Rpower rho (tc_power c) + rmean (map (fun j => eps * ln (rmean (map exp
      (map2 (fun z zl => (L (nth j z []) (nth j zl []) - lam * pt_cost c (nth j xs [], nth j ys []) (nth j z [], nth j zl [])) / eps) zs zls)))) (seq 0 (length xs)))))).
Proof.
  intros H W W' E G G' Nx Nz Hr He.
  assert (Hn : (0 < n)%nat) by (destruct G as [<- _]; destruct zs; [congruence|simpl; lia]).
  assert (Hm : (0 < length xs)%nat) by (destruct xs; [congruence|simpl; lia]).
  assert (Lp : length (pairs xs ys) = length xs) by (apply pairs_length; symmetry; exact E).
  destruct (integrand_plain loss_call w c s grads (vec * vec) ([], []) (fun q => L (fst q) (snd q)) (pt_cost c) (batch [length xs] k xs) (Some (batch [length xs] kl ys))
    (pairs xs ys) (pairs xs ys) n (length xs) Lp Lp (cfg "mean" rho lam eps (tc_power c)) (grid n (length xs) k zs) (Some (grid n (length xs) kl zls)) (pgrid zs zls)) as (vals & V & Ei & F); auto.
  - eapply pgrid_points; eauto.
  - rewrite (H n (length xs) zs zls G G'), per_point_scalars, pgrid_map2. reflexivity.
  - apply tcost_labelled; auto.
  - rewrite (mean_value loss_call w c s grads (vec * vec) (fun q => L (fst q) (snd q)) (batch [length xs] k xs) (Some (batch [length xs] kl ys)) (pairs xs ys) (pairs xs ys) n (length xs) Lp Lp (erm_labelled loss_call w k kl L xs ys H W W' E) (cfg "mean" rho lam eps (tc_power c))
               (grid n (length xs) k zs) (Some (grid n (length xs) kl zls)) vals rho
               (fun j => map2 (fun z zl => (L (nth j z []) (nth j zl []) - lam * pt_cost c (nth j xs [], nth j ys []) (nth j z [], nth j zl [])) / eps) zs zls)); auto.
    intros j Hj. rewrite (F j Hj). unfold pgrid. rewrite map_map2.
    assert (Hlen : forall z zl, In (z, zl) (List.combine zs zls) -> length z = length zl).
    { intros z zl Hin. pose proof (in_combine_l _ _ _ _ Hin) as A. pose proof (in_combine_r _ _ _ _ Hin) as B.
      destruct G as [_ FG]; destruct G' as [_ FG']. rewrite Forall_forall in FG, FG'. destruct (FG _ A) as [-> _]. destruct (FG' _ B) as [-> _]. reflexivity. }
    clear - Hlen E. revert zls Hlen. induction zs as [|z zs IH]; intros [|zl zls] Hlen; cbn [map2]; try reflexivity.
    rewrite IH by (intros; apply Hlen; right; assumption). f_equal. unfold integrand, pairs. cbn [d_lam d_eps cfg].
    rewrite combine_nth by (apply Hlen; left; reflexivity). rewrite combine_nth by (symmetry; exact E). reflexivity.
Qed.
Print Assumptions C112_value_labelled.

(* ---------- with importance sampling: squared Euclidean cost, Gaussian sampler centred at the data ---------- *)
(* the displacement of a data point with gradient g *)
Definition shift (lam : R) (g : vec) : vec := vscal (Rmin threshold_default (norm2 g) / norm2 g / lam / 2) g.

Lemma disp_rows lam G : lam <> 0 -> Forall (Exists (fun a => a <> 0)) G ->
  map (normalize_row threshold_default (Fin lam)) (map (map Fin) G)
  = map (map Fin) (map (fun g => vscal (Rmin threshold_default (norm2 g) / norm2 g / lam) g) G).
Proof.
  intros Hl F. rewrite !map_map. apply map_ext_in. intros g Hg. rewrite Forall_forall in F. specialize (F g Hg). apply nonzero_norm in F.
  apply normalize_row_fin; lra.
Qed.
Lemma half_shift lam x g : half_move x (vscal (Rmin threshold_default (norm2 g) / norm2 g / lam) g) = vadd x (shift lam g).
Proof. unfold half_move, shift, vscal. rewrite map_map. f_equal. apply map_ext. intros a. unfold Rdiv. ring. Qed.

Lemma widths_shifts k lam G : widths k G -> widths k (map (fun g => vscal (Rmin threshold_default (norm2 g) / norm2 g / lam) g) G).
Proof. intros W. apply Forall_map. eapply Forall_impl; [|exact W]. intros g Hg. unfold vscal. rewrite map_length. exact Hg. Qed.

Lemma move_ok k n m (zs : list (list (list R))) DX f : (forall x d : vec, length x = k -> length d = k -> length (f x d) = k) ->
  length DX = m -> widths k DX -> is_grid n m k zs -> is_grid n m k (map (fun z => map2 f z DX) zs).
Proof.
  intros Hf L W [Lz F]. split; [rewrite map_length; exact Lz|]. apply Forall_map. eapply Forall_impl; [|exact F]. intros z [Hz Wz]. split.
  - rewrite map2_length; [exact Hz|]. unfold vec in *. congruence.
  - clear - Hf W Wz. unfold vec in *. revert DX W. induction Wz as [|x z Hx Wz IH]; intros [|d DX] W; cbn [map2]; try constructor.
    + inversion W; subst. apply Hf; auto.
    + inversion W; subst. apply IH. assumption.
Qed.
Lemma half_len k (x d : vec) : length x = k -> length d = k -> length (half_move x d) = k.
Proof. intros Hx Hd. unfold half_move, vadd. rewrite map2_length; [exact Hx|]. rewrite map_length. congruence. Qed.

Lemma widths_nth k (xs : list (list R)) j : widths k xs -> (j < length xs)%nat -> length (nth j xs []) = k.
Proof. intros W Hj. unfold widths in W. rewrite Forall_forall in W. apply W, nth_In, Hj. Qed.

Definition imp_on (rho lam eps p : R) : dual :=
  {| d_rho := Fin rho; d_lam := lam; d_eps := eps; d_power := p; d_reduction := "mean"; d_imp := true; d_erm := false |}.

Theorem C112_importance loss_call w grads sc k L n xs zs G rho lam eps :
  samplewise (w_value loss_call w) k L -> widths k xs -> is_grid n (length xs) k zs -> xs <> [] -> zs <> [] -> 0 < rho -> eps <> 0 -> lam <> 0 -> 0 < sc ->
  grads (batch [length xs] k xs) None = Ok (map (map Fin) G, None) -> length G = length xs -> widths k G -> Forall (Exists (fun a => a <> 0)) G ->
  t_compute_dual loss_call w (TNC (PFin 2) 2) (TPlain (batch [length xs] k xs) sc) grads (imp_on rho lam eps 2) (batch [length xs] k xs) None (grid n (length xs) k zs) None
  = Ok (Scalar (Fin (lam * Rpower rho 2 + rmean (map (fun j => eps * ln (rmean (map (fun z =>
      let x := nth j xs [] in
      let delta := shift lam (nth j G []) in
      let z' := vadd (nth j z []) delta in
      exp ((L z' - lam * tpow (pnorm (PFin 2) (vsub x z')) 2) / eps) * (gauss_vec sc x z' / moved_gauss sc x delta z')) zs))) (seq 0 (length xs)))))).
Proof.
  intros H W Gz Nx Nz Hr He Hl Hsc Hg LG WG FG.
  assert (Hn : (0 < n)%nat) by (destruct Gz as [<- _]; destruct zs; [congruence|simpl; lia]).
  assert (Hm : (0 < length xs)%nat) by (destruct xs; [congruence|simpl; lia]).
  set (DX := map (fun g => vscal (Rmin threshold_default (norm2 g) / norm2 g / lam) g) G).
  assert (LD : length DX = length xs) by (unfold DX; rewrite map_length; exact LG).
  assert (WD : widths k DX) by (apply widths_shifts; exact WG).
  assert (ND : DX <> []) by (intros K; rewrite K in LD; simpl in LD; lia).
  assert (Sq : square_cost (TNC (PFin 2) 2)) by exact nexp_22.
  set (zs' := map (fun z => map2 half_move z DX) zs).
  assert (Gz' : is_grid n (length xs) k zs') by (apply move_ok; auto; intros; apply half_len; assumption).
  set (xs' := map2 half_move xs DX).
  assert (Gx' : is_grid 1 (length xs) k [xs']) by (apply (move_ok k 1 (length xs) [xs]); auto; [intros; apply half_len; assumption|apply grid_one; auto]).
  assert (Lx' : length xs' = length xs) by (destruct Gx' as [_ F]; inversion F as [|? ? [K _] _]; exact K).
  assert (Wx' : widths k xs') by (destruct Gx' as [_ F]; inversion F as [|? ? [_ K] _]; exact K).
  assert (D : t_displace (TNC (PFin 2) 2) threshold_default (Fin lam) (map (map Fin) G) None (batch [length xs] k xs) None (grid n (length xs) k zs) None
              = Ok (batch [1%nat; length xs] k xs', None, grid n (length xs) k zs', None)).
  { unfold t_displace, get_optimal_displacement. cbn [option_map]. rewrite disp_rows by assumption. fold DX.
    pose proof (valid_fin DX None) as Vf. cbn [option_map] in Vf. rewrite Vf. cbn [fst snd option_map].
    rewrite (rows_tensor_fin k DX ND WD). unfold vec in LD |- *. rewrite LD. rewrite unsq_grid.
    rewrite (move_plain_grid _ 1 (length xs) k [xs] DX Sq LD WD) by (apply grid_one; auto). cbn [bind].
    rewrite (move_plain_grid _ n (length xs) k zs DX Sq LD WD Gz). cbn [bind]. fold zs'.
    replace (grid 1 (length xs) k (map (fun z => map2 half_move z DX) [xs])) with (batch [1%nat; length xs] k xs').
    - reflexivity.
    - unfold grid. cbn [map List.concat]. rewrite app_nil_r. reflexivity. }
  destruct (integrand_imp loss_call w (TNC (PFin 2) 2) (TPlain (batch [length xs] k xs) sc) grads vec [] L (nc_value (PFin 2) 2) (batch [length xs] k xs) None xs xs n (length xs)
    eq_refl eq_refl (imp_on rho lam eps 2) (grid n (length xs) k zs) None _ _ _ _ (grid n (length xs) k zs') None (nolabels_log_prob sc) (nolabels_log_prob_recentered sc) xs' zs'
    (grid_points n (length xs) k zs' Gz') Lx' eq_refl eq_refl Hg D) as (vals & V & E & F).
  - rewrite (H n (length xs) zs' Gz'), per_point_scalars. reflexivity.
  - apply tcost_nc; auto.
  - cbn [t_log_prob]. apply lp_grid; auto.
  - apply plain_lpr; auto.
  - rewrite (mean_value loss_call w (TNC (PFin 2) 2) (TPlain (batch [length xs] k xs) sc) grads vec L (batch [length xs] k xs) None xs xs n (length xs) eq_refl eq_refl (erm_unlabelled loss_call w k L xs H W) (imp_on rho lam eps 2) (grid n (length xs) k zs) None vals rho
               (fun j => map (fun z => (L (vadd (nth j z []) (shift lam (nth j G []))) - lam * nc_value (PFin 2) 2 (nth j xs []) (vadd (nth j z []) (shift lam (nth j G [])))) / eps
                   + (nolabels_log_prob sc (nth j xs []) (vadd (nth j z []) (shift lam (nth j G []))) -
                      nolabels_log_prob_recentered sc (nth j xs []) (vadd (nth j xs []) (shift lam (nth j G []))) (vadd (nth j z []) (shift lam (nth j G []))))) zs)); auto.
    + do 3 f_equal. cbn [d_lam d_eps imp_on]. f_equal. f_equal. apply map_ext_in. intros j Hj. apply in_seq in Hj. do 3 f_equal. rewrite map_map. apply map_ext_in. intros z Hz. cbv zeta.
      assert (Lj : length (nth j xs []) = k) by (apply widths_nth; [exact W|lia]).
      assert (Gj : length (nth j G []) = k) by (apply widths_nth; [exact WG|unfold vec in *; lia]).
      assert (Zj : length (nth j z []) = k).
      { destruct Gz as [_ FZ]. rewrite Forall_forall in FZ. destruct (FZ z Hz) as [Lz Wz]. apply widths_nth; [exact Wz|unfold vec in *; lia]. }
      assert (Sj : length (shift lam (nth j G [])) = k) by (unfold shift, vscal; rewrite map_length; exact Gj).
      rewrite exp_plus. f_equal. apply ImpSamp_Proofs.correction_ratio; [exact Hsc|unfold vec in *; congruence|].
      unfold vadd. rewrite map2_length; unfold vec in *; congruence.
    + intros j Hj. rewrite (F j Hj). unfold zs'. rewrite map_map. apply map_ext_in. intros z Hz.
      assert (Lz : length z = length xs) by (destruct Gz as [_ FZ]; rewrite Forall_forall in FZ; apply (FZ z Hz)).
      assert (Gj : (j < length G)%nat) by (unfold vec in *; lia).
      unfold xs'. rewrite (nth_map2 half_move [] [] []) by (unfold vec in *; lia). rewrite (nth_map2 half_move [] [] []) by (unfold vec in *; lia).
      assert (Ed : nth j DX [] = vscal (Rmin threshold_default (norm2 (nth j G [])) / norm2 (nth j G []) / lam) (nth j G []))
        by (exact (nth_map_lt (fun g => vscal (Rmin threshold_default (norm2 g) / norm2 g / lam) g) [] [] j G Gj)).
      unfold vec in *. rewrite Ed. rewrite !half_shift. reflexivity.
Qed.
Print Assumptions C112_importance.

(* For any cost but the squared Euclidean one, importance sampling raises as soon as there is a direction to move in. *)
Theorem C112_importance_other_cost loss_call w s c grads d xi xl zeta zl G GL lam :
  ~ (tc_p c = PFin 2 /\ tc_power c = 2) -> d_imp d = true -> d_erm d = false -> xlt (Fin 0) (d_rho d) = true -> d_lam d = lam -> lam <> 0 ->
  grads xi xl = Ok (map (map Fin) G, option_map (map (map Fin)) GL) ->
  Forall (Exists (fun a => a <> 0)) G -> (forall g, GL = Some g -> Forall (Exists (fun a => a <> 0)) g) ->
  t_compute_dual loss_call w c s grads d xi xl zeta zl = Raise NotImplementedError.
Proof.
  intros Hc Hi He Hr Hl Nl Hg FG FL. unfold t_compute_dual. rewrite He, orb_false_r, Hr.
  assert (xeq (d_rho d) (Fin 0) = false) as ->.
  { destruct (d_rho d) as [r| | |]; try reflexivity. simpl in *. rewrite Rltb_true in Hr. apply Reqb_false. lra. }
  unfold t_integrand. rewrite Hi, Hg. cbn [bind]. rewrite Hl. unfold t_displace, get_optimal_displacement. rewrite disp_rows by assumption.
  assert (D : forall g, GL = Some g -> map (normalize_row threshold_default (Fin lam)) (map (map Fin) g) = map (map Fin) (map (fun g => vscal (Rmin threshold_default (norm2 g) / norm2 g / lam) g) g))
    by (intros g Eg; apply disp_rows; [exact Nl|exact (FL g Eg)]).
  assert (S : forall a b u v, t_solve_max c a b u v = Raise NotImplementedError).
  { intros a b u v. unfold t_solve_max. assert (X : nexp_is_2 (tc_p c) && Reqb 2 (tc_power c) = false).
    { apply andb_false_iff. unfold nexp_is_2. destruct (tc_p c) as [q|]; [|left; reflexivity]. destruct (Req_dec q 2) as [->|]; [|left; apply Reqb_false; assumption].
      right. apply Reqb_false. intros K. apply Hc. split; [reflexivity|symmetry; exact K]. }
    rewrite X. reflexivity. }
  set (DX := map (fun g => vscal (Rmin threshold_default (norm2 g) / norm2 g / lam) g) G). destruct GL as [g|]; cbn [option_map].
  - rewrite (D g eq_refl). pose proof (valid_fin DX (Some (map (fun g => vscal (Rmin threshold_default (norm2 g) / norm2 g / lam) g) g))) as V. cbn [option_map] in V. rewrite V, S. reflexivity.
  - pose proof (valid_fin DX None) as V. cbn [option_map] in V. rewrite V, S. reflexivity.
Qed.
Print Assumptions C112_importance_other_cost.
Example C112_importance_other_cost_case : forall loss_call w s zeta,
  t_compute_dual loss_call w (TNC (PFin 1) 1) s (fun _ _ => Ok ([[Fin 3; Fin 4]], None)) (imp_on 1 2 3 1) (batch [1%nat] 2 [[0; 1]]) None zeta None = Raise NotImplementedError.
Proof.
  intros. apply (C112_importance_other_cost loss_call w s (TNC (PFin 1) 1) _ (imp_on 1 2 3 1) _ None zeta None [[3; 4]] None 2); try reflexivity; try lra.
  - intros [_ H]. cbn in H. lra.
  - cbn. apply Rltb_true. lra.
  - repeat constructor. lra.
  - discriminate.
Qed.

Lemma grid1_batch m k (a : list (list R)) : grid 1 m k [a] = batch [1%nat; m] k a.
Proof. unfold grid. cbn [List.concat]. rewrite app_nil_r. reflexivity. Qed.
Lemma map2_ext_in {A B C} (f g : A -> B -> C) l l' : (forall a b, In (a, b) (List.combine l l') -> f a b = g a b) -> map2 f l l' = map2 g l l'.
Proof.
  revert l'. induction l as [|a l IH]; intros [|b l'] H; try reflexivity. cbn [map2]. rewrite (H a b) by (left; reflexivity). f_equal.
  apply IH. intros. apply H. right. assumption.
Qed.

(* ---------- labels: the correction of the labelled sampler does not recentre, so nothing is re-weighted ---------- *)
Definition relabel (c : tcost) (lam : R) (y g : vec) : vec :=
  match c with
  | TNLC _ _ (KFin kp) => vadd y (vscal (Rmin threshold_default (norm2 g) / norm2 g / lam / 2 / kp) g)
  | _ => y
  end.

Lemma vadd_zeros (y : vec) (g : list R) : length y = length g -> vadd y (map (fun _ => 0) g) = y.
Proof. revert g. induction y as [|a y IH]; intros [|b g] E; simpl in E; try discriminate; [reflexivity|]. unfold vadd in *. cbn [map map2]. rewrite IH by lia. f_equal. ring. Qed.
Lemma relabel_move c lam y g : length y = length g -> label_move c y (vscal (Rmin threshold_default (norm2 g) / norm2 g / lam) g) = relabel c lam y g.
Proof.
  intros E. destruct c as [p q|p q [kp|]]; [reflexivity| |]; unfold label_move, relabel, vscal; rewrite ?map_map.
  - f_equal. apply map_ext. intros a. unfold Rdiv. ring.
  - apply vadd_zeros. exact E.
Qed.
Lemma label_len c k (x d : vec) : length x = k -> length d = k -> length (label_move c x d) = k.
Proof.
  intros Hx Hd. destruct c as [p q|p q kp]; [exact Hx|]. unfold label_move, vadd. rewrite map2_length; [exact Hx|]. rewrite map_length. congruence.
Qed.

Theorem C112_importance_labelled loss_call w c grads sx sy k kl L n xs ys zs zls G GL rho lam eps :
  c = TNC (PFin 2) 2 \/ (exists kp, c = TNLC (PFin 2) 2 kp /\ kp <> KFin 0) ->
  samplewise_labelled (w_value loss_call w) k kl L -> widths k xs -> widths kl ys -> length ys = length xs ->
  is_grid n (length xs) k zs -> is_grid n (length xs) kl zls -> xs <> [] -> zs <> [] -> 0 < rho -> eps <> 0 -> lam <> 0 ->
  grads (batch [length xs] k xs) (Some (batch [length xs] kl ys)) = Ok (map (map Fin) G, Some (map (map Fin) GL)) ->
  length G = length xs -> widths k G -> Forall (Exists (fun a => a <> 0)) G -> length GL = length xs -> widths kl GL -> Forall (Exists (fun a => a <> 0)) GL ->
  t_compute_dual loss_call w c (TLabelled (batch [length xs] k xs) sx (batch [length xs] kl ys) sy) grads (imp_on rho lam eps 2) (batch [length xs] k xs)
    (Some (batch [length xs] kl ys)) (grid n (length xs) k zs) (Some (grid n (length xs) kl zls))
  = Ok (Scalar (Fin (lam * Rpower rho 2 + rmean (map (fun j => eps * ln (rmean (map exp (map2 (fun z zl =>
      let z' := vadd (nth j z []) (shift lam (nth j G [])) in
      let zl' := relabel c lam (nth j zl []) (nth j GL []) in
      (L z' zl' - lam * pt_cost c (nth j xs [], nth j ys []) (z', zl')) / eps) zs zls)))) (seq 0 (length xs)))))).
Proof.
  intros Hc H W W' Ey Gz Gzl Nx Nz Hr He Hl Hg LG WG FG LGL WGL FGL.
  assert (Hn : (0 < n)%nat) by (destruct Gz as [<- _]; destruct zs; [congruence|simpl; lia]).
  assert (Hm : (0 < length xs)%nat) by (destruct xs; [congruence|simpl; lia]).
  assert (Lp : length (pairs xs ys) = length xs) by (apply pairs_length; symmetry; exact Ey).
  set (DX := map (fun g => vscal (Rmin threshold_default (norm2 g) / norm2 g / lam) g) G).
  set (DL := map (fun g => vscal (Rmin threshold_default (norm2 g) / norm2 g / lam) g) GL).
  assert (LD : length DX = length xs) by (unfold DX; rewrite map_length; exact LG).
  assert (LDL : length DL = length xs) by (unfold DL; rewrite map_length; exact LGL).
  assert (WD : widths k DX) by (apply widths_shifts; exact WG).
  assert (WDL : widths kl DL) by (apply widths_shifts; exact WGL).
  assert (ND : DX <> []) by (intros K; rewrite K in LD; simpl in LD; lia).
  assert (NDL : DL <> []) by (intros K; rewrite K in LDL; simpl in LDL; lia).
  assert (Sq : square_cost c) by (destruct Hc as [-> | (kp & -> & _)]; exact nexp_22).
  assert (Pw : tc_power c = 2) by (destruct Hc as [-> | (kp & -> & _)]; reflexivity).
  set (zs' := map (fun z => map2 half_move z DX) zs).
  set (zls' := map (fun z => map2 (label_move c) z DL) zls).
  assert (Gz' : is_grid n (length xs) k zs') by (apply move_ok; auto; intros; apply half_len; assumption).
  assert (Gzl' : is_grid n (length xs) kl zls') by (apply move_ok; auto; intros; apply label_len; assumption).
  set (xs' := map2 half_move xs DX).
  set (ys' := map2 (label_move c) ys DL).
  assert (Gx' : is_grid 1 (length xs) k [xs']) by (apply (move_ok k 1 (length xs) [xs]); auto; [intros; apply half_len; assumption|apply grid_one; auto]).
  assert (Gy' : is_grid 1 (length xs) kl [ys']) by (apply (move_ok kl 1 (length xs) [ys]); auto; [intros; apply label_len; assumption|apply grid_one; auto]).
  assert (Lx' : length xs' = length xs) by (destruct Gx' as [_ F]; inversion F as [|? ? [K _] _]; exact K).
  assert (Ly' : length ys' = length xs) by (destruct Gy' as [_ F]; inversion F as [|? ? [K _] _]; exact K).
  assert (D : t_displace c threshold_default (Fin lam) (map (map Fin) G) (Some (map (map Fin) GL)) (batch [length xs] k xs) (Some (batch [length xs] kl ys))
                (grid n (length xs) k zs) (Some (grid n (length xs) kl zls))
              = Ok (batch [1%nat; length xs] k xs', Some (batch [1%nat; length xs] kl ys'), grid n (length xs) k zs', Some (grid n (length xs) kl zls'))).
  { unfold t_displace, get_optimal_displacement. cbn [option_map]. rewrite !disp_rows by assumption. fold DX. fold DL.
    pose proof (valid_fin DX (Some DL)) as Vf. cbn [option_map] in Vf. rewrite Vf. cbn [fst snd option_map].
    rewrite (rows_tensor_fin k DX ND WD), (rows_tensor_fin kl DL NDL WDL). unfold vec in LD, LDL |- *. rewrite LD, LDL. rewrite !unsq_grid.
    rewrite (move_labelled_grid c 1 (length xs) k kl [xs] [ys] DX DL Sq LD WD LDL WDL) by (apply grid_one; auto). cbn [bind].
    rewrite (move_labelled_grid c n (length xs) k kl zs zls DX DL Sq LD WD LDL WDL Gz Gzl). cbn [bind]. fold zs'. fold zls'.
    cbn [map]. rewrite !grid1_batch. reflexivity. }
  destruct (integrand_imp loss_call w c (TLabelled (batch [length xs] k xs) sx (batch [length xs] kl ys) sy) grads (vec * vec) ([], []) (fun q => L (fst q) (snd q)) (pt_cost c)
    (batch [length xs] k xs) (Some (batch [length xs] kl ys)) (pairs xs ys) (pairs xs ys) n (length xs)
    Lp Lp (imp_on rho lam eps 2) (grid n (length xs) k zs) (Some (grid n (length xs) kl zls)) (map (map Fin) G) (Some (map (map Fin) GL)) (batch [1%nat; length xs] k xs') (Some (batch [1%nat; length xs] kl ys')) (grid n (length xs) k zs') (Some (grid n (length xs) kl zls'))
    (labelled_log_prob sx sy) (labelled_log_prob_recentered sx sy) (pairs xs' ys') (pgrid zs' zls')
    (pgrid_points n (length xs) k kl zs' zls' Gz' Gzl')) as (vals & V & E & F); [| | |exact Hg|exact D| | | | |].
  - rewrite pairs_length; unfold vec in *; congruence.
  - reflexivity.
  - reflexivity.
  - rewrite (H n (length xs) zs' zls' Gz' Gzl'), per_point_scalars, pgrid_map2. reflexivity.
  - apply tcost_labelled; auto.
  - apply labelled_lp; auto.
  - transitivity (t_log_prob (TLabelled (batch [length xs] k xs) sx (batch [length xs] kl ys) sy) (grid n (length xs) k zs') (Some (grid n (length xs) kl zls'))); [reflexivity|].
    rewrite (labelled_lp sx sy n (length xs) k kl xs ys zs' zls') by auto. do 3 f_equal. apply map_ext. intros z.
    apply (map2_combine_fst (labelled_log_prob sx sy) (pairs xs ys) (pairs xs' ys') z). rewrite Lp, pairs_length; unfold vec in *; congruence.
  - rewrite (mean_value loss_call w c (TLabelled (batch [length xs] k xs) sx (batch [length xs] kl ys) sy) grads (vec * vec) (fun q => L (fst q) (snd q))
               (batch [length xs] k xs) (Some (batch [length xs] kl ys)) (pairs xs ys) (pairs xs ys) n (length xs) Lp Lp (erm_labelled loss_call w k kl L xs ys H W W' Ey)
               (imp_on rho lam eps 2) (grid n (length xs) k zs) (Some (grid n (length xs) kl zls)) vals rho
               (fun j => map2 (fun z zl => let z' := vadd (nth j z []) (shift lam (nth j G [])) in
                  let zl' := relabel c lam (nth j zl []) (nth j GL []) in
                  (L z' zl' - lam * pt_cost c (nth j xs [], nth j ys []) (z', zl')) / eps) zs zls)); auto; [rewrite Pw; reflexivity|].
    intros j Hj. rewrite (F j Hj). unfold pgrid. rewrite map_map2. unfold zs', zls'. rewrite map2_map_l, map2_map_r.
    apply map2_ext_in. intros z zl Hin.
    pose proof (in_combine_l _ _ _ _ Hin) as A. pose proof (in_combine_r _ _ _ _ Hin) as B.
    destruct Gz as [_ FZ]. destruct Gzl as [_ FL]. rewrite Forall_forall in FZ, FL. destruct (FZ _ A) as [Lz Wz]. destruct (FL _ B) as [Lzl Wzl].
    unfold labelled_log_prob_recentered, labelled_log_prob. rewrite Rminus_diag_eq by reflexivity. rewrite Rplus_0_r.
    unfold integrand, pairs. cbn [d_lam d_eps imp_on]. unfold vec in *.
    rewrite combine_nth by (rewrite !map2_length; congruence). rewrite combine_nth by (symmetry; exact Ey).
    rewrite (nth_map2 half_move [] [] []) by (unfold vec in *; lia). rewrite (nth_map2 (label_move c) [] [] []) by (unfold vec in *; lia).
    assert (Gj : (j < length G)%nat) by lia. assert (GLj : (j < length GL)%nat) by lia.
    assert (Ed : nth j DX [] = vscal (Rmin threshold_default (norm2 (nth j G [])) / norm2 (nth j G []) / lam) (nth j G []))
      by (exact (nth_map_lt (fun g => vscal (Rmin threshold_default (norm2 g) / norm2 g / lam) g) [] [] j G Gj)).
    assert (El : nth j DL [] = vscal (Rmin threshold_default (norm2 (nth j GL [])) / norm2 (nth j GL []) / lam) (nth j GL []))
      by (exact (nth_map_lt (fun g => vscal (Rmin threshold_default (norm2 g) / norm2 g / lam) g) [] [] j GL GLj)).
    unfold vec in *. rewrite Ed, El. rewrite half_shift, relabel_move; [reflexivity|].
    rewrite (widths_nth kl zl j Wzl) by lia. symmetry. apply widths_nth; [exact WGL|lia].
Qed.
Print Assumptions C112_importance_labelled.

(* ---------- one vanishing gradient, or a vanishing dual variable, turns importance sampling off for the whole batch ---------- *)
(* a sample of the batch whose gradient (or the dual variable) vanishes *)
Definition vanishes (lam : R) (G : list (list xr)) : Prop :=
  exists row, In row G /\ row <> [] /\ (lam = 0 \/ exists z, row = map Fin z /\ Forall (fun a => a = 0) z).

Lemma vanishes_invalid lam G gl : vanishes lam G -> invalid_displacement (get_optimal_displacement threshold_default (Fin lam) G gl) = true.
Proof.
  intros (row & Hin & Hne & Hv). unfold invalid_displacement. cbn [get_optimal_displacement fst]. apply orb_true_iff. left.
  apply check_iff. exists (normalize_row threshold_default (Fin lam) row). destruct Hv as [-> | (z & -> & Hz)].
  - pose proof (lam0_not_finite threshold_default row Hne) as F. destruct row as [|a row]; [congruence|].
    set (r := normalize_row threshold_default (Fin 0) (a :: row)) in *. assert (Hr : r <> []) by (subst r; discriminate).
    destruct r as [|b r'] eqn:Er; [congruence|]. exists b. split; [rewrite <- Er; apply in_map; exact Hin|]. split; [left; reflexivity|]. inversion F; assumption.
  - assert (Nz : z <> []) by (intros ->; apply Hne; reflexivity). exists NaN. split; [apply in_map; exact Hin|]. split; [|reflexivity].
    rewrite (zero_row_nan _ _ z Nz Hz). destruct z as [|a z]; [congruence|]. left. reflexivity.
Qed.
Lemma off_displace c lam G gl xi xil zt zlt : vanishes lam G ->
  t_displace c threshold_default (Fin lam) G gl xi xil zt zlt = Ok (unsqueeze_first xi, option_map unsqueeze_first xil, zt, zlt).
Proof. intros V. unfold t_displace. rewrite (vanishes_invalid lam G gl V). reflexivity. Qed.

Lemma recentre_self sc x z : length z = length x -> nolabels_log_prob_recentered sc x x z = nolabels_log_prob sc x z.
Proof.
  intros E. unfold nolabels_log_prob_recentered, nolabels_log_prob. f_equal. unfold vadd, vsub. revert x E. induction z as [|a z IH]; intros [|b x] E; simpl in E; try discriminate; [reflexivity|].
  cbn [map2]. rewrite IH by lia. f_equal. ring.
Qed.

Theorem C112_importance_off loss_call w grads sc p power k L n xs zs G rho lam eps :
  samplewise (w_value loss_call w) k L -> widths k xs -> is_grid n (length xs) k zs -> xs <> [] -> zs <> [] -> 0 < rho -> eps <> 0 ->
  grads (batch [length xs] k xs) None = Ok (G, None) -> vanishes lam G ->
  t_compute_dual loss_call w (TNC p power) (TPlain (batch [length xs] k xs) sc) grads (imp_on rho lam eps power) (batch [length xs] k xs) None (grid n (length xs) k zs) None
  = t_compute_dual loss_call w (TNC p power) (TPlain (batch [length xs] k xs) sc) grads (cfg "mean" rho lam eps power) (batch [length xs] k xs) None (grid n (length xs) k zs) None.
Proof.
  intros H W Gz Nx Nz Hr He Hg Hv. rewrite (C112_value_unlabelled loss_call w _ grads p power k L n xs zs rho lam eps) by auto.
  assert (Hn : (0 < n)%nat) by (destruct Gz as [<- _]; destruct zs; [congruence|simpl; lia]).
  assert (Hm : (0 < length xs)%nat) by (destruct xs; [congruence|simpl; lia]).
  destruct (integrand_imp loss_call w (TNC p power) (TPlain (batch [length xs] k xs) sc) grads vec [] L (nc_value p power) (batch [length xs] k xs) None xs xs n (length xs)
    eq_refl eq_refl (imp_on rho lam eps power) (grid n (length xs) k zs) None G None (unsqueeze_first (batch [length xs] k xs)) None (grid n (length xs) k zs) None
    (nolabels_log_prob sc) (nolabels_log_prob_recentered sc) xs zs (grid_points n (length xs) k zs Gz) eq_refl eq_refl eq_refl Hg
    (off_displace (TNC p power) lam G None (batch [length xs] k xs) None (grid n (length xs) k zs) None Hv)) as (vals & V & E & F).
  - rewrite (H n (length xs) zs Gz), per_point_scalars. reflexivity.
  - apply tcost_nc; auto.
  - cbn [t_log_prob]. apply lp_grid; auto.
  - rewrite unsq_grid, grid1_batch. apply plain_lpr; auto.
  - rewrite (mean_value loss_call w (TNC p power) (TPlain (batch [length xs] k xs) sc) grads vec L (batch [length xs] k xs) None xs xs n (length xs) eq_refl eq_refl
               (erm_unlabelled loss_call w k L xs H W) (imp_on rho lam eps power) (grid n (length xs) k zs) None vals rho
               (fun j => map (fun z => (L (nth j z []) - lam * tpow (pnorm p (vsub (nth j xs []) (nth j z []))) power) / eps) zs)); auto.
    intros j Hj. rewrite (F j Hj). apply map_ext_in. intros z Hz.
    assert (Lj : length (nth j xs []) = k) by (apply widths_nth; [exact W|lia]).
    assert (Zj : length (nth j z []) = k).
    { destruct Gz as [_ FZ]. rewrite Forall_forall in FZ. destruct (FZ z Hz) as [Lz Wz]. apply widths_nth; [exact Wz|unfold vec in *; lia]. }
    unfold vec in *. rewrite recentre_self by congruence. rewrite Rminus_diag_eq by reflexivity. rewrite Rplus_0_r. reflexivity.
Qed.
Print Assumptions C112_importance_off.

Theorem C112_importance_off_labelled loss_call w c grads sx sy k kl L n xs ys zs zls G gl rho lam eps :
  samplewise_labelled (w_value loss_call w) k kl L -> widths k xs -> widths kl ys -> length ys = length xs ->
  is_grid n (length xs) k zs -> is_grid n (length xs) kl zls -> xs <> [] -> zs <> [] -> 0 < rho -> eps <> 0 ->
  grads (batch [length xs] k xs) (Some (batch [length xs] kl ys)) = Ok (G, gl) -> vanishes lam G \/ (exists l, gl = Some l /\ vanishes lam l) ->
  t_compute_dual loss_call w c (TLabelled (batch [length xs] k xs) sx (batch [length xs] kl ys) sy) grads (imp_on rho lam eps (tc_power c)) (batch [length xs] k xs)
    (Some (batch [length xs] kl ys)) (grid n (length xs) k zs) (Some (grid n (length xs) kl zls))
  = t_compute_dual loss_call w c (TLabelled (batch [length xs] k xs) sx (batch [length xs] kl ys) sy) grads (cfg "mean" rho lam eps (tc_power c)) (batch [length xs] k xs)
    (Some (batch [length xs] kl ys)) (grid n (length xs) k zs) (Some (grid n (length xs) kl zls)).
Proof.
  intros H W W' Ey Gz Gzl Nx Nz Hr He Hg Hv. rewrite (C112_value_labelled loss_call w _ grads c k kl L n xs ys zs zls rho lam eps) by auto.
  assert (Hn : (0 < n)%nat) by (destruct Gz as [<- _]; destruct zs; [congruence|simpl; lia]).
  assert (Hm : (0 < length xs)%nat) by (destruct xs; [congruence|simpl; lia]).
  assert (Lp : length (pairs xs ys) = length xs) by (apply pairs_length; symmetry; exact Ey).
  assert (D : t_displace c threshold_default (Fin lam) G gl (batch [length xs] k xs) (Some (batch [length xs] kl ys)) (grid n (length xs) k zs) (Some (grid n (length xs) kl zls))
    = Ok (unsqueeze_first (batch [length xs] k xs), Some (unsqueeze_first (batch [length xs] kl ys)), grid n (length xs) k zs, Some (grid n (length xs) kl zls))).
  { destruct Hv as [Hv | (l & -> & Hv)]; [apply off_displace; exact Hv|]. unfold t_displace.
    replace (invalid_displacement (get_optimal_displacement threshold_default (Fin lam) G (Some l))) with true; [reflexivity|]. symmetry.
    apply (vanishes_invalid lam l None) in Hv. unfold invalid_displacement, get_optimal_displacement in *. cbn [fst snd option_map] in *. rewrite orb_false_r in Hv. rewrite Hv. apply orb_true_r. }
  destruct (integrand_imp loss_call w c (TLabelled (batch [length xs] k xs) sx (batch [length xs] kl ys) sy) grads (vec * vec) ([], []) (fun q => L (fst q) (snd q)) (pt_cost c)
    (batch [length xs] k xs) (Some (batch [length xs] kl ys)) (pairs xs ys) (pairs xs ys) n (length xs)
    Lp Lp (imp_on rho lam eps (tc_power c)) (grid n (length xs) k zs) (Some (grid n (length xs) kl zls)) G gl _ _ (grid n (length xs) k zs) (Some (grid n (length xs) kl zls))
    (labelled_log_prob sx sy) (labelled_log_prob_recentered sx sy) (pairs xs ys) (pgrid zs zls)
    (pgrid_points n (length xs) k kl zs zls Gz Gzl) Lp eq_refl eq_refl Hg D) as (vals & V & E & F).
  - rewrite (H n (length xs) zs zls Gz Gzl), per_point_scalars, pgrid_map2. reflexivity.
  - apply tcost_labelled; auto.
  - apply labelled_lp; auto.
  - transitivity (t_log_prob (TLabelled (batch [length xs] k xs) sx (batch [length xs] kl ys) sy) (grid n (length xs) k zs) (Some (grid n (length xs) kl zls))); [reflexivity|].
    rewrite (labelled_lp sx sy n (length xs) k kl xs ys zs zls) by auto. do 3 f_equal. apply map_ext. intros z.
    apply (map2_combine_fst (labelled_log_prob sx sy) (pairs xs ys) (pairs xs ys) z). reflexivity.
  - rewrite (mean_value loss_call w c (TLabelled (batch [length xs] k xs) sx (batch [length xs] kl ys) sy) grads (vec * vec) (fun q => L (fst q) (snd q))
               (batch [length xs] k xs) (Some (batch [length xs] kl ys)) (pairs xs ys) (pairs xs ys) n (length xs) Lp Lp (erm_labelled loss_call w k kl L xs ys H W W' Ey)
               (imp_on rho lam eps (tc_power c)) (grid n (length xs) k zs) (Some (grid n (length xs) kl zls)) vals rho
               (fun j => map2 (fun z zl => (L (nth j z []) (nth j zl []) - lam * pt_cost c (nth j xs [], nth j ys []) (nth j z [], nth j zl [])) / eps) zs zls)); auto.
    intros j Hj. rewrite (F j Hj). unfold pgrid. rewrite map_map2.
    apply map2_ext_in. intros z zl Hin.
    pose proof (in_combine_l _ _ _ _ Hin) as A. pose proof (in_combine_r _ _ _ _ Hin) as B.
    destruct Gz as [_ FZ]. destruct Gzl as [_ FL]. rewrite Forall_forall in FZ, FL. destruct (FZ _ A) as [Lz Wz]. destruct (FL _ B) as [Lzl Wzl].
    unfold labelled_log_prob_recentered, labelled_log_prob. rewrite Rminus_diag_eq by reflexivity. rewrite Rplus_0_r.
    unfold integrand, pairs. cbn [d_lam d_eps imp_on]. unfold vec in *.
    rewrite combine_nth by congruence. rewrite combine_nth by (symmetry; exact Ey). reflexivity.
Qed.
Print Assumptions C112_importance_off_labelled.

(* ---------- a case: two data points, two samples each ---------- *)
Definition nv_call (k u theta : R) (x : tensor) (y : option tensor) : Result tensor :=
  match y with None => Ok (nv_forward k u theta x) | Some _ => Raise TypeError end.
Definition nv_wrapped (theta : R) : wrapped :=
  {| w_oop := true; w_has_labels := false; w_reduce := true; w_l2 := None; w_loss_params := [[theta]]; w_transform_params := [] |}.
Lemma nv_rowwise k u theta d : (0 < d)%nat -> rowwise (nv_call k u theta) d 1 (fun x => [rmean (map (fun a => k * theta - u * Rmin theta a) x)]).
Proof.
  intros D xs W. unfold nv_call. rewrite (C59_newsvendor k u theta d [length xs] xs D W) by (simpl; lia). unfold per_sample. rewrite map_map. reflexivity.
Qed.

Example C112_example_unlabelled :
  let xs := [[1]; [3]] in let zs := [[[2]; [4]]; [[0]; [3]]] in let G := [[1]; [-2]] in
  samplewise (w_value (nv_call 1 2 5) (nv_wrapped 5)) 1 (fun x => rmean [rmean (map (fun a => 1 * 5 - 2 * Rmin 5 a) x)] + 0) /\
  widths 1 xs /\ is_grid 2 (length xs) 1 zs /\ widths 1 G /\ Forall (Exists (fun a => a <> 0)) G /\ vanishes 1 [[Fin 1]; [Fin 0]].
Proof.
  cbv zeta. split; [|split; [|split; [|split; [|split]]]].
  - apply (C112_losses_unlabelled _ _ 0 1 1 (fun x => [rmean (map (fun a => 1 * 5 - 2 * Rmin 5 a) x)])); try reflexivity; try lia.
    + left. split; reflexivity.
    + apply nv_rowwise. lia.
  - repeat constructor.
  - split; [reflexivity|]. repeat (apply Forall_cons; [split; [reflexivity|repeat constructor]|]). constructor.
  - repeat constructor.
  - repeat (apply Forall_cons; [constructor; lra|]). constructor.
  - exists [Fin 0]. split; [right; left; reflexivity|]. split; [discriminate|]. right. exists [0]. split; [reflexivity|]. repeat constructor.
Qed.

Example C112_example_labelled :
  let xs := [[1]; [3]] in let ys := [[1]; [-1]] in let zs := [[[2]; [4]]; [[0]; [3]]] in let zls := [[[1]; [-1]]; [[1]; [-1]]] in
  samplewise_labelled (w_value (bin_loss [2] 0) (bin_wrapped [2] 0)) 1 1 (fun x y => rmean [ln (1 + exp (- (hd 0 y * (dot [2] x + 0))))] + 0) /\
  widths 1 xs /\ widths 1 ys /\ length ys = length xs /\ is_grid 2 (length xs) 1 zs /\ is_grid 2 (length xs) 1 zls /\ KFin 100 <> KFin 0.
Proof.
  cbv zeta. split; [|split; [|split; [|split; [|split; [|split]]]]].
  - apply (C112_losses_labelled _ _ 0 1 1 1 (fun x y => [ln (1 + exp (- (hd 0 y * (dot [2] x + 0))))])); try reflexivity; try lia.
    + left. split; reflexivity.
    + apply (bin_rowwise [2] 0).
  - repeat constructor.
  - repeat constructor.
  - reflexivity.
  - split; [reflexivity|]. repeat (apply Forall_cons; [split; [reflexivity|repeat constructor]|]). constructor.
  - split; [reflexivity|]. repeat (apply Forall_cons; [split; [reflexivity|repeat constructor]|]). constructor.
  - intros E. injection E as E. lra.
Qed.
