(* Proofs about the robust loss with fixed labels and importance sampling (TDirac_Model). *)
From Coq Require Import Reals List Bool ZArith String Arith Lra Lia.
From Verif Require Import PyBase RList XReal Tensor Loss_Model Loss_Spec Loss_Proofs Costs_Model Costs_Proofs CostDecoder_Model OptCond_Model Samplers_Model Wrap_Model Displace_Model Displace_Proofs ImpSamp_Model
  Estim_Model Estim_Proofs Handover_Proofs Dual_Model Dual_Spec Dual_Proofs TDual_Model TDual_Spec TDual_Proofs Props_Loss Props_TDual Props_Estim EstDual_Model EstDual_Spec EstDual_Proofs Draws_Proofs TDirac_Model.
Import ListNotations.
Local Open Scope R_scope.
Local Notation length := List.length.

(* a cost that cannot move labels *)
Definition keeps_labels (c : tcost) : Prop := c = TNC (PFin 2) 2 \/ c = TNLC (PFin 2) 2 KInf.

Lemma repeat_grid n m kl ys : length ys = m -> widths kl ys -> is_grid n m kl (repeat ys n).
Proof. intros L W. split; [apply repeat_length|]. apply Forall_forall. intros l Hl. apply repeat_spec in Hl. subst l. split; assumption. Qed.

Lemma abs_sum0 l : rsum (map Rabs l) = 0 <-> Forall (fun a => a = 0) l.
Proof.
  induction l as [|a l IH]; cbn [map rsum]; [split; [constructor|reflexivity]|].
  assert (P : 0 <= rsum (map Rabs l)) by (apply rsum_nonneg, Forall_map, Forall_forall; intros; apply Rabs_pos).
  pose proof (Rabs_pos a) as Pa. split.
  - intros E. constructor; [apply Rabs_eq_0_iff || (destruct (Req_dec a 0) as [|N]; [assumption|apply Rabs_pos_lt in N; lra])|apply IH; lra].
  - intros F. inversion F; subst. rewrite Rabs_R0. replace (rsum (map Rabs l)) with 0 by (symmetry; apply IH; assumption). lra.
Qed.
Lemma zero_rows k : forall a b : list R, length a = k -> length b = k -> (Forall (fun v => v = 0) (map2 Rminus a b) <-> a = b).
Proof.
  induction k as [|k IH]; intros [|x a] [|y b] La Lb; try discriminate; [split; [reflexivity|constructor]|]. cbn [map2]. simpl in La, Lb. split.
  - intros F. inversion F; subst. f_equal; [lra|apply IH; [lia|lia|assumption]].
  - intros E. injection E as -> ->. constructor; [lra|apply IH; try lia; reflexivity].
Qed.
Lemma zero_block k m : forall a b : list (list R), length a = m -> length b = m -> widths k a -> widths k b ->
  (Forall (fun v => v = 0) (List.concat (map2 (map2 Rminus) a b)) <-> a = b).
Proof.
  induction m as [|m IH]; intros [|x a] [|y b] La Lb Wa Wb; try discriminate; [split; [reflexivity|constructor]|]. cbn [map2 List.concat]. simpl in La, Lb. inversion Wa; inversion Wb; subst.
  rewrite Forall_app, (zero_rows (length x)) by (try reflexivity; assumption). rewrite IH by (try assumption; lia). split; [intros [-> ->]; reflexivity|intros E; injection E as -> ->; split; reflexivity].
Qed.
(* the log-density of the Dirac law is 0 exactly if every draw is the labels themselves *)
Lemma at_labels_iff n m kl ys zls : length ys = m -> widths kl ys -> is_grid n m kl zls ->
  exists b, at_labels (Tensor.batch [m] kl ys) (grid n m kl zls) = Ok b /\ (b = true <-> Forall (eq ys) zls).
Proof.
  intros L W G. unfold at_labels. rewrite bc_flat_r by assumption. cbn [bind]. eexists. split; [reflexivity|].
  unfold Reqb. destruct (Req_EM_T _ 0) as [E|N].
  - split; [intros _|reflexivity]. apply abs_sum0 in E. unfold grid, Tensor.batch in E. cbn [dat] in E. rewrite concat_concat, map_map, <- flat_map_concat_map in E.
    apply Forall_flat_map in E. destruct G as [_ F]. rewrite Forall_forall in E, F |- *. intros z Hz. specialize (E z Hz). destruct (F z Hz) as [Lz Wz]. apply zero_block with (k := kl) (m := m) in E; auto.
  - split; [discriminate|]. intros F. exfalso. apply N, abs_sum0. unfold grid, Tensor.batch. cbn [dat]. rewrite concat_concat, map_map, <- flat_map_concat_map. apply Forall_flat_map.
    destruct G as [_ F']. rewrite Forall_forall in F, F' |- *. intros z Hz. specialize (F z Hz). subst z. destruct (F' _ Hz) as [Lz Wz]. apply zero_block with (k := kl) (m := m); auto.
Qed.

(* adding the zero log-density changes nothing *)
Lemma prodl_ones r : prodl (repeat 1%nat r) = 1%nat.
Proof. induction r as [|r IH]; [reflexivity|]. cbn [repeat prodl]. rewrite IH. reflexivity. Qed.
Lemma bdata_ones op v : forall s a, length a = prodl s -> bdata op s (repeat 1%nat (length s)) a [v] = map (fun x => op x v) a.
Proof.
  induction s as [|p s IH]; intros a Ha; cbn [length repeat bdata].
  - destruct a as [|x [|]]; try discriminate. reflexivity.
  - cbn [Nat.eqb]. assert (En : (if (p =? 1)%nat then 1%nat else p) = p) by (destruct (p =? 1)%nat eqn:P; [apply Nat.eqb_eq in P; congruence|reflexivity]). rewrite En.
    rewrite prodl_ones. cbn [prodl] in Ha.
    replace (map (fun x => op x v) a) with (map (fun x => op x v) (List.concat (chunks p (prodl s) a))) by (rewrite chunks_total by exact Ha; reflexivity). rewrite concat_map. rewrite <- slices_chunks, map_map, flat_map_concat_map. f_equal. apply map_ext_in. intros i Hi. apply in_seq in Hi.
    replace (if (p =? 1)%nat then 0%nat else i) with i by (destruct (p =? 1)%nat eqn:P; [apply Nat.eqb_eq in P; lia|reflexivity]).
    rewrite (slice_0 1 [v]) by reflexivity. apply IH. unfold slice. rewrite firstn_length, skipn_length. nia.
Qed.
Lemma bshape_ones : forall s, bshape s (repeat 1%nat (length s)) = Some s.
Proof. induction s as [|p s IH]; [reflexivity|]. cbn [length repeat bshape]. rewrite IH. destruct (p =? 1)%nat eqn:P; [reflexivity|]. reflexivity. Qed.
Lemma bcast_one op s a v : (0 < length s)%nat -> length a = prodl s -> bcast op (mkT s a) (mkT [1%nat] [v]) = Ok (mkT s (map (fun x => op x v) a)).
Proof.
  intros Hs Ha. unfold bcast, tdim. cbn [shp dat length]. replace (Nat.max (length s) 1) with (length s) by lia. rewrite pad_same.
  assert (E : pad (length s) [1%nat] = repeat 1%nat (length s)) by (unfold pad; cbn [length]; rewrite <- repeat_cons; replace (length s) with (S (length s - 1)) at 2 by lia; reflexivity).
  rewrite E, bshape_ones, bdata_ones by exact Ha. reflexivity.
Qed.

Lemma td_lp sc n m k means zs : length means = m -> widths k means -> is_grid n m k zs ->
  td_log_prob (Tensor.batch [m] k means) sc (grid n m k zs) = Ok (grid n m 1 (scalars (map (map2 (row_log_prob sc) means) zs))).
Proof.
  intros Lm W G. unfold td_log_prob. rewrite lp_grid by assumption. cbn [bind].
  assert (V : is_vals n m (map (map2 (row_log_prob sc) means) zs)) by (apply vals_points2; [exact Lm|apply (grid_points n m k); exact G]).
  unfold grid, Tensor.batch. cbn [app]. rewrite bcast_one.
  - do 2 f_equal. transitivity (map (fun x : R => x) (List.concat (List.concat (scalars (map (map2 (row_log_prob sc) means) zs))))); [apply map_ext; intros a; ring|apply map_id].
  - cbn. lia.
  - rewrite (grid_data_length n m 1) by (apply scalars_grid; exact V). cbn [prodl]. lia.
Qed.
Lemma zero_correction n m vals ws : is_vals n m vals -> is_vals n m ws ->
  (do c <- bcast Rminus (grid n m 1 (scalars ws)) (grid n m 1 (scalars ws)); bcast Rplus (grid n m 1 (scalars vals)) c) = Ok (grid n m 1 (scalars vals)).
Proof.
  intros V W. rewrite bc_grid by (apply scalars_grid; exact W). cbn [bind]. rewrite scalars_map2. rewrite bc_grid; [|apply scalars_grid; exact V|apply scalars_grid, vals_map2; exact W].
  rewrite scalars_map2. do 3 f_equal. destruct V as [Lv Fv], W as [Lw Fw]. clear -Lv Fv Lw Fw.
  assert (Row : forall l r : list R, length l = m -> length r = m -> map2 Rplus l (map2 Rminus r r) = l).
  { clear. induction m as [|m IH]; intros [|a l] [|b r] A B; try discriminate; [reflexivity|]. cbn [map2]. simpl in A, B. f_equal; [ring|apply IH; lia]. }
  revert vals ws Lv Fv Lw Fw. induction n as [|n IH]; intros [|v vals] [|r ws] Lv Fv Lw Fw; try discriminate; [reflexivity|]. apply Forall_cons_iff in Fv. apply Forall_cons_iff in Fw. destruct Fv as [Fv1 Fv2], Fw as [Fw1 Fw2]. cbn [map2]. simpl in Lv, Lw.
  f_equal; [apply Row; assumption|apply IH; try assumption; lia].
Qed.

Section Fixed.
Variables (loss_call : Tensor.tensor -> option Tensor.tensor -> Result Tensor.tensor) (w : wrapped) (c : tcost).
Variables (k kl : nat) (L : vec -> vec -> R) (n : nat) (xs ys : list vec) (zs : list (list vec)) (sc rho lam eps : R).
Variable grads : Tensor.tensor -> option Tensor.tensor -> Result (list (list xr) * option (list (list xr))).
Hypothesis H : samplewise_labelled (w_value loss_call w) k kl L.
Hypothesis W : widths k xs.
Hypothesis W' : widths kl ys.
Hypothesis Ey : length ys = length xs.
Hypothesis Gz : is_grid n (length xs) k zs.
Hypothesis Hr : 0 < rho.
Let xi := Tensor.batch [length xs] k xs.
Let yi := Tensor.batch [length xs] kl ys.

(* the samples used are zs' and zls': the log-densities cancel, unless the Dirac law has density 0 there *)
Lemma fixed_core g gl xt xlt zls zs' zls' : is_grid n (length xs) k zs' -> is_grid n (length xs) kl zls' ->
  grads xi (Some yi) = Ok (g, gl) ->
  t_displace c threshold_default (Fin lam) g gl xi (Some yi) (grid n (length xs) k zs) (Some (grid n (length xs) kl zls)) = Ok (xt, Some xlt, grid n (length xs) k zs', Some (grid n (length xs) kl zls')) ->
  exists b vals, (b = true <-> Forall (eq ys) zls') /\ is_vals n (length xs) vals /\
    td_integrand loss_call w c grads xi sc yi (imp_on rho lam eps (tc_power c)) xi (Some yi) (grid n (length xs) k zs) (Some (grid n (length xs) kl zls)) = Ok (grid n (length xs) 1 (scalars vals), n, b) /\
    (forall s, t_integrand loss_call w c s grads (cfg "mean" rho lam eps (tc_power c)) xi (Some yi) (grid n (length xs) k zs') (Some (grid n (length xs) kl zls')) = Ok (grid n (length xs) 1 (scalars vals), n)).
Proof.
  intros Gz' Gl' Hg Hd. assert (Lp : length (pairs xs ys) = length xs) by (apply pairs_length; symmetry; exact Ey).
  destruct (at_labels_iff n (length xs) kl ys zls' Ey W' Gl') as (b & Eb & Ib). exists b.
  pose proof (vals_points2 n (length xs) (pairs xs ys) (pgrid zs' zls') (integrand (vec * vec) (fun q => L (fst q) (snd q)) (pt_cost c) (cfg "mean" rho lam eps (tc_power c))) Lp (pgrid_points n (length xs) k kl zs' zls' Gz' Gl')) as V.
  eexists. split; [exact Ib|]. split; [exact V|].
  assert (P : t_penalised loss_call w c (cfg "mean" rho lam eps (tc_power c)) xi (Some yi) (grid n (length xs) k zs') (Some (grid n (length xs) kl zls'))
    = Ok (grid n (length xs) 1 (scalars (map (map2 (integrand (vec * vec) (fun q => L (fst q) (snd q)) (pt_cost c) (cfg "mean" rho lam eps (tc_power c))) (pairs xs ys)) (pgrid zs' zls'))))).
  { apply (penalised_grid loss_call w c (vec * vec) (fun q => L (fst q) (snd q)) (pt_cost c) xi (Some yi) (pairs xs ys) n (length xs) Lp).
    - apply (pgrid_points n (length xs) k kl); assumption.
    - rewrite (H n (length xs) zs' zls' Gz' Gl'), per_point_scalars, pgrid_map2. reflexivity.
    - apply tcost_labelled; auto. }
  split.
  - unfold td_integrand. rewrite Hg. cbn [bind d_lam imp_on]. rewrite Hd. cbn [bind].
    change (t_penalised loss_call w c (imp_on rho lam eps (tc_power c))) with (t_penalised loss_call w c (cfg "mean" rho lam eps (tc_power c))). rewrite P. cbn [bind].
    unfold xi at 1 2. rewrite (td_lp sc n (length xs) k xs zs' eq_refl W Gz'). cbn [bind]. unfold yi at 1. rewrite Eb. cbn [bind].
    assert (V2 : is_vals n (length xs) (map (map2 (row_log_prob sc) xs) zs')) by (apply vals_points2; [reflexivity|apply (grid_points n _ k); exact Gz']).
    pose proof (zero_correction n (length xs) _ _ V V2) as Z. revert Z.
    destruct (bcast Rminus (grid n (length xs) 1 (scalars (map (map2 (row_log_prob sc) xs) zs'))) (grid n (length xs) 1 (scalars (map (map2 (row_log_prob sc) xs) zs')))) as [co|]; cbn [bind]; [|discriminate].
    intros Z. rewrite Z. reflexivity.
  - intros s. unfold t_integrand. cbn [d_imp cfg]. rewrite P. reflexivity.
Qed.

Lemma fixed_same g gl xt xlt zls zs' : is_grid n (length xs) k zs' ->
  grads xi (Some yi) = Ok (g, gl) ->
  t_displace c threshold_default (Fin lam) g gl xi (Some yi) (grid n (length xs) k zs) (Some (grid n (length xs) kl zls)) = Ok (xt, Some xlt, grid n (length xs) k zs', Some (grid n (length xs) kl (repeat ys n))) ->
  forall s, td_compute_dual loss_call w c grads xi sc yi (imp_on rho lam eps (tc_power c)) xi (Some yi) (grid n (length xs) k zs) (Some (grid n (length xs) kl zls))
  = t_compute_dual loss_call w c s grads (cfg "mean" rho lam eps (tc_power c)) xi (Some yi) (grid n (length xs) k zs') (Some (grid n (length xs) kl (repeat ys n))).
Proof.
  intros Gz' Hg Hd s. destruct (fixed_core g gl xt xlt zls zs' (repeat ys n) Gz' (repeat_grid n _ kl ys Ey W') Hg Hd) as (b & vals & Ib & V & E1 & E2).
  assert (b = true) as -> by (apply Ib, Forall_forall; intros y Hy; apply repeat_spec in Hy; symmetry; exact Hy).
  unfold td_compute_dual, t_compute_dual. rewrite E1, E2. cbn [bind d_rho d_erm d_reduction d_lam d_eps imp_on cfg]. reflexivity.
Qed.

Lemma fixed_nan g gl xt xlt zls zs' zls' : is_grid n (length xs) k zs' -> is_grid n (length xs) kl zls' -> xs <> [] ->
  grads xi (Some yi) = Ok (g, gl) ->
  t_displace c threshold_default (Fin lam) g gl xi (Some yi) (grid n (length xs) k zs) (Some (grid n (length xs) kl zls)) = Ok (xt, Some xlt, grid n (length xs) k zs', Some (grid n (length xs) kl zls')) ->
  ~ Forall (eq ys) zls' ->
  td_compute_dual loss_call w c grads xi sc yi (imp_on rho lam eps (tc_power c)) xi (Some yi) (grid n (length xs) k zs) (Some (grid n (length xs) kl zls)) = Ok (Scalar NaN).
Proof.
  intros Gz' Gl' Nx Hg Hd Nl. destruct (fixed_core g gl xt xlt zls zs' zls' Gz' Gl' Hg Hd) as (b & vals & Ib & V & E1 & E2).
  assert (b = false) as -> by (destruct b; [exfalso; apply Nl, Ib; reflexivity|reflexivity]).
  unfold td_compute_dual. rewrite E1. cbn [bind d_rho d_erm d_reduction d_lam d_eps imp_on]. rewrite not_zero_pos, pos_lt by exact Hr. cbn [orb].
  rewrite (lse0_scalars n (length xs) vals V). cbn [fst snd]. rewrite map_map. destruct xs as [|x xs0] eqn:Ex; [contradiction|]. cbn [length seq map reduce_loss_batch].
  cbn. reflexivity.
Qed.
End Fixed.

(* ---------- displacements under a cost that keeps the labels ---------- *)
Lemma kept_label c y g : keeps_labels c -> length y = length g -> label_move c y g = y.
Proof. intros [-> | ->] E; cbn [label_move]; [reflexivity|]. apply vadd_zeros. exact E. Qed.
Lemma kept_labels c kl n m zls DL : keeps_labels c -> length DL = m -> widths kl DL -> is_grid n m kl zls -> map (fun z => map2 (label_move c) z DL) zls = zls.
Proof.
  intros Kc L W [_ F]. rewrite <- (map_id zls) at 2. apply map_ext_in. intros z Hz. rewrite Forall_forall in F. destruct (F z Hz) as [Lz Wz]. clear -Kc L W Lz Wz.
  assert (E : length z = length DL) by (unfold vec in *; congruence). clear L Lz. revert DL W E. induction z as [|y z IH]; intros [|g DL] W E; try discriminate; [reflexivity|].
  inversion W; inversion Wz; subst. cbn [map2]. f_equal; [apply kept_label; [exact Kc|congruence]|apply IH; try assumption; simpl in E; lia].
Qed.
Lemma displace_kept c k kl n xs ys zs zls G GL lam : keeps_labels c -> widths k xs -> widths kl ys -> length ys = length xs -> is_grid n (length xs) k zs -> is_grid n (length xs) kl zls -> xs <> [] -> lam <> 0 ->
  length G = length xs -> widths k G -> Forall (Exists (fun a => a <> 0)) G -> length GL = length xs -> widths kl GL -> Forall (Exists (fun a => a <> 0)) GL ->
  exists xt, t_displace c threshold_default (Fin lam) (map (map Fin) G) (Some (map (map Fin) GL)) (Tensor.batch [length xs] k xs) (Some (Tensor.batch [length xs] kl ys)) (grid n (length xs) k zs) (Some (grid n (length xs) kl zls))
    = Ok (xt, Some (Tensor.batch [1%nat; length xs] kl ys), grid n (length xs) k (displaced (shift lam) G zs), Some (grid n (length xs) kl zls)) /\ is_grid n (length xs) k (displaced (shift lam) G zs).
Proof.
  intros Kc W W' Ey Gz Gzl Nx Hl LG WG FG LGL WGL FGL.
  assert (Hm : (0 < length xs)%nat) by (destruct xs; [congruence|simpl; lia]).
  set (DX := map (fun g => vscal (Rmin threshold_default (norm2 g) / norm2 g / lam) g) G).
  set (DL := map (fun g => vscal (Rmin threshold_default (norm2 g) / norm2 g / lam) g) GL).
  assert (LD : length DX = length xs) by (unfold DX; rewrite map_length; exact LG).
  assert (LDL : length DL = length xs) by (unfold DL; rewrite map_length; exact LGL).
  assert (WD : widths k DX) by (apply widths_shifts; exact WG).
  assert (WDL : widths kl DL) by (apply widths_shifts; exact WGL).
  assert (ND : DX <> []) by (intros K; rewrite K in LD; simpl in LD; lia).
  assert (NDL : DL <> []) by (intros K; rewrite K in LDL; simpl in LDL; lia).
  assert (Sq : square_cost c) by (destruct Kc as [-> | ->]; exact nexp_22).
  assert (M : map (fun z => map2 half_move z DX) zs = displaced (shift lam) G zs).
  { unfold displaced. apply map_ext. intros z. unfold DX. rewrite map2_map_r. apply map2_ext. intros a g. apply half_shift. }
  eexists. split.
  - unfold t_displace, get_optimal_displacement. cbn [option_map]. rewrite !disp_rows by assumption. fold DX. fold DL.
    pose proof (valid_fin DX (Some DL)) as Vf. cbn [option_map] in Vf. rewrite Vf. cbn [fst snd option_map].
    rewrite (rows_tensor_fin k DX ND WD), (rows_tensor_fin kl DL NDL WDL). unfold vec in LD, LDL |- *. rewrite LD, LDL. rewrite !unsq_grid.
    rewrite (move_labelled_grid c 1 (length xs) k kl [xs] [ys] DX DL Sq LD WD LDL WDL) by (apply grid_one; auto). cbn [bind].
    rewrite (move_labelled_grid c n (length xs) k kl zs zls DX DL Sq LD WD LDL WDL Gz Gzl). cbn [bind].
    rewrite (kept_labels c kl n (length xs) zls DL Kc LDL WDL Gzl), (kept_labels c kl 1 (length xs) [ys] DL Kc LDL WDL) by (apply grid_one; auto).
    unfold vec in *. rewrite M. rewrite (grid1_batch (length xs) kl ys). reflexivity.
  - rewrite <- M. apply move_ok; auto. intros; apply half_len; assumption.
Qed.

(* What it means for the robust loss d to be, when the cost keeps the labels, the soft robust objective of the loss L on (xs, ys), with
   importance sampling: on the samples moved along the gradients, with the labels of the data and no weights, or on the given samples
   when a gradient vanishes. Labels other than those of the data have probability 0 under the sampler: then the value is nan. *)
Definition trains_fixed (d : dual_args) (loss : Tensor.tensor -> option Tensor.tensor -> Result Tensor.tensor) (w : wrapped) (k kl : nat) (L : vec -> vec -> R) (xs ys : list vec) (rho : R) : Prop :=
  forall c loc sc lloc, tcost_of (a_cost d) = Some c -> a_imp_samp d = true -> dsampler_of d k kl = Some (loc, sc, lloc) ->
  forall n zs zls e lam grads, is_grid n (length xs) k zs -> is_grid n (length xs) kl zls -> zs <> [] -> a_epsilon d = Fin e -> e <> 0 ->
  let xi := Tensor.batch [length xs] k xs in
  let yi := Tensor.batch [length xs] kl ys in
  let value := td_compute_dual loss w c grads loc sc lloc (dual_of d (tc_power c) e lam) xi (Some yi) (grid n (length xs) k zs) (Some (grid n (length xs) kl zls)) in
  let objective zs := Ok (Scalar (Fin (robust_labelled (pt_cost c) (tc_power c) rho e lam L xs ys zs (repeat ys n)))) in
  (forall G GL, lam <> 0 -> grads xi (Some yi) = Ok (map (map Fin) G, Some (map (map Fin) GL)) ->
     length G = length xs -> widths k G -> Forall (Exists (fun a => a <> 0)) G -> length GL = length xs -> widths kl GL -> Forall (Exists (fun a => a <> 0)) GL ->
     (Forall (eq ys) zls -> value = objective (displaced (shift lam) G zs)) /\ (~ Forall (eq ys) zls -> value = Ok (Scalar NaN))) /\
  (forall G gl, grads xi (Some yi) = Ok (G, gl) -> vanishes lam G \/ (exists l, gl = Some l /\ vanishes lam l) ->
     (Forall (eq ys) zls -> value = objective zs) /\ (~ Forall (eq ys) zls -> value = Ok (Scalar NaN))).

Section Trains.
Variables (pf : string -> option xr) (u : user_args) (d0 d : dual_args) (loss : Tensor.tensor -> option Tensor.tensor -> Result Tensor.tensor) (w : wrapped) (k kl : nat) (L : vec -> vec -> R).
Variables (xs ys : list vec) (rho : R).
Hypothesis Hd : dualize pf u = Ok d0.
Hypothesis Hc : a_cost d = a_cost d0.
Hypothesis Hi : a_imp_samp d = a_imp_samp d0.
Hypothesis Hs : a_sampler d = a_sampler d0.
Hypothesis Hr : a_rho d = rho.
Hypothesis Hred : a_reduction d = None.
Hypothesis Hxi : u_xi u = xs.
Hypothesis Hy : u_labels u = Some ys.
Hypothesis HL : samplewise_labelled (w_value loss w) k kl L.
Hypothesis W : widths k xs.
Hypothesis W' : widths kl ys.
Hypothesis E : length ys = length xs.
Hypothesis Nx : xs <> [].

Lemma fixed_sampler c loc sc lloc : tcost_of (a_cost d) = Some c -> two_two c -> dsampler_of d k kl = Some (loc, sc, lloc) ->
  keeps_labels c /\ loc = Tensor.batch [length xs] k xs /\ lloc = Tensor.batch [length xs] kl ys.
Proof.
  intros Ec Tc Es. destruct (dualize_cost pf u d0 Hd) as (c' & Ec' & _ & _ & Sc & _). rewrite Hc, Ec' in Ec. injection Ec as <-.
  unfold dsampler_of in Es. rewrite Hs in Es. unfold dualize in Hd. rewrite Hxi, Hy in Hd.
  destruct (parse_code_torch _ _ _ _ _ _) as [pc|]; simpl in Hd; [|discriminate]. destruct (cost_from_parse_torch _ _ _) as [cc|]; simpl in Hd; [|discriminate].
  match type of Hd with (do s <- ?x; _) = _ => destruct x as [cs|] eqn:EL end; simpl in Hd; [|discriminate]. injection Hd as <-. cbn [a_cost a_sampler] in *.
  apply labeled_inv in EL. destruct EL as (f & l & Ff & _ & Ed & El & Ecl). rewrite Ed, Ecl in Es. rewrite Sc in El.
  destruct f; try discriminate. destruct l as [|ll]; [discriminate|].
  destruct Tc as [-> | [kp ->]].
  - cbn [sampler_labels] in El. injection El as ->. split; [left; reflexivity|]. injection Es as <- _ <-. unfold vec in *. rewrite E. split; reflexivity.
  - unfold sampler_labels in El. destruct kp as [kq|]; cbn [xeq] in El.
    + match type of El with match ?b with _ => _ end = _ => destruct b end; [|discriminate]. unfold loc_scale in El.
      match type of El with (do d <- (if ?b then _ else _); _) = _ => destruct b end; cbn [bind] in El; discriminate.
    + injection El as ->. split; [right; reflexivity|]. injection Es as <- _ <-. unfold vec in *. rewrite E. split; reflexivity.
Qed.

Lemma fixed_trains : 0 < rho -> trains_fixed d loss w k kl L xs ys rho.
Proof.
  intros Hrho c loc sc lloc Ec Im Es n zs zls e lam grads Gz Gl Nz Ee Ne xi yi value objective.
  destruct (dualize_cost pf u d0 Hd) as (c' & Ec' & Ti & _). rewrite <- Hc in Ec'. rewrite Ec in Ec'. injection Ec' as <-. rewrite <- Hi in Ti.
  destruct (fixed_sampler c loc sc lloc Ec (Ti Im) Es) as (Kc & -> & ->).
  assert (Pw : tc_power c = 2) by (destruct Kc as [-> | ->]; reflexivity).
  assert (Cf : dual_of d (tc_power c) e lam = imp_on rho lam e (tc_power c)) by (rewrite Pw, (dual_of_imp d e lam Hred Im), Hr; reflexivity).
  assert (Same : Forall (eq ys) zls -> zls = repeat ys n).
  { intros F. destruct Gl as [<- _]. clear -F. induction F as [|y l <- F IH]; [reflexivity|]. cbn [length repeat]. f_equal. exact IH. }
  subst value objective. cbv beta. rewrite Cf. split.
  - intros G GL Nl Hg LG WG FG LGL WGL FGL.
    destruct (displace_kept c k kl n xs ys zs zls G GL lam Kc W W' E Gz Gl Nx Nl LG WG FG LGL WGL FGL) as (xt & D & Gd). split.
    + intros F. specialize (Same F). subst zls.
      refine (eq_trans (fixed_same loss w c k kl L n xs ys zs sc rho lam e grads HL W W' E _ _ xt _ _ _ Gd Hg D (TPlain xi 1)) _).
      apply (C112_value_labelled loss w (TPlain xi 1) grads c k kl L n xs ys (displaced (shift lam) G zs) (repeat ys n) rho lam e HL W W' E Gd Gl Nx); auto.
      unfold displaced. destruct zs; [contradiction|discriminate].
    + intros F. eapply fixed_nan; [exact HL|exact W|exact W'|exact E|exact Gz|exact Hrho|exact Gd|exact Gl|exact Nx|exact Hg|exact D|exact F].
  - intros G gl Hg Hv.
    assert (D : t_displace c threshold_default (Fin lam) G gl xi (Some yi) (grid n (length xs) k zs) (Some (grid n (length xs) kl zls))
      = Ok (unsqueeze_first xi, Some (unsqueeze_first yi), grid n (length xs) k zs, Some (grid n (length xs) kl zls))).
    { destruct Hv as [Hv | (l & -> & Hv)]; [apply off_displace; exact Hv|]. unfold t_displace.
      replace (invalid_displacement (get_optimal_displacement threshold_default (Fin lam) G (Some l))) with true; [reflexivity|]. symmetry.
      apply (vanishes_invalid lam l None) in Hv. unfold invalid_displacement, get_optimal_displacement in *. cbn [fst snd option_map] in *. rewrite orb_false_r in Hv. rewrite Hv. apply orb_true_r. }
    split.
    + intros F. specialize (Same F). subst zls.
      refine (eq_trans (fixed_same loss w c k kl L n xs ys zs sc rho lam e grads HL W W' E _ _ _ _ _ _ Gz Hg D (TPlain xi 1)) _).
      apply (C112_value_labelled loss w (TPlain xi 1) grads c k kl L n xs ys zs (repeat ys n) rho lam e HL W W' E Gz Gl Nx); auto.
    + intros F. eapply fixed_nan; [exact HL|exact W|exact W'|exact E|exact Gz|exact Hrho|exact Gz|exact Gl|exact Nx|exact Hg|exact D|exact F].
Qed.
End Trains.
