(* C121: the objective with importance sampling and the exact worst case. *)
From Coq Require Import Reals List Bool ZArith String Arith Lra Lia Psatz.
From Verif Require Import PyBase RList XReal LogMeanExp Tensor Loss_Model Loss_Spec Loss_Proofs Costs_Model Costs_Spec Costs_Proofs
  CostDecoder_Model OptCond_Model Samplers_Model Samplers_Spec Draws_Proofs Wrap_Model Wrap_Proofs Estim_Model Estim_Proofs Handover_Proofs Dual_Model Dual_Spec Dual_Proofs ImpSamp_Model ImpSamp_Spec ImpSamp_Proofs
  TDual_Model TDual_Spec TDual_Proofs Displace_Model Displace_Proofs Props_Dual Props_TDual Props_Estim
  EstDual_Model EstDual_Spec EstDual_Proofs Props_EstDual Gradient Grads_Model Grads_Losses Props_Grads Certificate_Spec Certificate_Proofs SampleLaw_Proofs Props_Certificate Weighted_Spec Weighted_Proofs.
Import ListNotations.
Local Open Scope R_scope.
Local Notation length := List.length.

Definition cost22 (x z : vec) : R := pt_cost (TNC (PFin 2) 2) (x, []) (z, []).
Lemma cost22_sqdist x z : cost22 x z = sqdist x z.
Proof. unfold cost22. cbn [pt_cost fst]. apply nc_value_22. Qed.
Lemma exp_mono a b : a <= b -> exp a <= exp b.
Proof. intros [H| ->]; [left; apply exp_increasing; exact H|right; reflexivity]. Qed.
Lemma rpower_2 r : 0 < r -> Rpower r 2 = r * r.
Proof. intros H. replace 2 with (INR 2) by (cbn; lra). rewrite Rpower_pow by exact H. cbn. ring. Qed.

Definition wt22 (s lam : R) (G : list vec) (j : nat) (x z : vec) : R := gauss_vec s x z / moved_gauss s x (shift lam (nth j G [])) z.
Lemma rw_terms e lam s L (G xs : list vec) zs j : 0 < s -> 0 < e -> 0 < lam ->
  (forall z, In z zs -> length (nth j z []) = length (nth j xs []) /\ length (shift lam (nth j G [])) = length (nth j xs [])) ->
  map (fun z => exp ((L (nth j z []) - lam * cost22 (nth j xs []) (nth j z [])) / e) * wt22 s lam G j (nth j xs []) (nth j z [])) zs
  = map (fun z => exp (exponent e lam s (L (nth j z [])) (nth j xs []) (shift lam (nth j G [])) (nth j z []) / e)) zs.
Proof.
  intros Hs He Hl H. apply map_ext_in. intros z Hz. destruct (H z Hz) as [L1 L2]. rewrite cost22_sqdist. unfold wt22. apply weighted_term; assumption.
Qed.
Lemma rw_le rho e lam s L (G xs : list vec) zs (B : nat -> R) : 0 < s -> 0 < e -> 0 < lam -> zs <> [] ->
  (forall j z, (j < length xs)%nat -> In z zs -> length (nth j z []) = length (nth j xs []) /\ length (shift lam (nth j G [])) = length (nth j xs []) /\
     exponent e lam s (L (nth j z [])) (nth j xs []) (shift lam (nth j G [])) (nth j z []) <= B j) ->
  robust_weighted cost22 2 rho e lam L (wt22 s lam G) xs zs <= lam * Rpower rho 2 + rmean (map B (seq 0 (length xs))).
Proof.
  intros Hs He Hl Nz H. unfold robust_weighted. apply Rplus_le_compat_l, rmean_map_le. intros j Hj. apply in_seq in Hj.
  rewrite (rw_terms e lam s L G xs zs j Hs He Hl) by (intros z Hz; destruct (H j z ltac:(lia) Hz) as (A & B' & _); auto).
  apply log_mean_le; [exact He|destruct zs; [contradiction|discriminate]|]. intros x Hx. apply in_map_iff in Hx as (z & <- & Hz).
  destruct (H j z ltac:(lia) Hz) as (_ & _ & Q). split; [apply exp_pos|]. apply exp_mono. apply Rmult_le_compat_r; [left; apply Rinv_0_lt_compat; exact He|exact Q].
Qed.
Lemma rw_eq rho e lam s L (G xs : list vec) zs (B : nat -> R) : 0 < s -> 0 < e -> 0 < lam -> zs <> [] ->
  (forall j z, (j < length xs)%nat -> In z zs -> length (nth j z []) = length (nth j xs []) /\ length (shift lam (nth j G [])) = length (nth j xs []) /\
     exponent e lam s (L (nth j z [])) (nth j xs []) (shift lam (nth j G [])) (nth j z []) = B j) ->
  robust_weighted cost22 2 rho e lam L (wt22 s lam G) xs zs = lam * Rpower rho 2 + rmean (map B (seq 0 (length xs))).
Proof.
  intros Hs He Hl Nz H. unfold robust_weighted. f_equal. f_equal. apply map_ext_in. intros j Hj. apply in_seq in Hj.
  rewrite (rw_terms e lam s L G xs zs j Hs He Hl) by (intros z Hz; destruct (H j z ltac:(lia) Hz) as (A & B' & _); auto).
  apply log_mean_eq; [exact He|destruct zs; [contradiction|discriminate]|]. intros x Hx. apply in_map_iff in Hx as (z & <- & Hz).
  destruct (H j z ltac:(lia) Hz) as (_ & _ & ->). reflexivity.
Qed.

(* displacements *)
Lemma shift_length lam g : length (shift lam g) = length g.
Proof. unfold shift, vscal. apply map_length. Qed.
Lemma shift_norm lam g W : 0 < lam -> 0 < norm2 g -> norm2 g <= W -> norm2 (shift lam g) <= W / (2 * lam).
Proof.
  intros Hl Hg HW. unfold shift. rewrite norm2_vscal. assert (T : 0 < threshold_default) by (unfold threshold_default; lra).
  assert (M : 0 < Rmin threshold_default (norm2 g)) by (apply Rmin_glb_lt; assumption). pose proof (Rmin_r threshold_default (norm2 g)) as Q.
  assert (E : Rmin threshold_default (norm2 g) / norm2 g / lam / 2 * norm2 g = Rmin threshold_default (norm2 g) / (2 * lam)) by (field; lra).
  rewrite Rabs_right; [rewrite E; apply Rmult_le_compat_r; [left; apply Rinv_0_lt_compat; lra|lra]|].
  apply Rle_ge. repeat (apply Rmult_le_pos; [|left; apply Rinv_0_lt_compat; lra]). lra.
Qed.
Lemma shift_small lam g : 0 < lam -> 0 < norm2 g <= threshold_default -> shift lam g = vscal (/ (2 * lam)) g.
Proof. intros Hl [Hg Ht]. unfold shift. f_equal. rewrite Rmin_right by exact Ht. field. lra. Qed.

(* the sampler of an unlabelled problem with the squared Euclidean cost *)
Lemma plain_gaussian pf u d k : dualize pf u = Ok d -> u_labels u = None -> tcost_of (a_cost d) = Some (TNC (PFin 2) 2) ->
  exists sc, cs_data (a_sampler d) = LocScale FNormal (u_xi u) (Fin sc) /\ tsampler_of d k 1 = Some (TPlain (Tensor.batch [length (u_xi u)] k (u_xi u)) sc).
Proof.
  intros Hd Hy Ec. destruct (dualize_cost pf u d Hd) as (c' & Ec' & _ & _ & Sc & _). rewrite Ec' in Ec. injection Ec as ->.
  unfold tsampler_of. unfold dualize in Hd. rewrite Hy in Hd.
  destruct (parse_code_torch _ _ _ _ _ _) as [pc|]; simpl in Hd; [|discriminate]. destruct (cost_from_parse_torch _ _ _) as [cc|]; simpl in Hd; [|discriminate].
  match type of Hd with (do s <- ?x; _) = _ => destruct x as [cs|] eqn:EL end; simpl in Hd; [|discriminate]. injection Hd as <-. cbn [a_cost a_sampler] in *.
  assert (Pp : c_p cc = Fin 2 /\ c_power cc = Fin 2).
  { clear -Ec'. unfold tcost_of in Ec'. destruct (c_p cc) as [q| | |]; cbn [nexp_of] in Ec'; try discriminate; destruct (c_power cc) as [r| | |]; try discriminate; destruct (c_kind cc), (c_kappa cc) as [kk|];
      try (destruct (kap_of kk); discriminate); try discriminate; injection Ec' as E1 E2; subst; split; reflexivity. }
  destruct Pp as [P1 P2]. rewrite P1, P2 in Sc. assert (F2 : family (Fin 2) (Fin 2) = Some FNormal).
  { unfold family, xeq, Reqb. destruct (Req_EM_T 2 1); [lra|]. destruct (Req_EM_T 2 2); [reflexivity|lra]. }
  apply nolabels_inv in EL. destruct EL as (f & Ff & P & Ed & El). rewrite Ed, El. rewrite Sc in Ff. cbn [sc_p sc_power] in Ff. rewrite F2 in Ff. injection Ff as <-.
  eexists. split; reflexivity.
Qed.

Lemma kind_nc pf u d p w : dualize pf u = Ok d -> tcost_of (a_cost d) = Some (TNC p w) -> c_kind (a_cost d) = NC.
Proof. intros Hd E. destruct (dualize_cost pf u d Hd) as (c & Ec & _ & Tk & _). rewrite E in Ec. injection Ec as <-. apply Tk. eauto. Qed.

Lemma imp_value pf u d loss w k L xs rho e lam : trains d loss w k L xs rho -> dualize pf u = Ok d -> u_xi u = xs -> u_labels u = None -> a_imp_samp d = true ->
  tcost_of (a_cost d) = Some (TNC (PFin 2) 2) -> a_epsilon d = Fin e -> e <> 0 -> lam <> 0 ->
  exists s sc, tsampler_of d k 1 = Some s /\ cs_data (a_sampler d) = LocScale FNormal xs (Fin sc) /\
  forall n zs grads, is_grid n (length xs) k zs -> zs <> [] ->
  let value := t_compute_dual loss w (TNC (PFin 2) 2) s grads (dual_of d 2 e lam) (Tensor.batch [length xs] k xs) None (grid n (length xs) k zs) None in
  (forall G, grads (Tensor.batch [length xs] k xs) None = Ok (map (map Fin) G, None) -> length G = length xs -> widths k G -> Forall (Exists (fun a => a <> 0)) G ->
     value = Ok (Scalar (Fin (robust_weighted cost22 2 rho e lam L (wt22 sc lam G) xs (displaced (shift lam) G zs))))) /\
  (forall G, grads (Tensor.batch [length xs] k xs) None = Ok (G, None) -> vanishes lam G -> value = Ok (Scalar (Fin (robust cost22 2 rho e lam L xs zs)))).
Proof.
  intros (c & Ec & T) Hd Hx Hy Hi Ec2 He Ne Nl. rewrite Ec2 in Ec. injection Ec as <-.
  destruct (plain_gaussian pf u d k Hd Hy Ec2) as (sc & Cs & Ts). rewrite Hx in Cs. eexists; exists sc. split; [exact Ts|]. split; [exact Cs|].
  intros n zs grads Gz Nz value. destruct (T n zs e lam grads Gz Nz He Ne) as [T1 _]. destruct (T1 (kind_nc _ _ _ _ _ Hd Ec2)) as (_ & T2 & T3). split.
  - intros G Hg LG WG FG. exact (T2 Hi _ sc G Ts Cs Nl Hg LG WG FG).
  - intros G Hg Hv. exact (T3 Hi _ G Ts Hg Hv).
Qed.

(* bound for a loss with slope at most W *)
Lemma imp_bound rho e lam s L (G xs : list vec) zs n k W : 0 < s -> 0 < e -> 0 < lam -> 0 < rho -> 0 <= W -> zs <> [] -> xs <> [] -> is_grid n (length xs) k zs -> widths k xs -> length G = length xs -> widths k G ->
  Forall (Exists (fun a => a <> 0)) G -> (forall g, In g G -> norm2 g <= W) ->
  (forall x z, In x xs -> length z = k -> L z <= L x + W * norm2 (vsub z x)) ->
  robust_weighted cost22 2 rho e lam L (wt22 s lam G) xs (displaced (shift lam) G zs)
  <= lam * (rho * rho) + rmean (map L xs) + W * W / (4 * lam) * (1 + 3 * tilt e lam s + tilt e lam s * tilt e lam s).
Proof.
  intros Hs He Hl Hr HW Nz Nx Gz Wx LG WG FG BG HL.
  set (K := W * W / (4 * lam) * (1 + 3 * tilt e lam s + tilt e lam s * tilt e lam s)).
  assert (Gd : is_grid n (length xs) k (displaced (shift lam) G zs)).
  { apply displaced_grid; [exact Gz|exact LG|]. intros g Hg. rewrite shift_length. unfold widths in WG. rewrite Forall_forall in WG. apply WG, Hg. }
  eapply Rle_trans; [apply (rw_le rho e lam s L G xs (displaced (shift lam) G zs) (fun j => L (nth j xs []) + K)); auto|].
  - unfold displaced. destruct zs; [contradiction|discriminate].
  - intros j z Hj Hz. destruct Gd as [_ Fd]. rewrite Forall_forall in Fd. destruct (Fd z Hz) as [Lz Wz].
    assert (L1 : length (nth j z []) = k) by (apply Props_Certificate.widths_nth; [exact Wz|unfold vec in *; lia]).
    assert (L2 : length (nth j xs []) = k) by (apply Props_Certificate.widths_nth; assumption).
    assert (Ing : In (nth j G []) G) by (apply nth_In; unfold vec in *; lia).
    assert (L3 : length (shift lam (nth j G [])) = k) by (rewrite shift_length; apply Props_Certificate.widths_nth; [exact WG|unfold vec in *; lia]).
    split; [congruence|]. split; [congruence|]. apply exponent_lipschitz; auto; try congruence.
    + apply HL; [apply nth_In; exact Hj|exact L1].
    + apply shift_norm; [exact Hl| |apply BG, Ing]. rewrite Forall_forall in FG. apply Displace_Proofs.nonzero_norm, FG, Ing.
  - rewrite rpower_2 by exact Hr. rewrite rmean_map_plus, rmean_map_const by (apply seq_ne; destruct xs; [contradiction|cbn; lia]).
    pose proof (mean_seq L xs []) as MS. unfold vec in *. rewrite MS. lra.
Qed.

(* Portfolio *)
Lemma softmax_pos raw v : In v (softmax raw) -> 0 < v.
Proof.
  unfold softmax. intros H. apply in_map_iff in H as (x & <- & Hx). apply Rdiv_lt_0_compat; [apply exp_pos|].
  destruct raw as [|a raw]; [destruct Hx|]. cbn. assert (0 <= rsum (map exp raw)); [|pose proof (exp_pos a); lra].
  clear. induction raw as [|b raw IH]; cbn; [lra|]. pose proof (exp_pos b). lra.
Qed.
Lemma softmax_nonzero raw c : raw <> [] -> c <> 0 -> Exists (fun a => a <> 0) (vscal c (softmax raw)).
Proof.
  intros N Hc. destruct raw as [|a raw]; [contradiction|]. apply Exists_exists. exists (c * hd 0 (softmax (a :: raw))). split; [left; reflexivity|].
  assert (0 < hd 0 (softmax (a :: raw))) by (apply (softmax_pos (a :: raw)); left; reflexivity). intros E. apply Rmult_integral in E. lra.
Qed.
Lemma slope_norm2 w : slope (PFin 2) w (norm2 w).
Proof. intros h Lh. rewrite pnorm_2. apply abs_dot. unfold vec in *. congruence. Qed.
Lemma tilt_half e lam s rho : 2 * s = rho -> 0 < rho -> 0 < lam -> tilt e lam s = 2 * e / (lam * (rho * rho)).
Proof. intros <- H1 H2. unfold tilt. field. lra. Qed.

(* Portfolio: for every draw of the samples the objective is at most the one below; the last factor is 1 without importance sampling *)
Theorem C121_portfolio D pf a X d t raw tau : differentiates D -> pf_dispatch pf a X = Ok (FTorch d t) -> X <> [] -> raw <> [] -> widths (length raw) X -> 0 < pf_rho a -> 0 <= pf_eta a -> 0 < pf_alpha a ->
  (forall x, In x X -> dot (softmax raw) x <> - tau) -> a_imp_samp d = true -> tcost_of (a_cost d) = Some (TNC (PFin 2) 2) -> 0 < pf_solver_reg a ->
  let loss := pfd_call (pf_eta a) (pf_alpha a) raw tau in
  let w := wrapped_of d [[tau]; raw] [] in
  exists s, tsampler_of d (length raw) 1 = Some s /\
  forall n zs lam, 0 < lam -> is_grid n (length X) (length raw) zs -> zs <> [] ->
  let W := (1 + pf_eta a / pf_alpha a) * norm2 (softmax raw) in
  let r := 2 * pf_solver_reg a / (lam * (pf_rho a * pf_rho a)) in
  exists v, t_compute_dual loss w (TNC (PFin 2) 2) s (direction (w_value loss w) D) (dual_of d 2 (pf_solver_reg a) lam) (Tensor.batch [length X] (length raw) X) None (grid n (length X) (length raw) zs) None = Ok (Scalar (Fin v)) /\
    v <= lam * (pf_rho a * pf_rho a) + rmean (map (risk_loss (pf_eta a) (pf_alpha a) (softmax raw) tau) X) + W * W / (4 * lam) * (1 + 3 * r + r * r).
Proof.
  intros HD H Nx Nr Wx Hr Heta Hal N Hi Hc He loss w.
  destruct (C113_portfolio pf a X d t raw tau H Nx Wx Hr) as [_ T]. destruct (pf_dualized _ _ _ _ _ H) as (u & Hu & Ux & Uy).
  destruct (pf_received _ _ _ _ _ H) as (_ & _ & Q). pose proof (r_eps _ _ _ _ _ _ _ _ _ _ _ Q _ eq_refl) as Ee.
  destruct (r_centre _ _ _ _ _ _ _ _ _ _ _ Q) as (f & sc & Cs & Ps & _ & Hs & _). specialize (Hs eq_refl Hr).
  pose proof (C114_portfolio D pf a X d t raw tau HD H Wx N) as Dg.
  destruct (plain_gaussian pf u d (length raw) Hu Uy Hc) as (s1 & C1 & Ts). eexists. split; [exact Ts|].
  intros n zs lam Hl Gz Nz W r.
  destruct (imp_value pf u d loss w (length raw) _ X (pf_rho a) (pf_solver_reg a) lam T Hu Ux Uy Hi Hc Ee ltac:(lra) ltac:(lra)) as (s & sc' & Ts' & Cs' & V).
  rewrite Ts in Ts'. injection Ts' as Ts'. rewrite Cs in Cs'. injection Cs' as _ Cs'. subst sc'.
  destruct (V n zs (direction (w_value loss w) D) Gz Nz) as [V1 _]. rewrite <- Ts' in V1.
  set (G := map (fun x => vscal (if Rlt_dec (dot (softmax raw) x) (- tau) then - 1 - pf_eta a / pf_alpha a else - 1) (softmax raw)) X) in *.
  assert (E1 : 0 <= pf_eta a / pf_alpha a) by (apply Rmult_le_pos; [exact Heta|left; apply Rinv_0_lt_compat; exact Hal]).
  assert (LG : length G = length X) by apply map_length.
  assert (WG : widths (length raw) G) by (apply Forall_map, Forall_forall; intros x _; unfold vscal; rewrite map_length; apply softmax_length).
  assert (FG : Forall (Exists (fun a => a <> 0)) G).
  { apply Forall_map, Forall_forall. intros x _. apply softmax_nonzero; [exact Nr|]. destruct (Rlt_dec _ _); lra. }
  eexists. split; [exact (V1 G Dg LG WG FG)|].
  unfold r. rewrite <- (tilt_half (pf_solver_reg a) lam sc (pf_rho a) Hs Hr Hl). unfold vec in *.
  apply (imp_bound (pf_rho a) (pf_solver_reg a) lam sc (risk_loss (pf_eta a) (pf_alpha a) (softmax raw) tau) G X zs n (length raw) W); auto.
  - unfold W. apply Rmult_le_pos; [lra|apply norm2_nonneg].
  - intros g Hg. apply in_map_iff in Hg as (x & <- & _). rewrite norm2_vscal. unfold W. apply Rmult_le_compat_r; [apply norm2_nonneg|]. destruct (Rlt_dec _ _); [rewrite Rabs_left by lra|rewrite Rabs_left by lra]; lra.
  - intros x z Hx Lz. unfold widths in Wx. rewrite Forall_forall in Wx. pose proof (Wx x Hx) as Lx.
    pose proof (slope_move (PFin 2) (softmax raw) _ x z (slope_norm2 _) ltac:(rewrite softmax_length; exact Lx) ltac:(rewrite softmax_length; exact Lz)) as M.
    rewrite pnorm_2 in M. unfold W, risk_loss. refine (Rle_trans _ _ _ (risk_lip _ _ _ _ _ _ Heta Hal M) _). right. unfold norm2. rewrite sqnorm_vsub_sym. unfold norm2. ring.
Qed.
Print Assumptions C121_portfolio.

(* ---------- affine losses: the exact condition ---------- *)
Lemma same_nth (G : list vec) g j : Forall (eq g) G -> (j < length G)%nat -> nth j G [] = g.
Proof. intros F Hj. rewrite Forall_forall in F. symmetry. apply F, nth_In, Hj. Qed.
Lemma imp_affine_le rho e lam s L (G xs : list vec) zs n k g b : 0 < s -> 0 < e -> 0 < lam -> 0 < rho -> zs <> [] -> xs <> [] -> is_grid n (length xs) k zs -> widths k xs ->
  length G = length xs -> Forall (eq g) G -> length g = k -> 0 < norm2 g <= threshold_default -> (forall z, L z = affine g b z) ->
  let a := tilt e lam s in
  robust_weighted cost22 2 rho e lam L (wt22 s lam G) xs (displaced (shift lam) G zs) <= lam * (rho * rho) + rmean (map (fun x => L x + sqnorm g / (4 * lam) * (1 - a + a * a)) xs).
Proof.
  intros Hs He Hl Hr Nz Nx Gz Wx LG FG Lg Ng HL a.
  assert (Gd : is_grid n (length xs) k (displaced (shift lam) G zs)).
  { apply displaced_grid; [exact Gz|exact LG|]. intros g' Hg. rewrite shift_length. rewrite Forall_forall in FG. rewrite <- (FG _ Hg). exact Lg. }
  pose proof (mean_seq (fun x => L x + sqnorm g / (4 * lam) * (1 - a + a * a)) xs []) as MS. unfold vec in *. rewrite <- MS, <- rpower_2 by exact Hr.
  apply (rw_le rho e lam s L G xs (displaced (shift lam) G zs) (fun j => L (nth j xs []) + sqnorm g / (4 * lam) * (1 - a + a * a))); auto.
  - unfold displaced. destruct zs; [contradiction|discriminate].
  - intros j z Hj Hz. destruct Gd as [_ Fd]. rewrite Forall_forall in Fd. destruct (Fd z Hz) as [Lz Wz].
    assert (L1 : length (nth j z []) = k) by (apply Props_Certificate.widths_nth; [exact Wz|unfold vec in *; lia]).
    assert (L2 : length (nth j xs []) = k) by (apply Props_Certificate.widths_nth; assumption).
    rewrite (same_nth G g j FG) by (unfold vec in *; lia). rewrite shift_length. split; [unfold vec in *; congruence|]. split; [unfold vec in *; congruence|].
    rewrite (shift_small lam g Hl Ng), !HL. rewrite exponent_affine by (auto; unfold vec in *; congruence). fold a.
    pose proof (sqnorm_nonneg (vsub (vsub (nth j z []) (nth j xs [])) (vscal ((1 - a) / (2 * lam)) g))) as S0. unfold vec in *. nra.
Qed.

(* draws that attain it *)
Definition attaining (lam a : R) (g : vec) (xs : list vec) : list vec := map (fun x => vadd x (vscal (- a / (2 * lam)) g)) xs.
Lemma attaining_moved lam a g (xs G : list vec) k : 0 < lam -> length G = length xs -> Forall (eq g) G -> length g = k -> 0 < norm2 g <= threshold_default -> widths k xs ->
  map2 (fun v g => vadd v (shift lam g)) (attaining lam a g xs) G = map (fun x => vadd x (vscal ((1 - a) / (2 * lam)) g)) xs.
Proof.
  intros Hl LG FG Lg Ng Wx. unfold attaining, widths in *. revert G LG FG. induction Wx as [|x xs Lx Wx IH]; intros [|g' G] LG FG; try discriminate; [reflexivity|].
  inversion FG; subst. cbn [map map2]. f_equal; [|apply IH; [injection LG; auto|assumption]].
  rewrite shift_small by assumption. clear -Lx Hl. revert g' Lx. induction x as [|v x IH]; intros [|c g] Lx; try discriminate; [reflexivity|].
  unfold vadd, vscal in *. cbn [map map2]. f_equal; [field; lra|]. apply IH. injection Lx; auto.
Qed.
Lemma imp_affine_eq rho e lam s L (G xs : list vec) n k g b : 0 < s -> 0 < e -> 0 < lam -> 0 < rho -> (0 < n)%nat -> xs <> [] -> widths k xs ->
  length G = length xs -> Forall (eq g) G -> length g = k -> 0 < norm2 g <= threshold_default -> (forall z, L z = affine g b z) ->
  let a := tilt e lam s in
  let zs := repeat (attaining lam a g xs) n in
  is_grid n (length xs) k zs /\ zs <> [] /\
  robust_weighted cost22 2 rho e lam L (wt22 s lam G) xs (displaced (shift lam) G zs) = lam * (rho * rho) + rmean (map (fun x => L x + sqnorm g / (4 * lam) * (1 - a + a * a)) xs).
Proof.
  intros Hs He Hl Hr Hn Nx Wx LG FG Lg Ng HL a zs.
  assert (Lv : forall x c, length x = k -> length (vadd x (vscal c g)) = k) by (intros x c Lx; unfold vec in *; rewrite vadd_length; [exact Lx|]; rewrite vscal_length; congruence).
  assert (Gz : is_grid n (length xs) k zs).
  { split; [apply repeat_length|]. apply Forall_forall. intros z Hz. apply repeat_spec in Hz as ->. split; [apply map_length|]. apply Forall_map. eapply Forall_impl; [|exact Wx]. intros x Lx. apply Lv, Lx. }
  assert (Nz : zs <> []) by (unfold zs; destruct n; [lia|discriminate]).
  split; [exact Gz|]. split; [exact Nz|].
  pose proof (mean_seq (fun x => L x + sqnorm g / (4 * lam) * (1 - a + a * a)) xs []) as MS. unfold vec in *. rewrite <- MS, <- rpower_2 by exact Hr.
  apply (rw_eq rho e lam s L G xs (displaced (shift lam) G zs) (fun j => L (nth j xs []) + sqnorm g / (4 * lam) * (1 - a + a * a))); auto.
  - unfold displaced. destruct zs; [contradiction|discriminate].
  - intros j z Hj Hz. unfold displaced in Hz. apply in_map_iff in Hz as (z0 & <- & Hz). apply repeat_spec in Hz as ->.
    rewrite (attaining_moved lam a g xs G k) by assumption.
    assert (L2 : length (nth j xs []) = k) by (apply Props_Certificate.widths_nth; assumption).
    assert (En : nth j (map (fun x => vadd x (vscal ((1 - a) / (2 * lam)) g)) xs) [] = vadd (nth j xs []) (vscal ((1 - a) / (2 * lam)) g)) by (apply (nth_map (fun x => vadd x (vscal ((1 - a) / (2 * lam)) g))); exact Hj).
    pose proof (same_nth G g j FG ltac:(unfold vec in *; lia)) as SG. unfold vec in *. rewrite En, SG. rewrite shift_length. split; [rewrite Lv by exact L2; congruence|]. split; [congruence|].
    rewrite (shift_small lam g Hl Ng), !HL. rewrite exponent_affine by (auto; unfold vec in *; rewrite ?Lv; congruence). fold a.
    assert (Z : vsub (vsub (vadd (nth j xs []) (vscal ((1 - a) / (2 * lam)) g)) (nth j xs [])) (vscal ((1 - a) / (2 * lam)) g) = map (fun _ => 0) g).
    { revert L2. clear -Lg. generalize (nth j xs []). intros x Lx. clear -Lx Lg. rewrite <- Lg in Lx. clear Lg. revert g Lx. induction x as [|v x IH]; intros [|c g] Lx; try discriminate; [reflexivity|].
      unfold vsub, vadd, vscal in *. cbn [map map2]. f_equal; [ring|]. apply IH. injection Lx; auto. }
    rewrite Z. assert (S0 : sqnorm (map (fun _ => 0) g) = 0).
    { clear. unfold sqnorm, dot. induction g as [|c g IH]; cbn; [reflexivity|]. cbn in IH. rewrite IH. ring. }
    rewrite S0. ring.
Qed.

(* the exact worst case of an affine loss at lam *)
Lemma affine_worst lam g b k x : 0 < lam -> length g = k -> length x = k -> worst_value lam (affine g b) k x (affine g b x + sqnorm g / (4 * lam)).
Proof.
  intros Hl Lg Lx. split.
  - intros z Lz. assert (Lu : length (vsub z x) = length g) by (unfold vec in *; rewrite vsub_length; congruence).
    unfold sqdist, affine. rewrite sqnorm_vsub_sym. assert (Ez : dot g z = dot g x + dot (vsub z x) g).
    { rewrite dot_vsub_l by congruence. rewrite (dot_comm z g), (dot_comm x g). ring. }
    pose proof (sqnorm_nonneg (vsub (vsub z x) (vscal (/ (2 * lam)) g))) as S0.
    rewrite sqnorm_vsub in S0 by (rewrite vscal_length; exact Lu). rewrite sqnorm_vscal, dot_vscal_r in S0. rewrite Ez.
    apply Rmult_le_compat_l with (r := lam) in S0; [|lra]. rewrite Rmult_0_r in S0.
    replace (lam * (sqnorm (vsub z x) - 2 * (/ (2 * lam) * dot (vsub z x) g) + / (2 * lam) * / (2 * lam) * sqnorm g))
      with (lam * sqnorm (vsub z x) - dot (vsub z x) g + sqnorm g / (4 * lam)) in S0 by (field; lra). lra.
  - exists (vadd x (vscal (/ (2 * lam)) g)). assert (Lc : length (vscal (/ (2 * lam)) g) = length x) by (rewrite vscal_length; congruence).
    split; [unfold vec in *; rewrite vadd_length; congruence|]. unfold sqdist, affine. rewrite sqnorm_vsub_sym.
    assert (Z : vsub (vadd x (vscal (/ (2 * lam)) g)) x = vscal (/ (2 * lam)) g).
    { clear -Lc. revert Lc. generalize (vscal (/ (2 * lam)) g). intros y. revert y. induction x as [|v x IH]; intros [|c y] Lc; try discriminate; [reflexivity|].
      unfold vsub, vadd in *. cbn [map2]. f_equal; [ring|]. apply IH. injection Lc; auto. }
    rewrite Z, sqnorm_vscal. rewrite (dot_comm g), dot_vadd_l by congruence. rewrite dot_vscal_l, (dot_comm x g). fold (sqnorm g). field. lra.
Qed.

Lemma rsum_div l c : rsum (map (fun a => a / c) l) = rsum l / c.
Proof. induction l as [|x l IH]; cbn; [unfold Rdiv; ring|]. rewrite IH. unfold Rdiv. ring. Qed.
Lemma softmax_sum raw : raw <> [] -> rsum (softmax raw) = 1.
Proof.
  intros N. assert (P : 0 < rsum (map exp raw)).
  { destruct raw as [|a raw]; [contradiction|]. cbn. assert (0 <= rsum (map exp raw)); [|pose proof (exp_pos a); lra]. clear. induction raw as [|b raw IH]; cbn; [lra|]. pose proof (exp_pos b). lra. }
  unfold softmax. rewrite <- (map_map exp (fun a => a / rsum (map exp raw))), rsum_div. field. lra.
Qed.
Lemma sqnorm_le_sum w : (forall v, In v w -> 0 < v) -> sqnorm w <= rsum w * rsum w /\ 0 <= rsum w.
Proof.
  intros H. induction w as [|a w IH]; [unfold sqnorm, dot; cbn; lra|]. rewrite sqnorm_cons'. cbn [rsum].
  destruct IH as [I1 I2]; [intros; apply H; right; assumption|]. assert (0 < a) by (apply H; left; reflexivity). split; [nra|lra].
Qed.
Lemma softmax_norm raw : raw <> [] -> 0 < norm2 (softmax raw) <= 1.
Proof.
  intros N. split.
  - apply Displace_Proofs.nonzero_norm. replace (softmax raw) with (vscal 1 (softmax raw)); [apply softmax_nonzero; [exact N|lra]|]. unfold vscal. rewrite <- (map_id (softmax raw)) at 2. apply map_ext. intros; ring.
  - destruct (sqnorm_le_sum (softmax raw) (softmax_pos raw)) as [Q _]. rewrite softmax_sum in Q by exact N. unfold norm2. rewrite <- sqrt_1. apply sqrt_le_1_alt. lra.
Qed.

(* Portfolio without the risk term (eta = 0, the default): the objective stays below the exact worst case at the multiplier lam, for
   every number and every position of the samples, exactly when lam rho^2 >= 2 epsilon. *)
Theorem C121_portfolio_iff D pf a X d t raw tau lam : differentiates D -> pf_dispatch pf a X = Ok (FTorch d t) -> X <> [] -> raw <> [] -> widths (length raw) X -> 0 < pf_rho a -> pf_eta a = 0 -> 0 < lam ->
  (forall x, In x X -> dot (softmax raw) x <> - tau) -> a_imp_samp d = true -> tcost_of (a_cost d) = Some (TNC (PFin 2) 2) -> 0 < pf_solver_reg a ->
  let loss := pfd_call (pf_eta a) (pf_alpha a) raw tau in
  let w := wrapped_of d [[tau]; raw] [] in
  let worst x := - dot (softmax raw) x + sqnorm (softmax raw) / (4 * lam) in
  (forall x, In x X -> worst_value lam (fun z => - dot (softmax raw) z) (length raw) x (worst x)) /\
  exists s, tsampler_of d (length raw) 1 = Some s /\
  ((forall n zs v, is_grid n (length X) (length raw) zs -> zs <> [] ->
      t_compute_dual loss w (TNC (PFin 2) 2) s (direction (w_value loss w) D) (dual_of d 2 (pf_solver_reg a) lam) (Tensor.batch [length X] (length raw) X) None (grid n (length X) (length raw) zs) None = Ok (Scalar (Fin v)) ->
      v <= lam * (pf_rho a * pf_rho a) + rmean (map worst X))
   <-> 2 * pf_solver_reg a <= lam * (pf_rho a * pf_rho a)).
Proof.
  intros HD H Nx Nr Wx Hr Heta Hl N Hi Hc He loss w worst.
  set (g := vscal (-1) (softmax raw)). assert (Lg : length g = length raw) by (unfold g; rewrite vscal_length; apply softmax_length).
  destruct (softmax_norm raw Nr) as [Np N1].
  assert (Ng : 0 < norm2 g <= threshold_default) by (unfold g, threshold_default; rewrite norm2_vscal, Rabs_left by lra; lra).
  assert (Sg : sqnorm g = sqnorm (softmax raw)) by (unfold g; rewrite sqnorm_vscal; ring).
  assert (Pg : 0 < sqnorm (softmax raw)) by (rewrite sqnorm_sq; apply Rmult_lt_0_compat; exact Np).
  assert (HA : forall z, - dot (softmax raw) z = affine g 0 z) by (intros z; unfold affine, g; rewrite dot_vscal_l; ring).
  assert (HL : forall z, risk_loss (pf_eta a) (pf_alpha a) (softmax raw) tau z = affine g 0 z) by (intros z; rewrite <- HA; unfold risk_loss; rewrite Heta; ring).
  split.
  { intros x Hx. unfold widths in Wx. rewrite Forall_forall in Wx. pose proof (affine_worst lam g 0 (length raw) x Hl Lg (Wx x Hx)) as [A1 A2].
    unfold worst. rewrite HA. rewrite <- Sg. split; [intros z Lz; rewrite HA; apply A1, Lz|]. destruct A2 as (z & Lz & Ez). exists z. rewrite HA. auto. }
  destruct (C113_portfolio pf a X d t raw tau H Nx Wx Hr) as [_ T]. destruct (pf_dualized _ _ _ _ _ H) as (u & Hu & Ux & Uy).
  destruct (pf_received _ _ _ _ _ H) as (_ & _ & Q). pose proof (r_eps _ _ _ _ _ _ _ _ _ _ _ Q _ eq_refl) as Ee.
  destruct (r_centre _ _ _ _ _ _ _ _ _ _ _ Q) as (f & sc & Cs & Ps & _ & Hs & _). specialize (Hs eq_refl Hr).
  pose proof (C114_portfolio D pf a X d t raw tau HD H Wx N) as Dg.
  destruct (plain_gaussian pf u d (length raw) Hu Uy Hc) as (s1 & C1 & Ts). eexists. split; [exact Ts|].
  destruct (imp_value pf u d loss w (length raw) _ X (pf_rho a) (pf_solver_reg a) lam T Hu Ux Uy Hi Hc Ee ltac:(lra) ltac:(lra)) as (s & sc' & Ts' & Cs' & V).
  rewrite Ts in Ts'. injection Ts' as Ts'. rewrite Cs in Cs'. injection Cs' as _ Cs'. subst sc'. rewrite <- Ts' in V.
  set (G := map (fun x => vscal (if Rlt_dec (dot (softmax raw) x) (- tau) then - 1 - pf_eta a / pf_alpha a else - 1) (softmax raw)) X) in *.
  assert (LG : length G = length X) by apply map_length.
  assert (FE : Forall (eq g) G).
  { apply Forall_map, Forall_forall. intros x _. unfold g. f_equal. destruct (Rlt_dec _ _); [rewrite Heta; unfold Rdiv; ring|ring]. }
  assert (WG : widths (length raw) G) by (unfold widths; eapply Forall_impl; [|exact FE]; intros x <-; exact Lg).
  assert (FG : Forall (Exists (fun a => a <> 0)) G).
  { eapply Forall_impl; [|exact FE]. intros x <-. apply softmax_nonzero; [exact Nr|lra]. }
  assert (V' : forall n zs, is_grid n (length X) (length raw) zs -> zs <> [] -> _) by (intros n zs Gz Nz; exact (proj1 (V n zs (direction (w_value loss w) D) Gz Nz) G Dg LG WG FG)).
  clear V. set (al := tilt (pf_solver_reg a) lam sc). assert (Ea : al = 2 * pf_solver_reg a / (lam * (pf_rho a * pf_rho a))) by (apply tilt_half; assumption).
  assert (Pr : 0 < lam * (pf_rho a * pf_rho a)) by (apply Rmult_lt_0_compat; [|apply Rmult_lt_0_compat]; assumption).
  assert (Pa : 0 < al) by (rewrite Ea; apply Rdiv_lt_0_compat; lra).
  assert (Ia : al <= 1 <-> 2 * pf_solver_reg a <= lam * (pf_rho a * pf_rho a)).
  { rewrite Ea. split; intros K.
    - apply Rmult_le_compat_r with (r := lam * (pf_rho a * pf_rho a)) in K; [|lra]. unfold Rdiv in K. rewrite Rmult_assoc, Rinv_l in K; lra.
    - apply Rmult_le_reg_r with (lam * (pf_rho a * pf_rho a)); [lra|]. unfold Rdiv. rewrite Rmult_assoc, Rinv_l; lra. }
  rewrite <- Ia. set (K := sqnorm (softmax raw) / (4 * lam)). assert (PK : 0 < K) by (apply Rdiv_lt_0_compat; lra).
  set (L := risk_loss (pf_eta a) (pf_alpha a) (softmax raw) tau) in *.
  assert (Mw : rmean (map worst X) = rmean (map L X) + K).
  { rewrite <- (rmean_map_const K X Nx), <- rmean_map_plus. f_equal. apply map_ext. intros x. unfold worst, K. rewrite HL, HA. reflexivity. }
  assert (Mb : rmean (map (fun x => L x + sqnorm g / (4 * lam) * (1 - al + al * al)) X) = rmean (map L X) + K * (1 - al + al * al)).
  { rewrite <- (rmean_map_const (K * (1 - al + al * al)) X Nx), <- rmean_map_plus. f_equal. apply map_ext. intros x. unfold K. rewrite Sg. reflexivity. }
  split.
  - intros B. destruct (imp_affine_eq (pf_rho a) (pf_solver_reg a) lam sc L G X 1 (length raw) g 0 Ps He Hl Hr ltac:(lia) Nx Wx LG FE Lg Ng HL) as (Gz & Nz & Ev).
    specialize (B _ _ _ Gz Nz (V' _ _ Gz Nz)). fold al in Ev, B. unfold vec in *. rewrite Ev, Mb, Mw in B. clear -B PK Pa.
    destruct (Rle_dec al 1) as [|C]; [assumption|]. assert (0 < K * (al * (al - 1))) by (apply Rmult_lt_0_compat; [exact PK|apply Rmult_lt_0_compat; lra]). lra.
  - intros La n zs v Gz Nz Ev. unfold vec in *. rewrite (V' n zs Gz Nz) in Ev. injection Ev as <-.
    pose proof (imp_affine_le (pf_rho a) (pf_solver_reg a) lam sc L G X zs n (length raw) g 0 Ps He Hl Hr Nz Nx Gz Wx LG FE Lg Ng HL) as B. cbv zeta in B. fold al in B. unfold vec in *.
    rewrite Mb in B. rewrite Mw. assert (0 <= K * (al * (1 - al))) by (apply Rmult_le_pos; [lra|apply Rmult_le_pos; lra]). lra.
Qed.
Print Assumptions C121_portfolio_iff.

(* ---------- NewsVendor ---------- *)
Definition nv_loss (k u theta : R) (x : vec) : R := k * theta - u * Rmin theta (hd 0 x).
Lemma nv_lipschitz k u theta x y : 0 <= u -> nv_loss k u theta [y] <= nv_loss k u theta [x] + u * norm2 (vsub [y] [x]).
Proof.
  intros Hu. unfold nv_loss. cbn [hd vsub map2]. change (vsub [y] [x]) with [y - x]. rewrite Props_DedProg.norm2_single.
  assert (Rmin theta x <= Rmin theta y + Rabs (y - x)); [|nra].
  pose proof (Rabs_pos (y - x)). pose proof (Rle_abs (- (y - x))) as Q. rewrite Rabs_Ropp in Q. unfold Rmin. destruct (Rle_dec theta x), (Rle_dec theta y); lra.
Qed.
Lemma vec1 (x : vec) : length x = 1%nat -> x = [hd 0 x].
Proof. destruct x as [|v [|]]; try discriminate. reflexivity. Qed.

Lemma nv_imp_value D pf a X d t theta : differentiates D -> nv_dispatch pf a X = Ok (FTorch d t) -> X <> [] -> 0 < nv_rho a -> 0 <= nv_u a -> (forall r, In r X -> rmean r <> theta) ->
  a_imp_samp d = true -> tcost_of (a_cost d) = Some (TNC (PFin 2) 2) -> 0 < nv_solver_reg a ->
  let loss := nvd_call (nv_k a) (nv_u a) theta in
  let w := wrapped_of d [[theta]] [] in
  let xs := map (fun r => [rmean r]) X in
  let L := nv_loss (nv_k a) (nv_u a) theta in
  let G := map (fun _ => [- nv_u a]) X in
  exists s sc, tsampler_of d 1 1 = Some s /\ 0 < sc /\ 2 * sc = nv_rho a /\
  forall n zs lam, 0 < lam -> is_grid n (length xs) 1 zs -> zs <> [] ->
  exists v, t_compute_dual loss w (TNC (PFin 2) 2) s (direction (w_value loss w) D) (dual_of d 2 (nv_solver_reg a) lam) (Tensor.batch [length xs] 1 xs) None (grid n (length xs) 1 zs) None = Ok (Scalar (Fin v)) /\
    ((0 < nv_u a /\ Forall (fun r => rmean r < theta) X -> v = robust_weighted cost22 2 (nv_rho a) (nv_solver_reg a) lam L (wt22 sc lam G) xs (displaced (shift lam) G zs)) /\
     (~ (0 < nv_u a /\ Forall (fun r => rmean r < theta) X) -> v = robust cost22 2 (nv_rho a) (nv_solver_reg a) lam L xs zs)).
Proof.
  intros HD H Nx Hr Hu N Hi Hc He loss w xs L G.
  destruct (C113_newsvendor pf a X d t theta H Nx Hr) as [_ T]. destruct (nv_dualized _ _ _ _ _ H) as (u & Hd & Ux & Uy). fold xs in Ux.
  destruct (nv_received _ _ _ _ _ H) as (_ & _ & Q). pose proof (r_eps _ _ _ _ _ _ _ _ _ _ _ Q _ eq_refl) as Ee.
  destruct (r_centre _ _ _ _ _ _ _ _ _ _ _ Q) as (f & sc & Cs & Ps & _ & Hs & _). specialize (Hs eq_refl Hr).
  pose proof (C114_newsvendor D pf a X d t theta HD H N) as Dg.
  destruct (plain_gaussian pf u d 1 Hd Uy Hc) as (s1 & C1 & Ts). eexists. exists sc. split; [exact Ts|]. split; [exact Ps|]. split; [exact Hs|].
  intros n zs lam Hl Gz Nz.
  destruct (imp_value pf u d loss w 1 _ xs (nv_rho a) (nv_solver_reg a) lam T Hd Ux Uy Hi Hc Ee ltac:(lra) ltac:(lra)) as (s & sc' & Ts' & Cs' & V).
  rewrite Ts in Ts'. injection Ts' as Ts'. rewrite Cs in Cs'. injection Cs' as _ Cs'. subst sc'.
  destruct (V n zs (direction (w_value loss w) D) Gz Nz) as [V1 V2]. rewrite <- Ts' in V1, V2.
  assert (Lx : length xs = length X) by apply map_length.
  assert (Dec : (0 < nv_u a /\ Forall (fun r => rmean r < theta) X) \/ (~ (0 < nv_u a /\ Forall (fun r => rmean r < theta) X) /\ (nv_u a = 0 \/ exists r, In r X /\ theta < rmean r))).
  { destruct (Rlt_dec 0 (nv_u a)) as [P|P]; [|right; split; [tauto|left; lra]].
    destruct (Forall_Exists_dec (fun r => rmean r < theta) (fun r => Rlt_dec (rmean r) theta) X) as [F|F]; [left; auto|right].
    split; [intros [_ F']; rewrite Exists_exists in F; destruct F as (r & I & B); rewrite Forall_forall in F'; exact (B (F' r I))|].
    right. rewrite Exists_exists in F. destruct F as (r & I & B). exists r. split; [exact I|]. specialize (N r I). lra. }
  destruct Dec as [[P F]|[NF Dec]].
  - eexists. split; [|split; [intros _; reflexivity|intros K; exfalso; apply K; split; assumption]].
    assert (EG : map (fun r => [if Rlt_dec (rmean r) theta then - nv_u a else 0]) X = G).
    { apply map_ext_in. intros r Ir. rewrite Forall_forall in F. specialize (F r Ir). destruct (Rlt_dec _ _); [reflexivity|contradiction]. }
    rewrite EG in Dg. rewrite <- Lx in Dg. apply V1; [exact Dg|unfold G; rewrite map_length; symmetry; exact Lx| |].
    + apply Forall_map, Forall_forall. intros r _. reflexivity.
    + apply Forall_map, Forall_forall. intros r _. apply Exists_cons_hd. lra.
  - eexists. split; [|split; [intros K; contradiction|intros _; reflexivity]].
    rewrite <- Lx in Dg. apply (V2 _ Dg).
    assert (R : exists r, In r X /\ (if Rlt_dec (rmean r) theta then - nv_u a else 0) = 0).
    { destruct Dec as [E|(r & I & B)]; [|exists r; split; [exact I|]; destruct (Rlt_dec _ _); lra]. destruct X as [|r X']; [contradiction|]. exists r. split; [left; reflexivity|]. destruct (Rlt_dec _ _); lra. }
    destruct R as (r & I & B). exists [Fin 0]. split; [|split; [discriminate|right; exists [0]; split; [reflexivity|repeat constructor]]].
    rewrite map_map. apply in_map_iff. exists r. split; [cbn; rewrite B; reflexivity|exact I].
Qed.

Lemma nv_plain_le a theta lam X zs n : 0 < lam -> 0 <= nv_u a -> 0 < nv_solver_reg a -> 0 < nv_rho a -> X <> [] -> zs <> [] ->
  let xs := map (fun r => [rmean r]) X in
  let L := nv_loss (nv_k a) (nv_u a) theta in
  is_grid n (length xs) 1 zs ->
  robust cost22 2 (nv_rho a) (nv_solver_reg a) lam L xs zs <= lam * (nv_rho a * nv_rho a) + rmean (map (fun x => L x + nv_u a * nv_u a / (4 * lam)) xs).
Proof.
  intros Hl Hu He Hr Nx Nz xs L Gz.
  pose proof (mean_seq (fun x => L x + nv_u a * nv_u a / (4 * lam)) xs []) as MS. unfold vec in *. rewrite <- MS, <- rpower_2 by exact Hr.
  apply (robust_le _ _ _ _ _ _ _ _ (fun j => L (nth j xs []) + nv_u a * nv_u a / (4 * lam))); auto.
  intros j z Hj Hz. destruct Gz as [_ Fd]. rewrite Forall_forall in Fd. destruct (Fd z Hz) as [Lz Wz].
  assert (L1 : length (nth j z []) = 1%nat) by (apply Props_Certificate.widths_nth; [exact Wz|unfold vec in *; lia]).
  assert (L2 : length (nth j xs []) = 1%nat).
  { apply Props_Certificate.widths_nth; [|exact Hj]. apply Forall_map, Forall_forall. intros r _. reflexivity. }
  rewrite (vec1 _ L1), (vec1 _ L2). set (y := hd 0 (nth j z [])). set (x := hd 0 (nth j xs [])). rewrite cost22_sqdist.
  pose proof (nv_lipschitz (nv_k a) (nv_u a) theta x y Hu) as Q. change (vsub [y] [x]) with [y - x] in Q. rewrite Props_DedProg.norm2_single in Q.
  assert (Sq : sqdist [x] [y] = Rabs (y - x) * Rabs (y - x)).
  { unfold sqdist. change (vsub [x] [y]) with [x - y]. unfold sqnorm, dot. cbn. rewrite <- Rabs_mult, Rabs_right by (apply Rle_ge, Rle_0_sqr). ring. }
  rewrite Sq. pose proof (quad_max (nv_u a) lam (Rabs (y - x)) Hl) as B. unfold L in *. lra.
Qed.

(* for every draw *)
Theorem C121_newsvendor D pf a X d t theta : differentiates D -> nv_dispatch pf a X = Ok (FTorch d t) -> X <> [] -> 0 < nv_rho a -> 0 <= nv_u a -> (forall r, In r X -> rmean r <> theta) ->
  a_imp_samp d = true -> tcost_of (a_cost d) = Some (TNC (PFin 2) 2) -> 0 < nv_solver_reg a ->
  let loss := nvd_call (nv_k a) (nv_u a) theta in
  let w := wrapped_of d [[theta]] [] in
  let xs := map (fun r => [rmean r]) X in
  exists s, tsampler_of d 1 1 = Some s /\
  forall n zs lam, 0 < lam -> is_grid n (length xs) 1 zs -> zs <> [] ->
  let r := 2 * nv_solver_reg a / (lam * (nv_rho a * nv_rho a)) in
  exists v, t_compute_dual loss w (TNC (PFin 2) 2) s (direction (w_value loss w) D) (dual_of d 2 (nv_solver_reg a) lam) (Tensor.batch [length xs] 1 xs) None (grid n (length xs) 1 zs) None = Ok (Scalar (Fin v)) /\
    v <= lam * (nv_rho a * nv_rho a) + rmean (map (fun x => nv_k a * theta - nv_u a * Rmin theta (rmean x)) X) + nv_u a * nv_u a / (4 * lam) * (1 + 3 * r + r * r) /\
    (r + r * r <= 1 -> v <= lam * (nv_rho a * nv_rho a) + rmean (map (fun x => nv_k a * theta - nv_u a * Rmin theta (rmean x)) X) + nv_u a * nv_u a / (4 * lam)).
Proof.
  intros HD H Nx Hr Hu N Hi Hc He loss w xs.
  destruct (nv_imp_value D pf a X d t theta HD H Nx Hr Hu N Hi Hc He) as (s & sc & Ts & Ps & Hs & V). exists s. split; [exact Ts|].
  intros n zs lam Hl Gz Nz r. destruct (V n zs lam Hl Gz Nz) as (v & Ev & V1 & V2). exists v. split; [exact Ev|].
  set (L := nv_loss (nv_k a) (nv_u a) theta) in *. set (G := map (fun _ => [- nv_u a]) X) in *. set (K := nv_u a * nv_u a / (4 * lam)).
  assert (Er : r = tilt (nv_solver_reg a) lam sc) by (symmetry; apply tilt_half; assumption).
  assert (Nxs : xs <> []) by (unfold xs; destruct X; [contradiction|discriminate]).
  assert (EM : rmean (map (fun x => nv_k a * theta - nv_u a * Rmin theta (rmean x)) X) = rmean (map L xs)) by (unfold xs; rewrite map_map; reflexivity).
  rewrite EM. assert (EK : forall c, rmean (map (fun x => L x + c) xs) = rmean (map L xs) + c) by (intros c; rewrite rmean_map_plus, rmean_map_const by exact Nxs; reflexivity).
  assert (PK : 0 <= K) by (apply Rmult_le_pos; [apply Rmult_le_pos; exact Hu|left; apply Rinv_0_lt_compat; lra]).
  assert (Pr : 0 < r) by (unfold r; apply Rdiv_lt_0_compat; [lra|]; apply Rmult_lt_0_compat; [|apply Rmult_lt_0_compat]; assumption). clearbody r.
  destruct (Rlt_dec 0 (nv_u a)) as [P|P]; [destruct (Forall_Exists_dec (fun r => rmean r < theta) (fun r => Rlt_dec (rmean r) theta) X) as [F|F]|].
  2,3: (rewrite V2 by (intros [P' F']; try contradiction; rewrite Exists_exists in F; destruct F as (x & I & B); rewrite Forall_forall in F'; exact (B (F' x I)));
        pose proof (nv_plain_le a theta lam X zs n Hl Hu He Hr Nx Nz Gz) as B; cbv zeta in B; fold xs in B; fold L in B; rewrite EK in B; fold K in B;
        split; [refine (Rle_trans _ _ _ B _); assert (0 <= K * (3 * r + r * r)) by (apply Rmult_le_pos; [exact PK|pose proof (Rmult_lt_0_compat _ _ Pr Pr); lra]); lra|intros _; refine (Rle_trans _ _ _ B _); lra]).
  rewrite V1 by (split; assumption).
  assert (LG : length G = length xs) by (unfold G, xs; rewrite !map_length; reflexivity).
  assert (WG : widths 1 G) by (apply Forall_map, Forall_forall; intros x _; reflexivity).
  assert (FG : Forall (Exists (fun a => a <> 0)) G) by (apply Forall_map, Forall_forall; intros x _; apply Exists_cons_hd; lra).
  assert (Wx : widths 1 xs) by (apply Forall_map, Forall_forall; intros x _; reflexivity).
  assert (BG : forall g, In g G -> norm2 g <= nv_u a).
  { intros g Hg. apply in_map_iff in Hg as (x & <- & _). rewrite Props_DedProg.norm2_single, Rabs_left by lra. lra. }
  split.
  - rewrite Er. unfold K. apply (imp_bound (nv_rho a) (nv_solver_reg a) lam sc L G xs zs n 1 (nv_u a)); auto.
    intros x z Hx Lz. unfold widths in Wx. rewrite Forall_forall in Wx. rewrite (vec1 _ Lz), (vec1 _ (Wx x Hx)). apply nv_lipschitz, Hu.
  - intros Hrr. rewrite Rplus_assoc, <- EK.
    assert (Gd : is_grid n (length xs) 1 (displaced (shift lam) G zs)).
    { apply displaced_grid; [exact Gz|exact LG|]. intros g' Hg. rewrite shift_length. unfold widths in WG. rewrite Forall_forall in WG. apply WG, Hg. }
    pose proof (mean_seq (fun x => L x + K) xs []) as MS. unfold vec in *. rewrite <- MS, <- rpower_2 by exact Hr.
    apply (rw_le (nv_rho a) (nv_solver_reg a) lam sc L G xs (displaced (shift lam) G zs) (fun j => L (nth j xs []) + K)); auto.
    + unfold displaced. destruct zs; [contradiction|discriminate].
    + intros j z Hj Hz. destruct Gd as [_ Fd]. rewrite Forall_forall in Fd. destruct (Fd z Hz) as [Lz Wz].
      assert (L1 : length (nth j z []) = 1%nat) by (apply Props_Certificate.widths_nth; [exact Wz|unfold vec in *; lia]).
      assert (L2 : length (nth j xs []) = 1%nat) by (apply Props_Certificate.widths_nth; assumption).
      assert (Hx : hd 0 (nth j xs []) < theta).
      { assert (In (nth j xs []) xs) as I by (apply nth_In; exact Hj). unfold xs in I at 2. apply in_map_iff in I as (x & <- & Ix). rewrite Forall_forall in F. exact (F x Ix). }
      assert (Gj : nth j G [] = [- nv_u a]).
      { assert (In (nth j G []) G) as I by (apply nth_In; unfold vec in *; lia). unfold G in I at 2. apply in_map_iff in I as (x & <- & _). reflexivity. }
      unfold vec in *. rewrite Gj, (vec1 _ L1), (vec1 _ L2). set (y := hd 0 (nth j z [])). set (x := hd 0 (nth j xs [])) in *.
      split; [reflexivity|]. split; [reflexivity|].
      pose proof (shift_norm lam [- nv_u a] (nv_u a) Hl ltac:(rewrite Props_DedProg.norm2_single, Rabs_left; lra) ltac:(rewrite Props_DedProg.norm2_single, Rabs_left; lra)) as Sn.
      assert (Es : exists dl, shift lam [- nv_u a] = [- dl] /\ 0 <= dl).
      { unfold shift, vscal. cbn [map]. eexists (_ * nv_u a). split; [f_equal; rewrite <- Ropp_mult_distr_r; reflexivity|].
        apply Rmult_le_pos; [|lra]. rewrite Props_DedProg.norm2_single, Rabs_left by lra. unfold threshold_default.
        assert (0 <= Rmin 10000000000 (- - nv_u a)) by (apply Rmin_glb; lra).
        repeat (apply Rmult_le_pos; [|left; apply Rinv_0_lt_compat; lra]). assumption. }
      destruct Es as (dl & Es & Pd). rewrite Es in Sn |- *. rewrite Props_DedProg.norm2_single, Rabs_Ropp, Rabs_right in Sn by lra.
      unfold exponent. rewrite <- Er. unfold L, nv_loss, sqdist. cbn [hd]. change (vsub [x] [y]) with [x - y]. change (vsub [y] [x]) with [y - x].
      unfold sqnorm, dot. cbn [map2 rsum]. apply (nv_exponent (nv_k a) (nv_u a) theta lam r x y dl); auto.
Qed.
Print Assumptions C121_newsvendor.

(* the exact worst case of the NewsVendor loss at lam, for a demand below the decision *)
Lemma nv_worst k u theta lam x : 0 < lam -> 0 <= u -> x < theta -> worst_value lam (nv_loss k u theta) 1 [x] (nv_loss k u theta [x] + u * u / (4 * lam)).
Proof.
  intros Hl Hu Hx. split.
  - intros z Lz. rewrite (vec1 z Lz). pose proof (nv_lipschitz k u theta x (hd 0 z) Hu) as Q. unfold sqdist. rewrite sqnorm_vsub_sym, sqnorm_sq.
    pose proof (quad_max u lam (norm2 (vsub [hd 0 z] [x])) Hl). lra.
  - assert (0 <= u / (2 * lam)) by (apply Rmult_le_pos; [exact Hu|left; apply Rinv_0_lt_compat; lra]).
    exists [x - u / (2 * lam)]. split; [reflexivity|]. unfold nv_loss, sqdist, sqnorm, dot. cbn [hd vsub map2 rsum]. change (vsub [x] [x - u / (2 * lam)]) with [x - (x - u / (2 * lam))]. cbn [map2 rsum].
    rewrite !Rmin_right by lra. field. lra.
Qed.

(* when the multiplier is below 2 epsilon / rho^2 and all demands are below the decision, some draws push the objective above it *)
Theorem C121_newsvendor_exceeds D pf a X d t theta lam : differentiates D -> nv_dispatch pf a X = Ok (FTorch d t) -> X <> [] -> 0 < nv_rho a -> 0 < nv_u a <= 10000000000 -> (forall r, In r X -> rmean r < theta) ->
  a_imp_samp d = true -> tcost_of (a_cost d) = Some (TNC (PFin 2) 2) -> 0 < lam -> lam * (nv_rho a * nv_rho a) < 2 * nv_solver_reg a ->
  let loss := nvd_call (nv_k a) (nv_u a) theta in
  let w := wrapped_of d [[theta]] [] in
  let xs := map (fun r => [rmean r]) X in
  let worst x := nv_k a * theta - nv_u a * Rmin theta (hd 0 x) + nv_u a * nv_u a / (4 * lam) in
  (forall x, In x xs -> worst_value lam (fun z => nv_k a * theta - nv_u a * Rmin theta (hd 0 z)) 1 x (worst x)) /\
  exists s, tsampler_of d 1 1 = Some s /\
  forall n, (0 < n)%nat -> exists zs v, is_grid n (length xs) 1 zs /\ zs <> [] /\
    t_compute_dual loss w (TNC (PFin 2) 2) s (direction (w_value loss w) D) (dual_of d 2 (nv_solver_reg a) lam) (Tensor.batch [length xs] 1 xs) None (grid n (length xs) 1 zs) None = Ok (Scalar (Fin v)) /\
    v > lam * (nv_rho a * nv_rho a) + rmean (map worst xs).
Proof.
  intros HD H Nx Hr Hu F Hi Hc Hl Hlr loss w xs worst.
  assert (Pr : 0 < lam * (nv_rho a * nv_rho a)) by (apply Rmult_lt_0_compat; [|apply Rmult_lt_0_compat]; assumption).
  assert (He : 0 < nv_solver_reg a) by lra.
  split.
  { intros x Hx. unfold xs in Hx. apply in_map_iff in Hx as (r & <- & Ir). apply (nv_worst (nv_k a) (nv_u a) theta lam (rmean r)); [exact Hl|lra|apply F, Ir]. }
  destruct (nv_imp_value D pf a X d t theta HD H Nx Hr ltac:(lra) ltac:(intros r I; specialize (F r I); lra) Hi Hc He) as (s & sc & Ts & Ps & Hs & V). exists s. split; [exact Ts|].
  intros n Hn. set (z0 := map (fun r => [rmean r + nv_u a / (2 * lam)]) X). set (zs := repeat z0 n).
  assert (Gz : is_grid n (length xs) 1 zs).
  { split; [apply repeat_length|]. apply Forall_forall. intros z Hz. apply repeat_spec in Hz as ->. unfold xs, z0. rewrite !map_length. split; [reflexivity|]. apply Forall_map, Forall_forall. intros r _. reflexivity. }
  assert (Nz : zs <> []) by (unfold zs; destruct n; [lia|discriminate]).
  destruct (V n zs lam Hl Gz Nz) as (v & Ev & V1 & _). exists zs, v. split; [exact Gz|]. split; [exact Nz|]. split; [exact Ev|].
  rewrite V1 by (split; [lra|apply Forall_forall; exact F]). fold xs.
  set (L := nv_loss (nv_k a) (nv_u a) theta) in *. set (G := map (fun _ => [- nv_u a]) X) in *. set (K := nv_u a * nv_u a / (4 * lam)).
  set (al := tilt (nv_solver_reg a) lam sc).
  assert (Nxs : xs <> []) by (unfold xs; destruct X; [contradiction|discriminate]).
  assert (Sh : shift lam [- nv_u a] = [- (nv_u a / (2 * lam))]).
  { rewrite shift_small; [unfold vscal; cbn [map]; f_equal; field; lra|exact Hl|]. rewrite Props_DedProg.norm2_single, Rabs_left by lra. unfold threshold_default. lra. }
  assert (Em : forall z, In z (displaced (shift lam) G zs) -> z = xs).
  { intros z Hz. unfold displaced in Hz. apply in_map_iff in Hz as (z' & <- & Hz). apply repeat_spec in Hz as ->. unfold z0, G, xs. clear -Sh. induction X as [|r X IH]; [reflexivity|].
    cbn [map map2]. rewrite Sh. f_equal; [unfold vadd; cbn [map2]; f_equal; ring|exact IH]. }
  pose proof (rw_eq (nv_rho a) (nv_solver_reg a) lam sc L G xs (displaced (shift lam) G zs) (fun j => L (nth j xs []) + al * K) Ps He Hl) as B.
  rewrite B.
  - pose proof (mean_seq (fun x => L x + al * K) xs []) as MS. unfold vec in *. rewrite MS. rewrite rpower_2 by exact Hr. rewrite rmean_map_plus, rmean_map_const by exact Nxs.
    assert (Mw : rmean (map worst xs) = rmean (map L xs) + K) by (unfold worst; rewrite rmean_map_plus, rmean_map_const by exact Nxs; reflexivity).
    unfold vec in *. rewrite Mw. assert (A1 : 1 < al).
    { unfold al. rewrite (tilt_half _ _ _ _ Hs Hr Hl). apply Rmult_lt_reg_r with (lam * (nv_rho a * nv_rho a)); [exact Pr|]. unfold Rdiv. rewrite Rmult_assoc, Rinv_l by lra. lra. }
    assert (PK : 0 < K) by (apply Rdiv_lt_0_compat; [apply Rmult_lt_0_compat; lra|lra]).
    assert (0 < (al - 1) * K) by (apply Rmult_lt_0_compat; lra). lra.
  - unfold displaced. destruct zs; [contradiction|discriminate].
  - intros j z Hj Hz. apply Em in Hz as ->.
    assert (Ex : exists x, nth j xs [] = [x]) by (assert (In (nth j xs []) xs) as I by (apply nth_In; exact Hj); unfold xs in I at 2; apply in_map_iff in I as (r & <- & _); eauto).
    destruct Ex as (x & Ex). assert (Gj : nth j G [] = [- nv_u a]).
    { assert (In (nth j G []) G) as I by (apply nth_In; unfold G, xs in *; rewrite map_length in *; exact Hj). unfold G in I at 2. apply in_map_iff in I as (r & <- & _). reflexivity. }
    unfold vec in *. rewrite Ex, Gj, Sh. split; [reflexivity|]. split; [reflexivity|].
    unfold exponent. fold al. unfold sqdist. change (vsub [x] [x]) with [x - x]. unfold sqnorm, dot. cbn [map2 rsum]. unfold K. field. lra.
Qed.
Print Assumptions C121_newsvendor_exceeds.

(* Refuted: NewsVendor with its default prices, radius and regularisation and the squared cost; two demands, decision 3, multiplier 1/10 *)
Definition nv_square : nv_args :=
  {| nv_rho := 1 / 100; nv_k := 5; nv_u := 7; nv_cost := "t-NC-2-2"; nv_l2_reg := 0; nv_solver_reg := 1 / 100; nv_lr := None;
     nv_n_zeta := 10; nv_solver_name := "entropic_torch_post"; nv_seed := 0; nv_n_iter := None |}.
Lemma nv_square_dispatch : exists d t, nv_dispatch read nv_square [[1]; [2]] = Ok (FTorch d t) /\ a_imp_samp d = true /\ tcost_of (a_cost d) = Some (TNC (PFin 2) 2).
Proof.
  assert (Dc : exists c, decode_cost read "t-NC-2-2" = Ok c) by (unfold decode_cost, cost_from_str; cbn -[dk x_ge0]; unfold NormCost; eauto). destruct Dc as [c Dc].
  unfold nv_dispatch. cbn [nv_cost nv_square]. rewrite Dc. cbn [bind nv_solver_name]. change (String.eqb "entropic_torch_post" "entropic") with false. change (contains "torch" "entropic_torch_post") with true. cbv iota.
  match goal with |- context [dualize read ?u] => destruct (dualize_outcome read u (mkParsed "t" "NC" (Fin 2) (Fin 2) dk) (mkCost NC (Fin 2) (Fin 2) None "Norm") eq_refl eq_refl (sigma_none_pos _)) as [H _];
      destruct H as (d & Hd & Ec & _ & _ & _ & _ & Ee & Hi); [right; split; reflexivity|]; rewrite Hd end.
  exists d. eexists. split; [reflexivity|]. split; [apply Hi; repeat split|rewrite Ec; reflexivity].
Qed.
Theorem C121_refuted : exists pf a X d t theta lam D s n zs v,
  differentiates D /\ nv_dispatch pf a X = Ok (FTorch d t) /\ a_imp_samp d = true /\ 0 < nv_rho a /\ 0 < nv_solver_reg a /\ 0 < lam /\
  let loss := nvd_call (nv_k a) (nv_u a) theta in
  let w := wrapped_of d [[theta]] [] in
  let xs := map (fun r => [rmean r]) X in
  let worst x := nv_k a * theta - nv_u a * Rmin theta (hd 0 x) + nv_u a * nv_u a / (4 * lam) in
  tsampler_of d 1 1 = Some s /\ is_grid n (length xs) 1 zs /\ xs <> [] /\
  (forall x, In x xs -> worst_value lam (fun z => nv_k a * theta - nv_u a * Rmin theta (hd 0 z)) 1 x (worst x)) /\
  t_compute_dual loss w (TNC (PFin 2) 2) s (direction (w_value loss w) D) (dual_of d 2 (nv_solver_reg a) lam) (Tensor.batch [length xs] 1 xs) None (grid n (length xs) 1 zs) None = Ok (Scalar (Fin v)) /\
  v > lam * (nv_rho a * nv_rho a) + rmean (map worst xs).
Proof.
  destruct nv_square_dispatch as (d & t & H & Hi & Hc). destruct C114_operator as (D & HD).
  assert (F : forall r, In r [[1]; [2]] -> rmean r < 3) by (intros r [<-|[<-|[]]]; rewrite rmean1; lra).
  destruct (C121_newsvendor_exceeds D read nv_square [[1]; [2]] d t 3 (1 / 10) HD H ltac:(discriminate) ltac:(cbn; lra) ltac:(cbn; lra) F Hi Hc ltac:(lra) ltac:(cbn; lra)) as (Wv & s & Ts & E).
  destruct (E 1%nat ltac:(lia)) as (zs & v & Gz & Nz & Ev & Gt).
  exists read, nv_square, [[1]; [2]], d, t, 3, (1 / 10), D, s, 1%nat, zs, v. split; [exact HD|]. split; [exact H|]. split; [exact Hi|]. split; [cbn; lra|]. split; [cbn; lra|]. split; [lra|].
  intros loss w xs worst. split; [exact Ts|]. split; [exact Gz|]. split; [discriminate|]. split; [exact Wv|]. split; [exact Ev|exact Gt].
Qed.
Print Assumptions C121_refuted.

Example C121_case :
  (exists d t, nv_dispatch read nv_square [[1]; [2]] = Ok (FTorch d t) /\ a_imp_samp d = true /\ tcost_of (a_cost d) = Some (TNC (PFin 2) 2)) /\
  (exists D, differentiates D) /\ (forall r, In r [[1]; [2]] -> rmean r <> 3) /\ is_grid 2 2 1 [[[1]; [2]]; [[0]; [4]]] /\
  2 * nv_solver_reg nv_square / (1000 * (nv_rho nv_square * nv_rho nv_square)) = 1 / 5.
Proof.
  split; [exact nv_square_dispatch|]. split; [exact C114_operator|]. split; [intros r [<-|[<-|[]]]; rewrite rmean1; lra|]. split.
  - split; [reflexivity|]. repeat (apply Forall_cons; [split; [reflexivity|repeat constructor]|]). constructor.
  - cbn. field.
Qed.

Definition pf_square : pf_args :=
  {| pf_rho := 1 / 100; pf_eta := 0; pf_alpha := 95 / 100; pf_C := None; pf_d := None; pf_fit_intercept := None;
     pf_cost := "t-NC-2-2"; pf_solver_name := "entropic_torch"; pf_solver_reg := 1 / 1000; pf_reparam := "softmax"; pf_lr := None;
     pf_n_zeta := 10; pf_seed := 0; pf_n_iter := None |}.
Example C121_portfolio_case :
  (exists d t, pf_dispatch read pf_square [[1; 2]] = Ok (FTorch d t) /\ a_imp_samp d = true /\ tcost_of (a_cost d) = Some (TNC (PFin 2) 2)) /\
  (forall x, In x [[1; 2]] -> dot (softmax [0; 0]) x <> - 0) /\ widths 2 [[1; 2]].
Proof.
  split.
  - assert (Dc : exists c, decode_cost read "t-NC-2-2" = Ok c) by (unfold decode_cost, cost_from_str; cbn -[dk x_ge0]; unfold NormCost; eauto). destruct Dc as [c Dc].
    unfold pf_dispatch. cbn [pf_cost pf_square]. rewrite Dc. cbn [bind]. cbn -[dualize read]. 
    match goal with |- context [dualize read ?u] => destruct (dualize_outcome read u (mkParsed "t" "NC" (Fin 2) (Fin 2) dk) (mkCost NC (Fin 2) (Fin 2) None "Norm") eq_refl eq_refl (sigma_none_pos _)) as [H _];
      destruct H as (d & Hd & Ec & _ & _ & _ & _ & Ee & Hi); [right; split; reflexivity|]; rewrite Hd end.
    exists d. eexists. split; [reflexivity|]. split; [apply Hi; repeat split|rewrite Ec; reflexivity].
  - split; [|repeat constructor]. intros x [<-|[]]. unfold softmax, dot. cbn. pose proof (exp_pos 0) as P. intros E.
    assert (0 < exp 0 / (exp 0 + (exp 0 + 0))) by (apply Rdiv_lt_0_compat; lra). lra.
Qed.
