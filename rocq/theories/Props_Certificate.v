(* C118: the soft robust objective never exceeds the exact worst case. *)
From Coq Require Import Reals List Bool ZArith String Arith Lra Lia Psatz.
From Verif Require Import PyBase RList XReal LogMeanExp Tensor DedProg_Model DedProg_Spec DedLin_Proofs DedLog_Proofs Loss_Model Loss_Spec Loss_Proofs Costs_Model Costs_Spec Costs_Proofs
  CostDecoder_Model OptCond_Model Samplers_Model Samplers_Spec Wrap_Model Wrap_Proofs Estim_Model Estim_Proofs Handover_Proofs Dual_Model Dual_Spec Dual_Proofs TDual_Model TDual_Spec TDual_Proofs Props_Dual Props_TDual Props_Estim Props_DedProg
  EstDual_Model EstDual_Spec EstDual_Proofs Props_EstDual Gradient Grads_Model Grads_Losses Props_Grads Certificate_Spec Certificate_Proofs SampleLaw_Proofs.
Import ListNotations.
Local Open Scope R_scope.
Local Notation length := List.length.

(* For any transport problem: a bound of loss - lam cost over all points, for each data point, bounds the objective at lam. *)
Theorem C118_below_worst_case {P} loss cost displace lp lpr n (rows : list (row P)) rho lam eps p (worst : P -> R) : batch_ok n rows -> 0 < rho -> 0 < eps ->
  (forall r z, In r rows -> loss z - lam * cost (r_xi r) z <= worst (r_xi r)) ->
  exists v, compute_dual P loss cost displace lp lpr (cfg "mean" rho lam eps p) n rows = Ok (Scalar (Fin v)) /\ v <= lam * Rpower rho p + rmean (map (fun r => worst (r_xi r)) rows).
Proof.
  intros Hb Hr He H. eexists. split; [apply cd_mean; assumption|]. unfold objective. apply Rplus_le_compat_l, rmean_map_le. intros r Hin. unfold soft.
  destruct Hb as (Hn & _ & Fz). rewrite Forall_forall in Fz. apply softmaximum_bounds; [exact He| |].
  - apply map_neq_nil. specialize (Fz r Hin). intros E. rewrite E in Fz. cbn in Fz. lia.
  - intros a Ha. apply in_map_iff in Ha. destruct Ha as (z & <- & _). apply H; exact Hin.
Qed.
Print Assumptions C118_below_worst_case.

(* ---------- distances ---------- *)
Lemma cost_dist c a b : 0 < tc_power c -> pt_cost c a b = ppow (tdist c a b) (tc_power c).
Proof.
  intros Hp. destruct c as [p w|p w [k|]]; cbn [pt_cost tdist tc_power] in *; unfold nc_value, nlc_point; [apply tpow_pos; exact Hp| |apply tpow_pos; exact Hp].
  destruct (Reqb k 0) eqn:E; [|apply tpow_pos; exact Hp]. apply Reqb_true in E. subst k. rewrite tpow_pos by exact Hp. f_equal. field.
Qed.
Lemma dist_features c D a b : features_price c D -> snd b = snd a -> 0 < D /\ 0 <= tdist c a b /\ D * tdist c a b = pnorm (tc_p c) (vsub (fst a) (fst b)).
Proof.
  destruct c as [p w|p w [k|]]; cbn [features_price tdist tc_p]; [intros -> _|intros [K ->] E|intros []].
  - pose proof (pnorm_nonneg p (vsub (fst a) (fst b))). repeat split; lra.
  - rewrite E, (pnorm_all0 p (vsub (snd a) (snd a)) (vsub_self _)). pose proof (pnorm_nonneg p (vsub (fst a) (fst b))). split; [lra|]. split; [|field; lra].
    apply Rmult_le_pos; [lra|left; apply Rinv_0_lt_compat; lra].
Qed.
Lemma slope_move p w W (x z : vec) : slope p w W -> length x = length w -> length z = length w -> Rabs (dot w z - dot w x) <= W * pnorm p (vsub x z).
Proof.
  intros H Lx Lz. rewrite Rabs_minus_sym. replace (dot w x - dot w z) with (dot w (vsub x z)); [apply H; unfold vec in *; rewrite vsub_length; congruence|].
  rewrite !(dot_comm w). clear -Lx Lz. unfold dot, vsub. revert x z Lx Lz. induction w as [|a w IH]; intros [|u x] [|v z] Lx Lz; try discriminate; cbn; [ring|].
  rewrite IH by (injection Lx; injection Lz; auto). ring.
Qed.

Lemma nth_map {A B} (f : A -> B) (l : list A) j a b : (j < length l)%nat -> nth j (map f l) b = f (nth j l a).
Proof. intros H. rewrite (nth_indep _ b (f a)) by (rewrite map_length; exact H). apply map_nth. Qed.

Lemma vsub_len (x y : vec) n : length x = n -> length y = n -> length (vsub x y) = n.
Proof. intros <- E. unfold vec in *. apply vsub_length. congruence. Qed.
Lemma sq_sym : forall x y : vec, sqnorm (vsub x y) = sqnorm (vsub y x).
Proof. unfold sqnorm, dot, vsub. induction x as [|u x IH]; intros [|w y]; try reflexivity. cbn. rewrite IH. ring. Qed.
Lemma scaled_gap v a b m pen : Rabs (v * (a - b)) <= m -> v * a + pen <= v * b + pen + m.
Proof. intros H. pose proof (Rle_abs (v * (a - b))). lra. Qed.
Section Samples.
Variables (n m k kl : nat) (zs zls : list (list vec)).
Hypothesis Gz : is_grid n m k zs.
Hypothesis Gl : is_grid n m kl zls.
Lemma grids_length : length zls = length zs.
Proof. destruct Gz as [E1 _], Gl as [E2 _]. transitivity n; [exact E2|symmetry; exact E1]. Qed.
Lemma sample_widths z zl j : In (z, zl) (List.combine zs zls) -> (j < m)%nat -> length (nth j z []) = k /\ length (nth j zl []) = kl.
Proof.
  intros Hin Hj. pose proof (in_combine_l _ _ _ _ Hin) as I1. pose proof (in_combine_r _ _ _ _ Hin) as I2. destruct Gz as [_ F1], Gl as [_ F2]. rewrite Forall_forall in F1, F2.
  destruct (F1 z I1) as [L1 W1]. destruct (F2 zl I2) as [L2 W2]. unfold widths in W1, W2. rewrite Forall_forall in W1, W2. unfold vec in *.
  split; [apply W1|apply W2]; apply nth_In; lia.
Qed.
End Samples.
Lemma widths_nth k (xs : list vec) j : widths k xs -> (j < length xs)%nat -> length (nth j xs []) = k.
Proof. unfold widths. rewrite Forall_forall. intros W Hj. apply W, nth_In. exact Hj. Qed.
Lemma mean_seq {A} (f : A -> R) (l : list A) dflt : rmean (map (fun j => f (nth j l dflt)) (seq 0 (length l))) = rmean (map f l).
Proof.
  f_equal. transitivity (map f (map (fun j => nth j l dflt) (seq 0 (length l)))); [rewrite map_map; reflexivity|]. f_equal.
  apply nth_ext with (d := dflt) (d' := dflt); [rewrite map_length, seq_length; reflexivity|]. intros i Hi. rewrite map_length, seq_length in Hi.
  rewrite (nth_indep _ dflt (nth 0 l dflt)) by (rewrite map_length, seq_length; exact Hi).
  change (nth 0 l dflt) with ((fun j => nth j l dflt) 0%nat). rewrite map_nth, seq_nth by exact Hi. reflexivity.
Qed.

(* ---------- Lipschitz losses ---------- *)
Lemma lipschitz_labelled c rho e L xs ys zs zls W : 0 < e -> 0 < rho -> 1 <= tc_power c -> 0 <= W -> zs <> [] -> length zls = length zs ->
  (forall j z zl, (j < length xs)%nat -> In (z, zl) (List.combine zs zls) -> 0 <= tdist c (nth j xs [], nth j ys []) (nth j z [], nth j zl []) /\
     L (nth j z []) (nth j zl []) <= L (nth j xs []) (nth j ys []) + W * tdist c (nth j xs [], nth j ys []) (nth j z [], nth j zl [])) -> xs <> [] ->
  robust_labelled (pt_cost c) (tc_power c) rho e (lip_multiplier W rho (tc_power c)) L xs ys zs zls <= rmean (map (fun j => L (nth j xs []) (nth j ys [])) (seq 0 (length xs))) + rho * W.
Proof.
  intros He Hr Hp HW Nz El H Nx. set (lam := lip_multiplier W rho (tc_power c)).
  eapply Rle_trans; [apply (robust_labelled_le _ _ _ _ _ _ _ _ _ _ (fun j => L (nth j xs []) (nth j ys []) + (W * rho - lam * Rpower rho (tc_power c)))); auto|].
  - intros j z zl Hj Hin. destruct (H j z zl Hj Hin) as [T HL]. rewrite cost_dist by lra. pose proof (lip_gain W rho (tc_power c) _ HW Hr Hp T) as Q. fold lam in Q. lra.
  - rewrite rmean_map_plus, rmean_map_const by (apply seq_ne; destruct xs; [contradiction|cbn; lia]). lra.
Qed.
Lemma lipschitz_plain c rho e L xs zs W : 0 < e -> 0 < rho -> 1 <= tc_power c -> 0 <= W -> zs <> [] ->
  (forall j z, (j < length xs)%nat -> In z zs -> 0 <= tdist c (nth j xs [], []) (nth j z [], []) /\ L (nth j z []) <= L (nth j xs []) + W * tdist c (nth j xs [], []) (nth j z [], [])) -> xs <> [] ->
  robust (fun x z => pt_cost c (x, []) (z, [])) (tc_power c) rho e (lip_multiplier W rho (tc_power c)) L xs zs <= rmean (map L xs) + rho * W.
Proof.
  intros He Hr Hp HW Nz H Nx. set (lam := lip_multiplier W rho (tc_power c)).
  eapply Rle_trans; [apply (robust_le _ _ _ _ _ _ _ _ (fun j => L (nth j xs []) + (W * rho - lam * Rpower rho (tc_power c)))); auto|].
  - intros j z Hj Hin. destruct (H j z Hj Hin) as [T HL]. rewrite cost_dist by lra. pose proof (lip_gain W rho (tc_power c) _ HW Hr Hp T) as Q. fold lam in Q. unfold vec in *. cbv beta. apply Rplus_le_reg_r with (lam * ppow (tdist c (nth j xs [], []) (nth j z [], [])) (tc_power c)). ring_simplify. eapply Rle_trans; [exact HL|]. lra.
  - rewrite rmean_map_plus, rmean_map_const by (apply seq_ne; destruct xs; [contradiction|cbn; lia]). pose proof (mean_seq L xs []) as M. right. unfold vec in *. rewrite M. ring.
Qed.

(* ---------- the estimators ---------- *)
Lemma Rpower_1_l p : Rpower 1 p = 1.
Proof. unfold Rpower. rewrite ln_1, Rmult_0_r. apply exp_0. Qed.
Lemma risk_lip eta alpha tau q r M : 0 <= eta -> 0 < alpha -> Rabs (q - r) <= M ->
  - q + eta * (tau + Rmax (- q - tau) 0 / alpha) <= - r + eta * (tau + Rmax (- r - tau) 0 / alpha) + (1 + eta / alpha) * M.
Proof.
  intros He Ha HM. assert (E1 : 0 <= eta / alpha) by (apply Rmult_le_pos; [exact He|left; apply Rinv_0_lt_compat; exact Ha]).
  assert (B : - M <= q - r <= M) by (split; [pose proof (Rle_abs (- (q - r))); rewrite Rabs_Ropp in *; lra|pose proof (Rle_abs (q - r)); lra]).
  assert (Mx : Rmax (- q - tau) 0 <= Rmax (- r - tau) 0 + M).
  { apply Rmax_lub; [pose proof (Rmax_l (- r - tau) 0); lra|]. pose proof (Rmax_r (- r - tau) 0). pose proof (Rabs_pos (q - r)). lra. }
  apply Rmult_le_compat_l with (r := eta / alpha) in Mx; [|exact E1].
  replace (eta * (tau + Rmax (- q - tau) 0 / alpha)) with (eta * tau + eta / alpha * Rmax (- q - tau) 0) by (field; lra).
  replace (eta * (tau + Rmax (- r - tau) 0 / alpha)) with (eta * tau + eta / alpha * Rmax (- r - tau) 0) by (field; lra). lra.
Qed.
(* Portfolio: the loss changes by at most 1 + eta / alpha times the change of the return *)
Theorem C118_portfolio pf a X d t raw tau c : pf_dispatch pf a X = Ok (FTorch d t) -> X <> [] -> widths (length raw) X -> 0 < pf_rho a -> 0 <= pf_eta a -> 0 < pf_alpha a ->
  a_imp_samp d = false -> tcost_of (a_cost d) = Some c -> c_kind (a_cost d) = NC -> 1 <= tc_power c ->
  forall n zs e s grads W1, is_grid n (length X) (length raw) zs -> zs <> [] -> a_epsilon d = Fin e -> 0 < e -> slope (tc_p c) (softmax raw) W1 -> 0 <= W1 ->
  let W := (1 + pf_eta a / pf_alpha a) * W1 in
  exists v, t_compute_dual (pfd_call (pf_eta a) (pf_alpha a) raw tau) (wrapped_of d [[tau]; raw] []) c s grads (dual_of d (tc_power c) e (lip_multiplier W (pf_rho a) (tc_power c)))
              (Tensor.batch [length X] (length raw) X) None (grid n (length X) (length raw) zs) None = Ok (Scalar (Fin v)) /\
    v <= rmean (map (risk_loss (pf_eta a) (pf_alpha a) (softmax raw) tau) X) + pf_rho a * W.
Proof.
  intros H Nx Wx Hr Heta Hal Hi Hc Hk Hp n zs e s grads W1 G Nz He Hep Sl HW W.
  destruct (C113_portfolio pf a X d t raw tau H Nx Wx Hr) as (_ & c' & Hc' & Q). rewrite Hc in Hc'. injection Hc' as <-.
  destruct (Q n zs e (lip_multiplier W (pf_rho a) (tc_power c)) grads G Nz He ltac:(lra)) as [Q1 _]. destruct (Q1 Hk) as [Q2 _]. eexists. split; [exact (Q2 Hi s)|].
  assert (E1 : 0 <= pf_eta a / pf_alpha a) by (apply Rmult_le_pos; [exact Heta|left; apply Rinv_0_lt_compat; exact Hal]).
  assert (Dc : exists p w, c = TNC p w).
  { unfold tcost_of in Hc. destruct (nexp_of _); [|discriminate]. destruct (c_power _); try discriminate. rewrite Hk in Hc. injection Hc as <-. eauto. }
  destruct Dc as (p & w & ->). cbn [tc_p] in Sl.
  apply lipschitz_plain; auto; [unfold W; nra|]. intros j z Hj Hin. cbn [tdist fst]. split; [apply pnorm_nonneg|].
  destruct G as [_ F]. rewrite Forall_forall in F. destruct (F z Hin) as [Lz Wz].
  assert (L1 : length (nth j z []) = length raw) by (apply widths_nth; [exact Wz|]; unfold vec in *; lia). pose proof (widths_nth _ _ _ Wx Hj) as L2.
  pose proof (slope_move p (softmax raw) W1 (nth j X []) (nth j z []) Sl ltac:(rewrite softmax_length; exact L2) ltac:(rewrite softmax_length; exact L1)) as M.
  unfold W, risk_loss. refine (Rle_trans _ _ _ (risk_lip _ _ _ _ _ _ Heta Hal M) _). right. rewrite Rmult_assoc. reflexivity.
Qed.
Print Assumptions C118_portfolio.

(* NewsVendor: the loss changes by at most u times the change of the demand *)
Theorem C118_newsvendor pf a X d t theta c : nv_dispatch pf a X = Ok (FTorch d t) -> X <> [] -> 0 < nv_rho a -> 0 <= nv_u a ->
  a_imp_samp d = false -> tcost_of (a_cost d) = Some c -> c_kind (a_cost d) = NC -> 1 <= tc_power c -> valid_exp (tc_p c) ->
  let xs := map (fun r => [rmean r]) X in
  forall n zs e s grads, is_grid n (length xs) 1 zs -> zs <> [] -> a_epsilon d = Fin e -> 0 < e ->
  exists v, t_compute_dual (nvd_call (nv_k a) (nv_u a) theta) (wrapped_of d [[theta]] []) c s grads (dual_of d (tc_power c) e (lip_multiplier (nv_u a) (nv_rho a) (tc_power c)))
              (Tensor.batch [length xs] 1 xs) None (grid n (length xs) 1 zs) None = Ok (Scalar (Fin v)) /\
    v <= rmean (map (fun r => nv_k a * theta - nv_u a * Rmin theta (rmean r)) X) + nv_rho a * nv_u a.
Proof.
  intros H Nx Hr Hu Hi Hc Hk Hp Vp xs n zs e s grads G Nz He Hep.
  destruct (C113_newsvendor pf a X d t theta H Nx Hr) as (_ & c' & Hc' & Q). rewrite Hc in Hc'. injection Hc' as <-.
  assert (Lx : length xs = length X) by apply map_length.
  destruct (Q n zs e (lip_multiplier (nv_u a) (nv_rho a) (tc_power c)) grads G Nz He ltac:(lra)) as [Q1 _]. destruct (Q1 Hk) as [Q2 _]. eexists. split; [exact (Q2 Hi s)|].
  assert (Dc : exists p w, c = TNC p w).
  { unfold tcost_of in Hc. destruct (nexp_of _); [|discriminate]. destruct (c_power _); try discriminate. rewrite Hk in Hc. injection Hc as <-. eauto. }
  destruct Dc as (p & w & ->). cbn [tc_p] in Vp.
  replace (map (fun r => nv_k a * theta - nv_u a * Rmin theta (rmean r)) X) with (map (fun x => nv_k a * theta - nv_u a * Rmin theta (hd 0 x)) xs) by (unfold xs; rewrite map_map; reflexivity).
  apply lipschitz_plain; auto; [|destruct X; [contradiction|discriminate]]. intros j z Hj Hin. cbn [tdist fst]. split; [apply pnorm_nonneg|].
  destruct G as [_ F]. rewrite Forall_forall in F. destruct (F z Hin) as [Lz Wz].
  assert (L1 : length (nth j z []) = 1%nat) by (apply widths_nth; [exact Wz|]; unfold vec in *; lia).
  assert (Ex : nth j xs [] = [rmean (nth j X [])]) by (unfold xs; change ([] : vec) with ((fun _ : vec => @nil R) []); rewrite (nth_indep _ _ [rmean []]) by (rewrite map_length; unfold vec in *; lia); rewrite (map_nth (fun r => [rmean r])); reflexivity).
  rewrite Ex. destruct (nth j z []) as [|y [|]]; try discriminate. set (x := rmean (nth j X [])). cbn [hd].
  assert (Pn : pnorm p (vsub [x] [y]) = Rabs (x - y)).
  { pose proof (pnorm_vscal p (x - y) [1] Vp) as Q3. replace (vscal (x - y) [1]) with (vsub [x] [y]) in Q3 by (unfold vscal, vsub; cbn; f_equal; ring). rewrite Q3.
    assert (pnorm p [1] = 1) as ->; [|ring]. destruct p as [q|]; cbn; [|unfold Rmax; rewrite Rabs_R1; destruct (Rle_dec _ _); lra].
    unfold ppow at 2. rewrite Rabs_R1. destruct (Rlt_dec 0 1); [|lra]. rewrite Rpower_1_l, Rplus_0_r. unfold ppow. destruct (Rlt_dec 0 1); [|lra]. apply Rpower_1_l. }
  rewrite Pn. assert (Rmin theta x <= Rmin theta y + Rabs (x - y)).
  { clearbody x. pose proof (Rabs_pos (x - y)). pose proof (Rle_abs (x - y)). unfold Rmin. destruct (Rle_dec theta x), (Rle_dec theta y); lra. }
  pose proof (Rabs_pos (x - y)). nra.
Qed.
Print Assumptions C118_newsvendor.

(* LogisticRegression with two classes, when the labels of the samples are those of the data *)
Theorem C118_logistic pf a X y d t wt b c0 c1 c D : lg_dispatch pf a X y = Ok (FTorch d t) -> (c0 < c1)%Z -> (forall v, In v y <-> v = c0 \/ v = c1) ->
  X <> [] -> widths (length wt) X -> length y = length X -> 0 < lg_rho a -> a_imp_samp d = false -> tcost_of (a_cost d) = Some c -> 1 <= tc_power c -> features_price c D ->
  let ys := map (fun v => [if Z.eq_dec v c0 then -1 else 1]) y in
  let bias := if lg_fit_intercept a then b else 0 in
  let trained := if lg_fit_intercept a then [wt; [b]] else [wt] in
  let pen := penalty (lg_l2_reg a) (List.concat trained) in
  forall n zs zls e s grads W, is_grid n (length X) (length wt) zs -> is_grid n (length X) 1 zls -> zs <> [] -> Forall (eq ys) zls -> a_epsilon d = Fin e -> 0 < e -> slope (tc_p c) wt W -> 0 <= W ->
  exists v, t_compute_dual (lg_call wt bias) (wrapped_of d [] trained) c s grads (dual_of d (tc_power c) e (lip_multiplier (D * W) (lg_rho a) (tc_power c)))
              (Tensor.batch [length X] (length wt) X) (Some (Tensor.batch [length X] 1 ys)) (grid n (length X) (length wt) zs) (Some (grid n (length X) 1 zls)) = Ok (Scalar (Fin v)) /\
    v <= rmean (map2 (fun x v => ln (1 + exp (- ((if Z.eq_dec v c0 then -1 else 1) * (dot wt x + bias))))) X y) + pen + lg_rho a * (D * W).
Proof.
  intros H Hcc Hy Nx Wx E Hr Hi Hc Hp HD ys bias trained pen n zs zls e s grads W G Gl Nz Same He Hep Sl HW.
  destruct (C113_logistic_binary pf a X y d t wt b c0 c1 H Hcc Hy Nx Wx E Hr) as (_ & c' & Hc' & Q). rewrite Hc in Hc'. injection Hc' as <-.
  destruct (Q n zs zls e (lip_multiplier (D * W) (lg_rho a) (tc_power c)) grads G Gl Nz He ltac:(lra)) as [Q1 _]. eexists. split; [exact (Q1 Hi s)|].
  assert (DP : 0 < D) by (destruct c as [|? ? [|]]; cbn in HD; [lra|lra|contradiction]).
  set (L := fun (x l : vec) => ln (1 + exp (- (hd 0 l * (dot wt x + bias)))) + pen).
  assert (EM : rmean (map (fun j => L (nth j X []) (nth j ys [])) (seq 0 (length X))) = rmean (map2 (fun x v => ln (1 + exp (- ((if Z.eq_dec v c0 then -1 else 1) * (dot wt x + bias))))) X y) + pen).
  { unfold L. rewrite rmean_map_plus, rmean_map_const by (apply seq_ne; destruct X; [contradiction|cbn; lia]). f_equal. f_equal. unfold ys. clear -E. revert y E. induction X as [|x X IH]; intros [|v y] E; try discriminate; [reflexivity|].
    cbn [length seq map map2 nth hd]. f_equal. rewrite <- seq_shift, map_map. apply IH. injection E; auto. }
  rewrite <- EM. apply lipschitz_labelled; auto; [apply Rmult_le_pos; lra|exact (grids_length _ _ _ _ _ _ G Gl)|].
  intros j z zl Hj Hin. destruct (sample_widths n (length X) (length wt) 1 zs zls G Gl z zl j Hin Hj) as [L1 L2]. pose proof (widths_nth _ _ _ Wx Hj) as L3.
  assert (zl = ys) as -> by (rewrite Forall_forall in Same; symmetry; apply Same; exact (in_combine_r _ _ _ _ Hin)).
  destruct (dist_features c D (nth j X [], nth j ys []) (nth j z [], nth j ys []) HD eq_refl) as (_ & T0 & TD). split; [exact T0|].
  pose proof (slope_move (tc_p c) wt W (nth j X []) (nth j z []) Sl L3 L1) as M.
  assert (Sg : exists sg, nth j ys [] = [sg] /\ Rabs sg = 1).
  { exists (if Z.eq_dec (nth j y 0%Z) c0 then -1 else 1). split; [unfold ys; apply (nth_map (fun v => [if Z.eq_dec v c0 then -1 else 1])); unfold vec in *; lia|]. destruct (Z.eq_dec _ _); [apply abs_m1|apply Rabs_R1]. }
  destruct Sg as (sg & -> & Asg). unfold L. cbn [hd].
  pose proof (lg_lip (- (sg * (dot wt (nth j z []) + bias))) (- (sg * (dot wt (nth j X []) + bias)))) as Lp. unfold cp_logistic in Lp.
  replace (- (sg * (dot wt (nth j z []) + bias)) - - (sg * (dot wt (nth j X []) + bias))) with (- sg * (dot wt (nth j z []) - dot wt (nth j X []))) in Lp by ring.
  rewrite Rabs_mult, Rabs_Ropp, Asg, Rmult_1_l in Lp.
  assert (TD' : D * W * tdist c (nth j X [], [sg]) (nth j z [], [sg]) = W * pnorm (tc_p c) (vsub (nth j X []) (nth j z []))).
  { destruct (dist_features c D (nth j X [], [sg]) (nth j z [], [sg]) HD eq_refl) as (_ & _ & TD2). cbn [fst] in TD2. rewrite <- TD2. ring. }
  unfold vec in *. rewrite TD'. apply Rle_trans with (ln (1 + exp (- (sg * (dot wt (nth j X []) + bias)))) + Rabs (dot wt (nth j z []) - dot wt (nth j X [])) + pen); [apply Rplus_le_compat_r; exact Lp|].
  rewrite !Rplus_assoc. apply Rplus_le_compat_l. rewrite Rplus_comm. apply Rplus_le_compat_l. exact M.
Qed.
Print Assumptions C118_logistic.

(* Weber: with weights of at most M and the Euclidean norm *)
Theorem C118_weber pf a X y d t pos c D M : wb_dispatch pf a X y = Ok (FTorch d t) -> X <> [] -> widths (length pos) X -> length y = length X -> 0 < wb_rho a ->
  a_imp_samp d = false -> tcost_of (a_cost d) = Some c -> tc_p c = PFin 2 -> 1 <= tc_power c -> features_price c D -> Forall (fun v => Rabs v <= M) y ->
  let ys := map (fun v => [v]) y in
  let pen := penalty (wb_l2_reg a) pos in
  forall n zs zls e s grads, is_grid n (length X) (length pos) zs -> is_grid n (length X) 1 zls -> zs <> [] -> Forall (eq ys) zls -> a_epsilon d = Fin e -> 0 < e ->
  exists v, t_compute_dual (wb_call pos) (wrapped_of d [pos] []) c s grads (dual_of d (tc_power c) e (lip_multiplier (D * M) (wb_rho a) (tc_power c)))
              (Tensor.batch [length X] (length pos) X) (Some (Tensor.batch [length X] 1 ys)) (grid n (length X) (length pos) zs) (Some (grid n (length X) 1 zls)) = Ok (Scalar (Fin v)) /\
    v <= rmean (map2 (fun x v => v * sqrt (sqnorm (vsub x pos))) X y) + pen + wb_rho a * (D * M).
Proof.
  intros H Nx Wx E Hr Hi Hc Hp2 Hp HD HM ys pen n zs zls e s grads G Gl Nz Same He Hep.
  destruct (C113_weber pf a X y d t pos H Nx Wx E Hr) as (_ & c' & Hc' & Q). rewrite Hc in Hc'. injection Hc' as <-.
  destruct (Q n zs zls e (lip_multiplier (D * M) (wb_rho a) (tc_power c)) grads G Gl Nz He ltac:(lra)) as [Q1 _]. eexists. split; [exact (Q1 Hi s)|].
  assert (DP : 0 < D) by (destruct c as [|? ? [|]]; cbn in HD; [lra|lra|contradiction]).
  assert (M0 : 0 <= M) by (destruct y as [|v y]; [destruct X; [contradiction|discriminate]|inversion HM as [|? ? Hv]; pose proof (Rabs_pos v); lra]).
  set (L := fun (x l : vec) => hd 0 l * sqrt (sqnorm (vsub x pos)) + pen).
  assert (EM : rmean (map (fun j => L (nth j X []) (nth j ys [])) (seq 0 (length X))) = rmean (map2 (fun x v => v * sqrt (sqnorm (vsub x pos))) X y) + pen).
  { unfold L. rewrite rmean_map_plus, rmean_map_const by (apply seq_ne; destruct X; [contradiction|cbn; lia]). f_equal. f_equal. unfold ys. clear -E. revert y E. induction X as [|x X IH]; intros [|v y] E; try discriminate; [reflexivity|].
    cbn [length seq map map2 nth hd]. f_equal. rewrite <- seq_shift, map_map. apply IH. injection E; auto. }
  rewrite <- EM. apply lipschitz_labelled; auto; [apply Rmult_le_pos; lra|exact (grids_length _ _ _ _ _ _ G Gl)|].
  intros j z zl Hj Hin. destruct (sample_widths n (length X) (length pos) 1 zs zls G Gl z zl j Hin Hj) as [L1 L2]. pose proof (widths_nth _ _ _ Wx Hj) as L3.
  assert (zl = ys) as -> by (rewrite Forall_forall in Same; symmetry; apply Same; exact (in_combine_r _ _ _ _ Hin)).
  assert (Sg : exists v, nth j ys [] = [v] /\ Rabs v <= M).
  { exists (nth j y 0). split; [unfold ys; apply (nth_map (fun v => [v])); unfold vec in *; lia|]. rewrite Forall_forall in HM. apply HM, nth_In. unfold vec in *. lia. }
  destruct Sg as (v & -> & Av). unfold L. cbn [hd].
  destruct (dist_features c D (nth j X [], [v]) (nth j z [], [v]) HD eq_refl) as (_ & T0 & TD). split; [exact T0|]. cbn [fst] in TD. rewrite Hp2, pnorm_2 in TD.
  assert (T : Rabs (norm2 (vsub (nth j z []) pos) - norm2 (vsub (nth j X []) pos)) <= norm2 (vsub (nth j X []) (nth j z []))).
  { pose proof (pnorm_triangle (PFin 2) (vsub (nth j z []) (nth j X [])) (vsub (nth j X []) pos) ltac:(simpl; lra) (eq_trans (vsub_len _ _ _ L1 L3) (eq_sym (vsub_len _ _ _ L3 eq_refl)))) as T1.
    pose proof (pnorm_triangle (PFin 2) (vsub (nth j X []) (nth j z [])) (vsub (nth j z []) pos) ltac:(simpl; lra) (eq_trans (vsub_len _ _ _ L3 L1) (eq_sym (vsub_len _ _ _ L1 eq_refl)))) as T2.
    rewrite !pnorm_2 in T1, T2.
    assert (A : forall x y p : vec, length x = length y -> length y = length p -> vadd (vsub x y) (vsub y p) = vsub x p).
    { clear. unfold vadd, vsub. induction x as [|u x IH]; intros [|w y] [|q p] E1 E2; try discriminate; [reflexivity|]. cbn. f_equal; [ring|]. apply IH; [injection E1; auto|injection E2; auto]. }
    rewrite A in T1, T2 by (unfold vec in *; congruence).
    assert (Sy : norm2 (vsub (nth j z []) (nth j X [])) = norm2 (vsub (nth j X []) (nth j z []))).
    { unfold norm2. f_equal. apply sq_sym. }
    rewrite Sy in T1. apply Rabs_le. split; [apply Rplus_le_reg_r with (norm2 (vsub (nth j X []) pos))|]; unfold vec in *; lra. }
  change (sqrt (sqnorm (vsub (nth j z []) pos))) with (norm2 (vsub (nth j z []) pos)). change (sqrt (sqnorm (vsub (nth j X []) pos))) with (norm2 (vsub (nth j X []) pos)).
  assert (TD' : D * M * tdist c (nth j X [], [v]) (nth j z [], [v]) = M * norm2 (vsub (nth j X []) (nth j z []))) by (rewrite <- TD; ring).
  unfold vec in *. rewrite TD'. set (p1 := norm2 (vsub (nth j z []) pos)) in *. set (p2 := norm2 (vsub (nth j X []) pos)) in *. set (p3 := norm2 (vsub (nth j X []) (nth j z []))) in *.
  assert (K : Rabs (v * (p1 - p2)) <= M * p3) by (rewrite Rabs_mult; apply Rmult_le_compat; auto using Rabs_pos). exact (scaled_gap _ _ _ _ _ K).
Qed.
Print Assumptions C118_weber.

(* ---------- LinearRegression ---------- *)
(* the root of the mean squared residual *)
Definition rms_residual (X : list vec) (y : list R) (wt : vec) (b : R) : R := sqrt (rmean (map2 (fun x v => (dot wt x + b - v) ^ 2) X y)).
Lemma rms_seq X y wt b : length y = length X ->
  rms_residual X y wt b = sqrt (rmean (map (fun j => (dot wt (nth j X []) + b - nth j y 0) * (dot wt (nth j X []) + b - nth j y 0)) (seq 0 (length X)))).
Proof.
  intros E. unfold rms_residual. do 2 f_equal. revert y E. induction X as [|x X IH]; intros [|v y] E; try discriminate; [reflexivity|].
  cbn [length seq map map2 nth]. f_equal; [ring|]. rewrite <- seq_shift, map_map. apply IH. injection E; auto.
Qed.
Lemma rms_objective X y wt b rho : length y = length X -> X <> [] -> lin_objective rho (List.combine X y) wt b = rms_residual X y wt b + rho * norm2 wt.
Proof.
  intros E Nx. rewrite lin_objective_split. f_equal. unfold rms_residual.
  assert (Nc : map (lin_residual wt b) (List.combine X y) <> []) by (destruct X, y; try contradiction; try discriminate).
  rewrite <- (sqrt_square (rms _)) by apply rms_nonneg. f_equal. rewrite rms_sq by exact Nc. rewrite map_map. f_equal.
  clear Nc Nx. revert y E. induction X as [|x X IH]; intros [|v y] E; try discriminate; [reflexivity|]. cbn [List.combine map map2]. f_equal; [unfold lin_residual; cbn [fst snd]; rewrite (dot_comm x wt); ring|]. apply IH. injection E; auto.
Qed.
Lemma square_cost c a b : tc_power c = 2 -> 0 <= tdist c a b -> pt_cost c a b = tdist c a b * tdist c a b.
Proof. intros P T. rewrite cost_dist by lra. rewrite P. apply ppow_2. exact T. Qed.
Lemma residual_move c wt b W (x z l l' : vec) same : residual_slope c wt same W -> (same -> l' = l) -> length x = length wt -> length z = length wt -> length l = 1%nat -> length l' = 1%nat ->
  (forall p w k, c = TNLC p w (KFin k) -> valid_exp p) ->
  0 <= tdist c (x, l) (z, l') /\ Rabs ((dot wt z + b - hd 0 l') - (dot wt x + b - hd 0 l)) <= W * tdist c (x, l) (z, l').
Proof.
  intros H Sm Lx Lz Ll Ll' V. destruct c as [p w|p w [k|]]; cbn [residual_slope tdist fst snd] in *; [| |contradiction].
  - destruct H as [Sa Sl]. rewrite (Sm Sa). split; [apply pnorm_nonneg|]. pose proof (slope_move p wt W x z Sl Lx Lz) as M.
    replace (dot wt z + b - hd 0 l - (dot wt x + b - hd 0 l)) with (dot wt z - dot wt x) by ring. exact M.
  - destruct H as (K & W1 & Sl & ->). specialize (V p w k eq_refl). pose proof (slope_move p wt W1 x z Sl Lx Lz) as M.
    destruct l as [|u [|]], l' as [|u' [|]]; try discriminate. cbn [hd].
    assert (Pn : pnorm p (vsub [u] [u']) = Rabs (u - u')).
    { pose proof (pnorm_vscal p (u - u') [1] V) as Q3. replace (vscal (u - u') [1]) with (vsub [u] [u']) in Q3 by (unfold vscal, vsub; cbn; f_equal; ring). rewrite Q3.
      assert (pnorm p [1] = 1) as ->; [|ring]. destruct p as [q|]; cbn; [|unfold Rmax; rewrite Rabs_R1; destruct (Rle_dec _ _); lra].
      unfold ppow at 2. rewrite Rabs_R1. destruct (Rlt_dec 0 1); [|lra]. rewrite Rpower_1_l, Rplus_0_r. unfold ppow. destruct (Rlt_dec 0 1); [|lra]. apply Rpower_1_l. }
    rewrite Pn. pose proof (pnorm_nonneg p (vsub x z)) as N. pose proof (Rabs_pos (u - u')) as N'. set (q := pnorm p (vsub x z)) in *. set (g := Rabs (u - u')) in *.
    split; [apply Rmult_le_pos; [nra|left; apply Rinv_0_lt_compat; lra]|].
    replace (dot wt z + b - u' - (dot wt x + b - u)) with ((dot wt z - dot wt x) + (u - u')) by ring.
    eapply Rle_trans; [apply Rabs_triang|]. fold g. set (m := Rmax W1 (/ k)). pose proof (Rmax_l W1 (/ k)) as M1. pose proof (Rmax_r W1 (/ k)) as M2. fold m in M1, M2.
    replace ((1 + k) * m * ((q + k * g) / (1 + k))) with (m * q + m * k * g) by (field; lra).
    assert (A1 : W1 * q <= m * q) by (apply Rmult_le_compat_r; assumption).
    assert (A2 : 1 * g <= m * k * g) by (apply Rmult_le_compat_r; [exact N'|]; apply Rmult_le_compat_r with (r := k) in M2; [|lra]; rewrite Rinv_l in M2 by lra; exact M2).
    clearbody q g m. apply Rplus_le_compat; [apply Rle_trans with (W1 * q); assumption|rewrite Rmult_1_l in A2; exact A2].
Qed.

Lemma linear_bound c rho e wt b pen X y n zs zls W : 0 < e -> 0 < rho -> tc_power c = 2 -> (forall p w k, c = TNLC p w (KFin k) -> valid_exp p) -> X <> [] -> widths (length wt) X -> length y = length X ->
  is_grid n (length X) (length wt) zs -> is_grid n (length X) 1 zls -> zs <> [] -> residual_slope c wt (Forall (eq (map (fun v => [v]) y)) zls) W -> 0 <= W ->
  let S := rms_residual X y wt b in
  robust_labelled (pt_cost c) (tc_power c) rho e (quad_multiplier W S rho) (fun x l => (dot wt x + b - hd 0 l) ^ 2 + pen) X (map (fun v => [v]) y) zs zls <= (S + rho * W) ^ 2 + pen.
Proof.
  intros He Hr Hp V Nx Wx E G Gl Nz HW W0 S. set (f := fun j => dot wt (nth j X []) + b - nth j y 0).
  destruct (quad_rows f (seq 0 (length X)) W rho pen ltac:(apply seq_ne; destruct X; [contradiction|cbn; lia]) W0 Hr) as (_ & B & HB & Tot). assert (RS : S = sqrt (rmean (map (fun j => f j * f j) (seq 0 (length X))))) by exact (rms_seq X y wt b E). rewrite <- RS in HB, Tot.
  eapply Rle_trans; [apply (robust_labelled_le _ _ _ _ _ _ _ _ _ _ B He Nz (grids_length _ _ _ _ _ _ G Gl))|].
  - intros j z zl Hj Hin. destruct (sample_widths n (length X) (length wt) 1 zs zls G Gl z zl j Hin Hj) as [L1 L2]. pose proof (widths_nth _ _ _ Wx Hj) as L3.
    assert (Ey : nth j (map (fun v => [v]) y) [] = [nth j y 0]) by (apply (nth_map (fun v => [v])); unfold vec in *; lia). rewrite Ey.
    destruct (residual_move c wt b W (nth j X []) (nth j z []) [nth j y 0] (nth j zl []) _ HW) as [T0 T1]; auto.
    { intros Same. rewrite Forall_forall in Same. rewrite <- (Same zl (in_combine_r _ _ _ _ Hin)). exact Ey. }
    rewrite square_cost by assumption. specialize (HB j _ _ ltac:(apply in_seq; lia) T0 T1). unfold f in HB. cbn [hd] in HB.
    replace (dot wt (nth j X []) + b - nth j y 0 + (dot wt (nth j z []) + b - hd 0 (nth j zl []) - (dot wt (nth j X []) + b - nth j y 0))) with (dot wt (nth j z []) + b - hd 0 (nth j zl [])) in HB by ring. exact HB.
  - rewrite Hp. replace (Rpower rho 2) with (rho * rho) by (change 2 with (INR 2); rewrite Rpower_pow by exact Hr; simpl; ring). exact Tot.
Qed.

(* LinearRegression without importance sampling: at the best multiplier the objective is at most (root mean squared residual + rho W)^2 + penalty *)
Theorem C118_linear pf a X y d t wt b c : lr_dispatch pf a X y = Ok (FTorch d t) -> X <> [] -> widths (length wt) X -> length y = length X -> 0 < lr_rho a ->
  a_imp_samp d = false -> tcost_of (a_cost d) = Some c -> tc_power c = 2 -> valid_exp (tc_p c) ->
  let ys := map (fun v => [v]) y in let S := rms_residual X y wt b in
  forall n zs zls e s grads W, is_grid n (length X) (length wt) zs -> is_grid n (length X) 1 zls -> zs <> [] -> a_epsilon d = Fin e -> 0 < e ->
  residual_slope c wt (Forall (eq ys) zls) W -> 0 <= W ->
  exists v, t_compute_dual (lr_call wt b) (wrapped_of d [] [wt; [b]]) c s grads (dual_of d (tc_power c) e (quad_multiplier W S (lr_rho a)))
              (Tensor.batch [length X] (length wt) X) (Some (Tensor.batch [length X] 1 ys)) (grid n (length X) (length wt) zs) (Some (grid n (length X) 1 zls)) = Ok (Scalar (Fin v)) /\
    v <= (S + lr_rho a * W) ^ 2 + penalty (lr_l2_reg a) (wt ++ [b]).
Proof.
  intros H Nx Wx E Hr Hi Hc Hp V ys S n zs zls e s grads W G Gl Nz He Hep HW W0.
  destruct (C113_linear pf a X y d t wt b H Nx Wx E Hr) as (_ & c' & Hc' & Q). rewrite Hc in Hc'. injection Hc' as <-.
  destruct (Q n zs zls e (quad_multiplier W S (lr_rho a)) grads G Gl Nz He ltac:(lra)) as [Q1 _]. eexists. split; [exact (Q1 Hi s)|].
  apply (linear_bound c (lr_rho a) e wt b _ X y n zs zls W); auto. intros p w k ->. exact V.
Qed.
Print Assumptions C118_linear.

(* ... so with the squared Euclidean cost on the features it is at most the exact worst case that the dedicated solver minimises:
   whatever bounds the worst-case root mean squared error bounds the root of the objective. *)
Theorem C118_linear_worst_case pf a X y d t wt b bound : lr_dispatch pf a X y = Ok (FTorch d t) -> X <> [] -> widths (length wt) X -> length y = length X -> 0 < lr_rho a ->
  a_imp_samp d = false -> tcost_of (a_cost d) = Some (TNC (PFin 2) 2) -> lin_worst_le (length wt) (lr_rho a) (List.combine X y) wt b bound ->
  let ys := map (fun v => [v]) y in
  exists lam, 0 <= lam /\ forall n zs e s grads, is_grid n (length X) (length wt) zs -> zs <> [] -> a_epsilon d = Fin e -> 0 < e ->
  exists v, t_compute_dual (lr_call wt b) (wrapped_of d [] [wt; [b]]) (TNC (PFin 2) 2) s grads (dual_of d 2 e lam)
              (Tensor.batch [length X] (length wt) X) (Some (Tensor.batch [length X] 1 ys)) (grid n (length X) (length wt) zs) (Some (grid n (length X) 1 (repeat ys n))) = Ok (Scalar (Fin v)) /\
    v <= bound ^ 2 + penalty (lr_l2_reg a) (wt ++ [b]).
Proof.
  intros H Nx Wx E Hr Hi Hc Hb ys. exists (quad_multiplier (norm2 wt) (rms_residual X y wt b) (lr_rho a)). split.
  { unfold quad_multiplier. pose proof (norm2_nonneg wt). assert (0 <= rms_residual X y wt b) by apply sqrt_pos. assert (0 <= norm2 wt * rms_residual X y wt b / lr_rho a) by (apply Rmult_le_pos; [nra|left; apply Rinv_0_lt_compat; exact Hr]). nra. }
  intros n zs e s grads G Nz He Hep.
  assert (Gl : is_grid n (length X) 1 (repeat ys n)).
  { split; [apply repeat_length|]. apply Forall_forall. intros l Hl. apply repeat_spec in Hl. subst l. split; [unfold ys; rewrite map_length; unfold vec in *; exact E|]. apply widths_column. }
  destruct (C118_linear pf a X y d t wt b _ H Nx Wx E Hr Hi Hc eq_refl ltac:(simpl; lra) n zs (repeat ys n) e s grads (norm2 wt) G Gl Nz He Hep) as (v & Q1 & Q2).
  - split; [apply Forall_forall; intros l Hl; apply repeat_spec in Hl; symmetry; exact Hl|]. intros h Lh. rewrite pnorm_2. apply abs_dot_le. symmetry. exact Lh.
  - apply norm2_nonneg.
  - exists v. split; [exact Q1|]. eapply Rle_trans; [exact Q2|]. apply Rplus_le_compat_r. rewrite <- (rms_objective X y wt b (lr_rho a) E Nx).
    assert (Nd : List.combine X y <> []) by (destruct X, y; try contradiction; try discriminate).
    assert (Fd : Forall (fun xy : vec * R => length (fst xy) = length wt) (List.combine X y)).
    { apply Forall_forall. intros [x v'] Hin. apply in_combine_l in Hin. unfold widths in Wx. rewrite Forall_forall in Wx. apply Wx. exact Hin. }
    apply (proj1 (C50_objective_is_worst_case (length wt) (lr_rho a) (List.combine X y) wt b bound ltac:(lra) Nd Fd eq_refl)) in Hb.
    apply pow_incr. split; [|exact Hb]. rewrite (rms_objective X y wt b (lr_rho a) E Nx). assert (0 <= rms_residual X y wt b) by apply sqrt_pos. pose proof (norm2_nonneg wt). nra.
Qed.
Print Assumptions C118_linear_worst_case.

Lemma in_map2 {A B C} (f : A -> B -> C) : forall X y g, In g (map2 f X y) -> exists x v, g = f x v.
Proof. induction X as [|x X IH]; intros [|v y] g Hg; cbn in Hg; try contradiction. destruct Hg as [<-|Hg]; [exists x, v; reflexivity|exact (IH y g Hg)]. Qed.
Lemma displaced_grid (step : vec -> vec) (G : list vec) n m k zs : is_grid n m k zs -> length G = m -> (forall g, In g G -> length (step g) = k) -> is_grid n m k (displaced step G zs).
Proof.
  intros [E F] LG HG. split; [unfold displaced; rewrite map_length; exact E|]. unfold displaced. apply Forall_map. revert F. apply Forall_impl. intros z [Lz Wz]. unfold vec in *. split; [rewrite map2_length; congruence|].
  assert (EE : length z = length G) by congruence. clear -HG Wz EE. unfold widths in *. revert G HG EE. induction Wz as [|v z Hv Wz IH]; intros [|g G] HG EE; try discriminate; cbn [map2]; constructor.
  - unfold vadd. rewrite map2_length; [exact Hv|]. rewrite Hv. symmetry. apply HG. left; reflexivity.
  - apply IH; [intros; apply HG; right; assumption|injection EE; auto].
Qed.
(* With importance sampling, which moves features and labels along the gradients, the same bound holds for the cost on both. *)
Theorem C118_linear_importance D pf a X y d t wt b kp : differentiates D -> lr_dispatch pf a X y = Ok (FTorch d t) -> X <> [] -> widths (length wt) X -> length y = length X -> 0 < lr_rho a ->
  a_imp_samp d = true -> tcost_of (a_cost d) = Some (TNLC (PFin 2) 2 (KFin kp)) -> 0 < kp -> Exists (fun a => a <> 0) wt ->
  let ys := map (fun v => [v]) y in let S := rms_residual X y wt b in let W := (1 + kp) * Rmax (norm2 wt) (/ kp) in
  forall n zs zls e s, is_grid n (length X) (length wt) zs -> is_grid n (length X) 1 zls -> zs <> [] -> a_epsilon d = Fin e -> 0 < e -> tsampler_of d (length wt) 1 = Some s ->
  exists v, t_compute_dual (lr_call wt b) (wrapped_of d [] [wt; [b]]) (TNLC (PFin 2) 2 (KFin kp)) s (direction (w_value (lr_call wt b) (wrapped_of d [] [wt; [b]])) D)
              (dual_of d 2 e (quad_multiplier W S (lr_rho a))) (Tensor.batch [length X] (length wt) X) (Some (Tensor.batch [length X] 1 ys))
              (grid n (length X) (length wt) zs) (Some (grid n (length X) 1 zls)) = Ok (Scalar (Fin v)) /\
    v <= (S + lr_rho a * W) ^ 2 + penalty (lr_l2_reg a) (wt ++ [b]).
Proof.
  intros HD H Nx Wx E Hr Hi Hc Hk Nw ys S W n zs zls e s G Gl Nz He Hep Es.
  assert (Ck : c_kappa (a_cost d) = Some (Fin kp)).
  { unfold tcost_of in Hc. destruct (nexp_of _); [|discriminate]. destruct (c_power _); try discriminate. destruct (c_kind _); [discriminate|]. destruct (c_kappa (a_cost d)) as [kk|]; [|discriminate].
    destruct kk; cbn [kap_of] in Hc; congruence. }
  assert (W0 : 0 < W) by (unfold W; apply Rmult_lt_0_compat; [lra|]; pose proof (Rmax_r (norm2 wt) (/ kp)); pose proof (Rinv_0_lt_compat kp Hk); lra).
  assert (L0 : 0 < quad_multiplier W S (lr_rho a)).
  { unfold quad_multiplier. assert (0 <= S) by apply sqrt_pos. assert (0 <= W * S / lr_rho a) by (apply Rmult_le_pos; [nra|left; apply Rinv_0_lt_compat; exact Hr]). nra. }
  destruct (C114_linear_importance D pf a X y d t wt b HD H Nx Wx E Hr Hi) as (c & Hc' & Q). rewrite Hc in Hc'. injection Hc' as <-.
  specialize (Q n zs zls e (quad_multiplier W S (lr_rho a)) s kp G Gl Nz He ltac:(lra) Es Ck ltac:(lra) ltac:(lra) Nw). destruct Q as [Q1 Q2].
  assert (Bd : forall zs' zls', is_grid n (length X) (length wt) zs' -> is_grid n (length X) 1 zls' -> zs' <> [] ->
    robust_labelled (pt_cost (TNLC (PFin 2) 2 (KFin kp))) 2 (lr_rho a) e (quad_multiplier W S (lr_rho a)) (fun x l => (dot wt x + b - hd 0 l) ^ 2 + penalty (lr_l2_reg a) (wt ++ [b])) X ys zs' zls'
      <= (S + lr_rho a * W) ^ 2 + penalty (lr_l2_reg a) (wt ++ [b])).
  { intros zs' zls' G1 G2 N1. apply (linear_bound (TNLC (PFin 2) 2 (KFin kp)) (lr_rho a) e wt b _ X y n zs' zls' W); auto; try lra.
    - intros p w k Ek. injection Ek as <- _ _. simpl. lra.
    - cbn [residual_slope]. split; [exact Hk|]. exists (norm2 wt). split; [|reflexivity]. intros h Lh. rewrite pnorm_2. apply abs_dot_le. symmetry. exact Lh. }
  set (r := fun x v => dot wt x + b - v) in *.
  assert (Dec : Forall2 (fun x v => r x v <> 0) X y \/ exists j, (j < length X)%nat /\ r (nth j X []) (nth j y 0) = 0).
  { clear -E. unfold vec in *. revert y E. induction X as [|x X IH]; intros [|v y] E; try discriminate; [left; constructor|]. destruct (Req_dec (r x v) 0) as [Z|NZ]; [right; exists 0%nat; cbn; split; [lia|exact Z]|].
    destruct (IH y ltac:(injection E; auto)) as [F|(j & Hj & Z)]; [left; constructor; assumption|right; exists (S j); cbn; split; [lia|exact Z]]. }
  destruct Dec as [F|Z].
  - eexists. split; [exact (Q1 F)|]. apply Bd.
    + apply displaced_grid; [exact G|apply map2_len; exact E|]. intros g Hg. unfold shift. rewrite vscal_length. apply in_map2 in Hg. destruct Hg as (x & v & ->). apply vscal_length.
    + apply displaced_grid; [exact Gl|apply map2_len; exact E|]. intros g Hg. rewrite vscal_length. unfold shift. rewrite vscal_length. apply in_map2 in Hg. destruct Hg as (x & v & ->). reflexivity.
    + unfold displaced. apply map_neq_nil. exact Nz.
  - eexists. split; [exact (Q2 Z)|]. apply Bd; assumption.
Qed.
Print Assumptions C118_linear_importance.

(* LinearRegression with the squared Euclidean cost on the features, pre-sampling, two points: the hypotheses hold *)
Definition lr_features_only : lr_args :=
  {| lr_rho := 1 / 2; lr_l2_reg := 0; lr_fit_intercept := true; lr_cost := "t-NC-2-2"; lr_solver_name := "entropic_torch_pre";
     lr_solver_reg := Some 1; lr_sampler_reg := None; lr_lr := None; lr_n_zeta := 10; lr_seed := 0; lr_n_iter := None |}.
Example C118_case :
  (exists d t, lr_dispatch read lr_features_only [[1]; [3]] [1; 5] = Ok (FTorch d t) /\ a_imp_samp d = false /\ tcost_of (a_cost d) = Some (TNC (PFin 2) 2) /\ a_epsilon d = Fin 1) /\
  widths 1 [[1]; [3]] /\ is_grid 2 2 1 [[[1]; [2]]; [[0]; [4]]] /\ slope (PFin 2) [2] 2 /\ lin_worst_le 1 (1 / 2) (List.combine [[1]; [3]] [1; 5]) [2] (-1) 1 /\
  residual_slope (TNLC (PFin 2) 2 (KFin 1)) [2] False 4 /\ features_price (TNLC (PFin 2) 2 (KFin 1)) 2 /\ lip_multiplier 2 (1 / 2) 1 = 2 /\ quad_multiplier 2 0 (1 / 2) = 4.
Proof.
  assert (S2 : slope (PFin 2) [2] 2).
  { intros [|h [|]] L; try discriminate. rewrite pnorm_2, norm2_single. unfold dot. cbn. rewrite Rplus_0_r, Rabs_mult, (Rabs_right 2) by lra. lra. }
  split; [|split; [repeat constructor|split; [|split; [exact S2|split; [|split; [|split; [|split]]]]]]].
  - assert (Dc : exists c, decode_cost read "t-NC-2-2" = Ok c) by (unfold decode_cost, cost_from_str; cbn -[dk x_ge0]; unfold NormCost; eauto). destruct Dc as [c Dc].
    unfold lr_dispatch. cbn [lr_cost lr_features_only]. rewrite Dc. cbn [bind lr_solver_name]. change (String.eqb "entropic_torch_pre" "entropic") with false. change (contains "torch" "entropic_torch_pre") with true. cbv iota.
    match goal with |- context [dualize read ?u] => destruct (dualize_outcome read u (mkParsed "t" "NC" (Fin 2) (Fin 2) dk) (mkCost NC (Fin 2) (Fin 2) None "Norm") eq_refl eq_refl (sigma_none_pos _)) as [H _];
      destruct H as (d & Hd & Ec & _ & _ & _ & _ & Ee & Hi); [right; split; reflexivity|]; rewrite Hd end.
    eexists _, _. split; [reflexivity|]. split; [|split; [rewrite Ec; reflexivity|rewrite Ee; reflexivity]].
    destruct (a_imp_samp d); [|reflexivity]. destruct Hi as [Hi _]. destruct (Hi eq_refl) as [Q _]. discriminate.
  - split; [reflexivity|]. repeat (apply Forall_cons; [split; [reflexivity|repeat constructor]|]). constructor.
  - apply (C50_objective_is_worst_case 1 (1 / 2) _ [2] (-1) 1); [lra|discriminate|repeat constructor|reflexivity|].
    rewrite rms_objective by (try reflexivity; discriminate). rewrite norm2_single, (Rabs_right 2) by lra. unfold rms_residual, rmean, dot. cbn.
    replace (((2 * 1 + 0 + -1 - 1) * ((2 * 1 + 0 + -1 - 1) * 1) + ((2 * 3 + 0 + -1 - 5) * ((2 * 3 + 0 + -1 - 5) * 1) + 0)) / (1 + 1)) with 0 by field. rewrite sqrt_0. lra.
  - cbn. split; [lra|]. exists 2. split; [exact S2|]. unfold Rmax. rewrite Rinv_1. destruct (Rle_dec 2 1); lra.
  - cbn. lra.
  - unfold lip_multiplier. replace (1 - 1) with 0 by ring. rewrite Rpower_O by lra. field.
  - unfold quad_multiplier. field.
Qed.
