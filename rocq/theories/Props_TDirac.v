(* C113, importance sampling with labels that cannot move: LinearRegression, LogisticRegression and Weber with the squared Euclidean cost on
   the features only, or with an infinite weight of the labels. *)
From Coq Require Import Reals List Bool ZArith String Arith Lra Lia Sorted.
From Verif Require Import PyBase RList XReal Tensor Loss_Model Loss_Spec Loss_Proofs Costs_Model Costs_Proofs CostDecoder_Model OptCond_Model Samplers_Model Samplers_Spec Draws_Proofs Wrap_Model
  DedProg_Model DedProg_Spec Estim_Model Estim_Proofs Handover_Proofs Dual_Model Dual_Spec Dual_Proofs TDual_Model TDual_Spec TDual_Proofs Displace_Model Displace_Proofs ImpSamp_Model Props_DedProg Props_Loss Props_TDual Props_Estim Wrap_Proofs
  EstDual_Model EstDual_Spec EstDual_Proofs Props_EstDual Gradient Grads_Model Props_Grads DedLin_Proofs DedLog_Proofs Certificate_Spec Certificate_Proofs Props_Certificate TDirac_Model TDirac_Proofs.
Import ListNotations.
Local Open Scope R_scope.
Local Notation length := List.length.

(* LinearRegression *)
Theorem C113_fixed_linear pf a X y d t wt b : lr_dispatch pf a X y = Ok (FTorch d t) -> X <> [] -> widths (length wt) X -> length y = length X -> 0 < lr_rho a ->
  trains_fixed d (lr_call wt b) (wrapped_of d [] [wt; [b]]) (length wt) 1
    (fun x l => (dot wt x + b - hd 0 l) ^ 2 + penalty (lr_l2_reg a) (wt ++ [b])) X (map (fun v => [v]) y) (lr_rho a).
Proof.
  intros H Nx W E Hr. destruct (lr_received _ _ _ _ _ _ H) as (Rs & Q). destruct (lr_dualized _ _ _ _ _ _ H) as (u & Hu & Ux & Uy).
  apply (fixed_trains pf u d d); auto; try apply (r_rho _ _ _ _ _ _ _ _ _ _ _ Q); try apply (r_reduction _ _ _ _ _ _ _ _ _ _ _ Q); try apply widths_column; [|rewrite map_length; exact E].
  apply (samplewise_labelled_ext _ _ _ (fun x l => rmean [(dot wt x + b - hd 0 l) * (dot wt x + b - hd 0 l)] + penalty (lr_l2_reg a) (wt ++ [b]))).
  - intros x l _ _. rewrite rmean1. f_equal. simpl. ring.
  - assert (P : wt ++ [b] = List.concat ([] ++ [wt; [b]])) by reflexivity. rewrite P.
    apply (C112_losses_labelled _ _ _ _ _ 1 (fun x l => [(dot wt x + b - hd 0 l) * (dot wt x + b - hd 0 l)])); auto.
    + apply penalised_by; [apply (r_l2 _ _ _ _ _ _ _ _ _ _ _ Q)|discriminate].
    + cbn. apply (r_labels _ _ _ _ _ _ _ _ _ _ _ Q). discriminate.
    + apply lr_rowwise.
Qed.
Print Assumptions C113_fixed_linear.

(* LogisticRegression, two classes *)
Theorem C113_fixed_logistic_binary pf a X y d t wt b c0 c1 : lg_dispatch pf a X y = Ok (FTorch d t) -> (c0 < c1)%Z -> (forall v, In v y <-> v = c0 \/ v = c1) ->
  X <> [] -> widths (length wt) X -> length y = length X -> 0 < lg_rho a ->
  let bias := if lg_fit_intercept a then b else 0 in
  let trained := if lg_fit_intercept a then [wt; [b]] else [wt] in
  trains_fixed d (lg_call wt bias) (wrapped_of d [] trained) (length wt) 1
    (fun x l => ln (1 + exp (- (hd 0 l * (dot wt x + bias)))) + penalty (lg_l2_reg a) (List.concat trained)) X (map (fun v => [if Z.eq_dec v c0 then -1 else 1]) y) (lg_rho a).
Proof.
  intros H Hc Hy Nx W E Hr bias trained.
  assert (U : unique_labels y = [c0; c1]).
  { apply sorted_unique; [apply unique_sorted|repeat constructor; exact Hc|]. intros v. rewrite unique_in, Hy. simpl. intuition. }
  assert (T : lg_targets y = Ok (map (fun v => [if Z.eq_dec v c0 then -1 else 1]) y)).
  { rewrite (targets_two y c0 c1 U). f_equal. apply map_ext. intros v. destruct (Z.eqb_spec v c0), (Z.eq_dec v c0); congruence. }
  destruct (lg_received _ _ _ _ _ _ H) as (ts & T' & Rs & Q). rewrite T in T'. injection T' as <-. destruct (lg_dualized _ _ _ _ _ _ _ H T) as (u & Hu & Ux & Uy).
  assert (Wt : forall v, length (if Z.eq_dec v c0 then [-1] else [1]) = 1%nat) by (intros v; destruct (Z.eq_dec v c0); reflexivity).
  apply (fixed_trains pf u d d); auto; try apply (r_rho _ _ _ _ _ _ _ _ _ _ _ Q); try apply (r_reduction _ _ _ _ _ _ _ _ _ _ _ Q).
  - apply (samplewise_labelled_ext _ _ _ (fun x l => rmean [ln (1 + exp (- (hd 0 l * (dot wt x + bias))))] + penalty (lg_l2_reg a) (List.concat trained))).
    + intros x l _ _. rewrite rmean1. reflexivity.
    + apply (C112_losses_labelled _ _ _ _ _ 1 (fun x l => [ln (1 + exp (- (hd 0 l * (dot wt x + bias))))])); auto.
      * apply (penalised_by d [] trained); [apply (r_l2 _ _ _ _ _ _ _ _ _ _ _ Q)|]. unfold trained. destruct (lg_fit_intercept a); discriminate.
      * cbn. apply (r_labels _ _ _ _ _ _ _ _ _ _ _ Q). discriminate.
      * cbn. apply Rs. rewrite U. reflexivity.
      * apply bin_rowwise.
  - clear. unfold widths. induction y; constructor; [reflexivity|assumption].
  - rewrite map_length. exact E.
Qed.
Print Assumptions C113_fixed_logistic_binary.

(* LogisticRegression, more classes *)
Theorem C113_fixed_logistic_multi pf a X y d t wts bs k classes : lg_dispatch pf a X y = Ok (FTorch d t) ->
  StronglySorted Z.lt classes -> (forall v, In v y <-> In v classes) -> (2 < length classes)%nat -> length wts = length classes -> length bs = length classes ->
  X <> [] -> widths k X -> length y = length X -> 0 < lg_rho a ->
  let biases := if lg_fit_intercept a then bs else map (fun _ => 0) bs in
  let trained := if lg_fit_intercept a then [List.concat wts; bs] else [List.concat wts] in
  trains_fixed d (mc_call wts biases k) (wrapped_of d [] trained) k (length classes)
    (fun x l => - rsum (map2 (fun s q => q * (s - ln (rsum (map exp (scores wts biases x))))) (scores wts biases x) l) + penalty (lg_l2_reg a) (List.concat trained))
    X (map (fun v => map (fun c => if Z.eq_dec v c then 1 else 0) classes) y) (lg_rho a).
Proof.
  intros H Hs Hy N2 Lw Lb Nx W E Hr biases trained.
  assert (U : unique_labels y = classes).
  { apply sorted_unique; [apply unique_sorted|exact Hs|]. intros v. rewrite unique_in, Hy. reflexivity. }
  assert (T : lg_targets y = Ok (map (fun v => map (fun c => if Z.eq_dec v c then 1 else 0) classes) y)).
  { rewrite targets_many by (rewrite U; exact N2). rewrite U. f_equal. apply map_ext. intros v. apply map_ext. intros c. destruct (Z.eqb_spec v c), (Z.eq_dec v c); congruence. }
  assert (N2b : (length (unique_labels y) =? 2)%nat = false) by (apply Nat.eqb_neq; rewrite U; lia).
  destruct (lg_received _ _ _ _ _ _ H) as (ts & T' & Rs & Q). rewrite T in T'. injection T' as <-. destruct (lg_dualized _ _ _ _ _ _ _ H T) as (u & Hu & Ux & Uy).
  apply (fixed_trains pf u d d); auto; try apply (r_rho _ _ _ _ _ _ _ _ _ _ _ Q); try apply (r_reduction _ _ _ _ _ _ _ _ _ _ _ Q).
  - apply (samplewise_labelled_ext _ _ _ (fun x l => - rsum (map2 (fun s q => (s - ln (rsum (map exp (scores wts biases x)))) * q) (scores wts biases x) l) + penalty (lg_l2_reg a) (List.concat trained))).
    + intros x l _ _. do 3 f_equal. apply map2_in_ext. intros. ring.
    + apply (C112_losses_flat _ _ _ _ _ (fun x l => - rsum (map2 (fun s q => (s - ln (rsum (map exp (scores wts biases x)))) * q) (scores wts biases x) l))).
      * apply (penalised_by d [] trained); [apply (r_l2 _ _ _ _ _ _ _ _ _ _ _ Q)|]. unfold trained. destruct (lg_fit_intercept a); discriminate.
      * cbn. apply (r_labels _ _ _ _ _ _ _ _ _ _ _ Q). discriminate.
      * cbn. destruct (a_reduce_spatial d); [|reflexivity]. destruct Rs as [Rs _]. specialize (Rs eq_refl). apply Nat.eqb_neq in N2b. contradiction.
      * rewrite <- Lw. apply mc_rowwise. unfold biases. destruct (lg_fit_intercept a); rewrite ?map_length; unfold vec in *; congruence.
  - clear. unfold widths. induction y; constructor; [apply map_length|assumption].
  - rewrite map_length. exact E.
Qed.
Print Assumptions C113_fixed_logistic_multi.

(* Weber *)
Theorem C113_fixed_weber pf a X y d t pos : wb_dispatch pf a X y = Ok (FTorch d t) -> X <> [] -> widths (length pos) X -> length y = length X -> 0 < wb_rho a ->
  trains_fixed d (wb_call pos) (wrapped_of d [pos] []) (length pos) 1
    (fun x l => hd 0 l * sqrt (sqnorm (vsub x pos)) + penalty (wb_l2_reg a) pos) X (map (fun v => [v]) y) (wb_rho a).
Proof.
  intros H Nx W E Hr. destruct (wb_received _ _ _ _ _ _ H) as (T & Rs & Q & _). destruct (wb_dualized _ _ _ _ _ _ H) as (u & d0 & Hu & Ux & Uy & Ec & Ei & Es).
  apply (fixed_trains pf u d0 d); auto; try apply (r_rho _ _ _ _ _ _ _ _ _ _ _ Q); try apply (r_reduction _ _ _ _ _ _ _ _ _ _ _ Q); try apply widths_column; [|rewrite map_length; exact E].
  apply (samplewise_labelled_ext _ _ _ (fun x l => rmean [hd 0 l * norm2 (vsub x pos)] + penalty (wb_l2_reg a) (List.concat ([pos] ++ [])))).
  - intros x l _ _. rewrite rmean1. simpl. rewrite app_nil_r. reflexivity.
  - apply (C112_losses_labelled _ _ _ _ _ 1 (fun x l => [hd 0 l * norm2 (vsub x pos)])); auto.
    + apply penalised_by; [apply (r_l2 _ _ _ _ _ _ _ _ _ _ _ Q)|discriminate].
    + cbn. apply (r_labels _ _ _ _ _ _ _ _ _ _ _ Q). discriminate.
    + apply wb_rowwise.
Qed.
Print Assumptions C113_fixed_weber.

(* Whenever importance sampling is used on a labelled problem, the sampler is one of the two kinds: Gaussian labels (C113_linear etc.) or
   fixed labels (here). *)
(* a cost that keeps the labels comes with the Dirac label sampler *)
Lemma kept_sampler pf u d0 d k kl xs ys c : dualize pf u = Ok d0 -> a_cost d = a_cost d0 -> a_sampler d = a_sampler d0 -> u_xi u = xs -> u_labels u = Some ys ->
  tcost_of (a_cost d) = Some c -> keeps_labels c -> exists s, dsampler_of d k kl = Some s.
Proof.
  intros Hd Hc Hs Hxi Hy Ec K. rewrite Hc in Ec. destruct (dualize_cost pf u d0 Hd) as (c' & Ec' & _ & _ & Sc & _). rewrite Ec' in Ec. injection Ec as ->. destruct K as [-> | ->];
  unfold dsampler_of; rewrite Hs; unfold dualize in Hd; rewrite Hxi, Hy in Hd;
    (destruct (parse_code_torch _ _ _ _ _ _) as [pc|]; simpl in Hd; [|discriminate]); (destruct (cost_from_parse_torch _ _ _) as [cc|]; simpl in Hd; [|discriminate]);
    (match type of Hd with (do s <- ?x; _) = _ => destruct x as [cs|] eqn:EL end; simpl in Hd; [|discriminate]); injection Hd as <-; cbn [a_cost a_sampler] in *;
    (assert (Pp : c_p cc = Fin 2 /\ c_power cc = Fin 2);
     [unfold tcost_of in Ec'; destruct (c_p cc) as [q| | |]; cbn [nexp_of] in Ec'; try discriminate; destruct (c_power cc) as [r| | |]; try discriminate; destruct (c_kind cc), (c_kappa cc) as [kk|]; try discriminate;
      try (destruct (kap_of kk); try discriminate); injection Ec'; intros; subst; split; congruence|]);
    destruct Pp as [P1 P2]; rewrite P1, P2 in Sc;
    (assert (F2 : family (Fin 2) (Fin 2) = Some FNormal) by (unfold family, xeq, Reqb; destruct (Req_EM_T 2 1); [lra|]; destruct (Req_EM_T 2 2); [reflexivity|lra]));
    apply labeled_inv in EL; destruct EL as (f & l & Ff & _ & Ed & El & Ecl); rewrite Ed, Ecl; rewrite Sc in El, Ff; cbn [sc_p sc_power] in Ff; rewrite F2 in Ff; injection Ff as <-.
  - cbn [sampler_labels] in El. injection El as <-. eauto.
  - unfold sampler_labels in El. cbn [xeq] in El. injection El as <-. eauto.
Qed.
Lemma sampler_kinds pf u d0 d k kl xs ys : dualize pf u = Ok d0 -> a_cost d = a_cost d0 -> a_imp_samp d = a_imp_samp d0 -> a_sampler d = a_sampler d0 -> u_xi u = xs -> u_labels u = Some ys ->
  a_imp_samp d = true -> (exists s, tsampler_of d k kl = Some s) \/ (exists s, dsampler_of d k kl = Some s).
Proof.
  intros Hd Hc Hi Hs Hxi Hy Im. destruct (dualize_cost pf u d0 Hd) as (c & Ec & Ti & _ & Sc & _). rewrite <- Hi in Ti. specialize (Ti Im). rewrite <- Hc in Ec.
  destruct Ti as [-> | [[kp|] ->]]; [right| |right].
  2:{ left. apply (gaussian_sampler pf u d0 d k kl xs ys Hd Hc Hs Hxi Hy kp). exact Ec. }
  all: refine (kept_sampler pf u d0 d k kl xs ys _ Hd Hc Hs Hxi Hy Ec _); [left; reflexivity] || refine (kept_sampler pf u d0 d k kl xs ys _ Hd Hc Hs Hxi Hy Ec _); right; reflexivity.
Qed.
Theorem C113_importance_samplers :
  (forall pf a X y d t k, lr_dispatch pf a X y = Ok (FTorch d t) -> a_imp_samp d = true -> (exists s, tsampler_of d k 1 = Some s) \/ (exists s, dsampler_of d k 1 = Some s)) /\
  (forall pf a X y d t k kl, lg_dispatch pf a X y = Ok (FTorch d t) -> a_imp_samp d = true -> (exists s, tsampler_of d k kl = Some s) \/ (exists s, dsampler_of d k kl = Some s)) /\
  (forall pf a X y d t k, wb_dispatch pf a X y = Ok (FTorch d t) -> a_imp_samp d = true -> (exists s, tsampler_of d k 1 = Some s) \/ (exists s, dsampler_of d k 1 = Some s)).
Proof.
  split; [|split].
  - intros pf a X y d t k H Im. destruct (lr_dualized _ _ _ _ _ _ H) as (u & Hu & Ux & Uy). exact (sampler_kinds pf u d d k 1 _ _ Hu eq_refl eq_refl eq_refl Ux Uy Im).
  - intros pf a X y d t k kl H Im. destruct (lg_received _ _ _ _ _ _ H) as (ts & T & _). destruct (lg_dualized _ _ _ _ _ _ _ H T) as (u & Hu & Ux & Uy). exact (sampler_kinds pf u d d k kl _ _ Hu eq_refl eq_refl eq_refl Ux Uy Im).
  - intros pf a X y d t k H Im. destruct (wb_dualized _ _ _ _ _ _ H) as (u & d0 & Hu & Ux & Uy & Ec & Ei & Es). exact (sampler_kinds pf u d0 d k 1 _ _ Hu Ec Ei Es Ux Uy Im).
Qed.
Print Assumptions C113_importance_samplers.

(* C118 with importance sampling and the cost on the features only: still at most the exact worst case *)
Theorem C118_linear_importance_fixed D pf a X y d t wt b bound : differentiates D -> lr_dispatch pf a X y = Ok (FTorch d t) -> X <> [] -> widths (length wt) X -> length y = length X -> 0 < lr_rho a ->
  a_imp_samp d = true -> tcost_of (a_cost d) = Some (TNC (PFin 2) 2) -> Exists (fun a => a <> 0) wt -> lin_worst_le (length wt) (lr_rho a) (List.combine X y) wt b bound ->
  let ys := map (fun v => [v]) y in
  exists lam, 0 < lam /\ forall n zs e loc sc lloc, is_grid n (length X) (length wt) zs -> zs <> [] -> a_epsilon d = Fin e -> 0 < e -> dsampler_of d (length wt) 1 = Some (loc, sc, lloc) ->
  exists v, td_compute_dual (lr_call wt b) (wrapped_of d [] [wt; [b]]) (TNC (PFin 2) 2) (direction (w_value (lr_call wt b) (wrapped_of d [] [wt; [b]])) D) loc sc lloc (dual_of d 2 e lam)
              (Tensor.batch [length X] (length wt) X) (Some (Tensor.batch [length X] 1 ys)) (grid n (length X) (length wt) zs) (Some (grid n (length X) 1 (repeat ys n))) = Ok (Scalar (Fin v)) /\
    v <= bound ^ 2 + penalty (lr_l2_reg a) (wt ++ [b]).
Proof.
  intros HD H Nx Wx E Hr Hi Hc Nw Hb ys. set (S := rms_residual X y wt b). set (W := norm2 wt). exists (quad_multiplier W S (lr_rho a)).
  assert (W0 : 0 < W) by (apply nonzero_norm; exact Nw).
  assert (L0 : 0 < quad_multiplier W S (lr_rho a)).
  { unfold quad_multiplier. assert (0 <= S) by apply sqrt_pos. assert (0 <= W * S / lr_rho a) by (apply Rmult_le_pos; [nra|left; apply Rinv_0_lt_compat; exact Hr]). nra. }
  split; [exact L0|]. intros n zs e loc sc lloc G Nz He Hep Es.
  assert (Ly : length ys = length X) by (unfold ys; rewrite map_length; unfold vec in *; exact E).
  assert (Gl : is_grid n (length X) 1 (repeat ys n)) by (apply repeat_grid; [exact Ly|apply widths_column]).
  assert (Fy : Forall (eq ys) (repeat ys n)) by (apply Forall_forall; intros l Hl; apply repeat_spec in Hl; symmetry; exact Hl).
  destruct (C113_fixed_linear pf a X y d t wt b H Nx Wx E Hr _ loc sc lloc Hc Hi Es n zs (repeat ys n) e (quad_multiplier W S (lr_rho a))
    (direction (w_value (lr_call wt b) (wrapped_of d [] [wt; [b]])) D) G Gl Nz He ltac:(lra)) as [Q1 Q2]. cbn [tc_power] in Q1, Q2.
  pose proof (C114_linear D pf a X y d t wt b HD H Wx E) as Gr.
  assert (Bd : forall zs', is_grid n (length X) (length wt) zs' -> zs' <> [] ->
    robust_labelled (pt_cost (TNC (PFin 2) 2)) 2 (lr_rho a) e (quad_multiplier W S (lr_rho a)) (fun x l => (dot wt x + b - hd 0 l) ^ 2 + penalty (lr_l2_reg a) (wt ++ [b])) X ys zs' (repeat ys n)
      <= bound ^ 2 + penalty (lr_l2_reg a) (wt ++ [b])).
  { intros zs' G1 N1. eapply Rle_trans; [apply (linear_bound (TNC (PFin 2) 2) (lr_rho a) e wt b _ X y n zs' (repeat ys n) W); auto; try lra|].
    - intros p w k Ek. discriminate.
    - split; [exact Fy|]. intros h Lh. rewrite pnorm_2. apply abs_dot_le. symmetry. exact Lh.
    - apply Rplus_le_compat_r. fold S. unfold W. unfold S. rewrite <- (rms_objective X y wt b (lr_rho a) E Nx).
      assert (Nd : List.combine X y <> []) by (destruct X, y; try contradiction; try discriminate).
      assert (Fd : Forall (fun xy : vec * R => length (fst xy) = length wt) (List.combine X y)).
      { apply Forall_forall. intros [x v'] Hin. apply in_combine_l in Hin. unfold widths in Wx. rewrite Forall_forall in Wx. apply Wx. exact Hin. }
      apply (proj1 (C50_objective_is_worst_case (length wt) (lr_rho a) (List.combine X y) wt b bound ltac:(lra) Nd Fd eq_refl)) in Hb.
      apply pow_incr. split; [|exact Hb]. rewrite (rms_objective X y wt b (lr_rho a) E Nx). assert (0 <= rms_residual X y wt b) by apply sqrt_pos. pose proof (norm2_nonneg wt). nra. }
  set (r := fun x v => dot wt x + b - v) in *.
  assert (Dec : Forall2 (fun x v => r x v <> 0) X y \/ exists j, (j < length X)%nat /\ r (nth j X []) (nth j y 0) = 0).
  { clear -E. unfold vec in *. revert y E. induction X as [|x X IH]; intros [|v y] E; try discriminate; [left; constructor|]. destruct (Req_dec (r x v) 0) as [Z|NZ]; [right; exists 0%nat; cbn; split; [lia|exact Z]|].
    destruct (IH y ltac:(injection E; auto)) as [F|(j & Hj & Z)]; [left; constructor; assumption|right; exists (Datatypes.S j); cbn; split; [lia|exact Z]]. }
  destruct Dec as [F|(j & Hj & Z)].
  - edestruct Q1 as [V _]; [| exact Gr | | | | | | |].
    + lra.
    + apply map2_len. exact E.
    + unfold widths. apply map2_Forall. clear -F. induction F; constructor; [apply vscal_length|assumption].
    + apply map2_Forall. revert F. apply Forall2_weaken.
      intros x v Hv. unfold vscal. apply Exists_exists in Nw. destruct Nw as (q & Hq & Nq). apply Exists_exists. exists (2 * (dot wt x + b - v) * q). split; [apply in_map; exact Hq|].
      apply Rmult_integral_contrapositive_currified; [|exact Nq]. unfold r in Hv. lra.
    + apply map2_len. exact E.
    + unfold widths. apply map2_Forall. clear -F. induction F; constructor; [reflexivity|assumption].
    + apply map2_Forall. revert F. apply Forall2_weaken. intros x v Hv. constructor. unfold r in Hv. lra.
    + eexists. split; [exact (V Fy)|]. apply Bd; [|intros Q; apply Nz; apply map_eq_nil in Q; exact Q].
      apply displaced_grid; [exact G|apply map2_len; exact E|]. intros g Hg. unfold shift. rewrite vscal_length. apply in_map2 in Hg. destruct Hg as (x & v & ->). apply vscal_length.
  - edestruct Q2 as [V _]; [exact Gr| |eexists; split; [exact (V Fy)|apply Bd; assumption]].
    left. exists (map Fin (vscal (2 * r (nth j X []) (nth j y 0)) wt)). split; [|split].
    + apply in_map. pose proof (nth_map2 (fun x v => vscal (2 * r x v) wt) [] 0 [] X y j Hj ltac:(unfold vec in *; lia)) as M.
      pose proof (nth_In (map2 (fun x v => vscal (2 * r x v) wt) X y) [] (n := j)) as P. rewrite map2_len in P by exact E. specialize (P Hj). unfold vec in *. rewrite M in P. exact P.
    + destruct wt; [inversion Nw|discriminate].
    + right. eexists. split; [reflexivity|]. apply Forall_forall. intros q Hq. unfold vscal in Hq. apply in_map_iff in Hq. destruct Hq as (u & <- & _). unfold vec in *. rewrite Z. ring.
Qed.
Print Assumptions C118_linear_importance_fixed.

(* LinearRegression with the squared Euclidean cost on the features and post-sampling: importance sampling with fixed labels *)
Definition lr_fixed_labels : lr_args :=
  {| lr_rho := 1 / 2; lr_l2_reg := 0; lr_fit_intercept := true; lr_cost := "t-NC-2-2"; lr_solver_name := "entropic_torch_post";
     lr_solver_reg := Some 1; lr_sampler_reg := None; lr_lr := None; lr_n_zeta := 10; lr_seed := 0; lr_n_iter := None |}.
Example C113_fixed_case :
  (exists d t s, lr_dispatch read lr_fixed_labels [[1]; [3]] [1; 5] = Ok (FTorch d t) /\ a_imp_samp d = true /\ tcost_of (a_cost d) = Some (TNC (PFin 2) 2) /\ a_epsilon d = Fin 1 /\ dsampler_of d 1 1 = Some s) /\
  lin_worst_le 1 (1 / 2) [([1], 1); ([3], 5)] [2] (- 1) 1 /\ Exists (fun a => a <> 0) [2] /\ is_grid 1 2 1 [[[1]; [4]]].
Proof.
  split; [|split; [|split; [repeat constructor; lra|]]].
  - assert (Dc : exists c, decode_cost read "t-NC-2-2" = Ok c) by (unfold decode_cost, cost_from_str; cbn -[dk x_ge0]; unfold NormCost; eauto). destruct Dc as [c Dc].
    unfold lr_dispatch. cbn [lr_cost lr_fixed_labels]. rewrite Dc. cbn [bind lr_solver_name]. change (String.eqb "entropic_torch_post" "entropic") with false. change (contains "torch" "entropic_torch_post") with true. cbv iota.
    match goal with |- context [dualize read ?u] => destruct (dualize_outcome read u (mkParsed "t" "NC" (Fin 2) (Fin 2) dk) (mkCost NC (Fin 2) (Fin 2) None "Norm") eq_refl eq_refl (sigma_none_pos _)) as [H _];
      destruct H as (d & Hd & Ec & H1 & H2 & H3 & H4 & Ee & Hi); [right; split; reflexivity|]; rewrite Hd end.
    destruct (kept_sampler read _ d d 1 1 _ _ (TNC (PFin 2) 2) Hd eq_refl eq_refl eq_refl eq_refl ltac:(rewrite Ec; reflexivity) ltac:(left; reflexivity)) as [s Es].
    eexists _, _, s. split; [reflexivity|]. split; [apply Hi; repeat split; reflexivity|]. split; [rewrite Ec; reflexivity|]. split; [rewrite Ee; reflexivity|exact Es].
  - apply (C50_objective_is_worst_case 1 (1 / 2) _ [2] (-1) 1); [lra|discriminate|repeat constructor|reflexivity|].
    change [([1], 1); ([3], 5)] with (List.combine [[1]; [3]] [1; 5]). rewrite rms_objective by (try reflexivity; discriminate). rewrite norm2_single, (Rabs_right 2) by lra. unfold rms_residual, rmean, dot. cbn.
    replace (((2 * 1 + 0 + -1 - 1) * ((2 * 1 + 0 + -1 - 1) * 1) + ((2 * 3 + 0 + -1 - 5) * ((2 * 3 + 0 + -1 - 5) * 1) + 0)) / (1 + 1)) with 0 by field. rewrite sqrt_0. lra.
  - split; [reflexivity|]. repeat (apply Forall_cons; [split; [reflexivity|repeat constructor]|]). constructor.
Qed.
