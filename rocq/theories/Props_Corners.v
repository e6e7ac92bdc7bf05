(* C03, C15, C54, C57, C65, C112, C113: cases at the border that the main theorems leave out. *)
From Coq Require Import Reals List Bool ZArith String Ascii Arith Lra Lia QArith.
From Verif Require Import PyBase RList XReal Tensor Loss_Model CostDecoder_Model PyFloat_Model OptCond_Model Samplers_Model Samplers_Proofs Wrap_Model Wrap_Proofs Estim_Model Estim_Proofs Props_Estim
  LogMeanExp Dual_Model Dual_Spec Dual_Proofs Props_Dual Oracle_Model TDual_Model Grads_Model.
Import ListNotations.
Local Open Scope R_scope.
Local Notation length := List.length.

(* ---------- C112: broadcasting ---------- *)
(* two shapes read from the last axis: sizes that meet are equal or one of them is 1 *)
Fixpoint meet (sa sb : list nat) : Prop :=
  match sa, sb with a :: sa', b :: sb' => (a = b \/ a = 1%nat \/ b = 1%nat) /\ meet sa' sb' | _, _ => True end.
Lemma meet_ones n : forall s, meet (repeat 1%nat n) s.
Proof. induction n as [|n IH]; intros [|a s]; cbn; auto. Qed.
Lemma meet_sym a : forall b, meet a b <-> meet b a.
Proof. induction a as [|x a IH]; intros [|y b]; cbn; try tauto. rewrite (IH b). split; intros [[?|[?|?]] ?]; auto. Qed.
Lemma meet_pad a : forall b n, (length a <= length b)%nat -> meet (a ++ repeat 1%nat n) b <-> meet a b.
Proof.
  induction a as [|x a IH]; intros [|y b] n H; cbn [app meet length] in *; try lia.
  - destruct (repeat 1%nat n); tauto.
  - split; [tauto|]. intros _. exact (meet_ones n (y :: b)).
  - rewrite (IH b n ltac:(lia)). tauto.
Qed.
Lemma meet_app a : forall b x y, length a = length b -> meet (a ++ [x]) (b ++ [y]) <-> meet a b /\ (x = y \/ x = 1%nat \/ y = 1%nat).
Proof. induction a as [|u a IH]; intros [|v b] x y H; cbn in *; try discriminate; [tauto|]. rewrite IH by lia. tauto. Qed.
Lemma bshape_meet a : forall b, length a = length b -> (meet (rev a) (rev b) <-> exists s, bshape a b = Some s) /\ (~ meet (rev a) (rev b) -> bshape a b = None).
Proof.
  induction a as [|p a IH]; intros [|q b] H; cbn [length] in H; try discriminate; cbn [rev bshape]; [cbn; split; [split; eauto|tauto]|].
  rewrite meet_app by (rewrite !rev_length; lia). destruct (IH b ltac:(lia)) as [I1 I2].
  destruct (bshape a b) as [s|] eqn:E.
  - assert (Mt : meet (rev a) (rev b)) by (apply I1; eauto).
    assert (Y : forall (C : Prop) (o : list nat), C -> (meet (rev a) (rev b) /\ C <-> exists s, Some o = Some s) /\ (~ (meet (rev a) (rev b) /\ C) -> Some o = None)).
    { intros C o HC. split; [split; [eauto|intros _; split; assumption]|]. intros Q. exfalso. apply Q. split; assumption. }
    destruct (Nat.eqb_spec p q) as [->|N1]; [apply Y; auto|]. destruct (Nat.eqb_spec p 1) as [->|N2]; [apply Y; auto|]. destruct (Nat.eqb_spec q 1) as [->|N3]; [apply Y; auto|]. split; [split; [intros [_ [?|[?|?]]]; contradiction|intros [? Q]; discriminate]|reflexivity].
  - split; [|reflexivity]. split; [intros [Q _]; apply I1 in Q as [s Q]; discriminate|intros [s Q]; discriminate].
Qed.
Lemma rev_repeat_one n : rev (repeat 1%nat n) = repeat 1%nat n.
Proof. induction n as [|n IH]; [reflexivity|]. cbn. rewrite IH. clear IH. induction n as [|n IH]; [reflexivity|]. cbn. rewrite <- IH. reflexivity. Qed.
Lemma meet_padded a b : meet (rev (pad (Nat.max (length a) (length b)) a)) (rev (pad (Nat.max (length a) (length b)) b)) <-> meet (rev a) (rev b).
Proof.
  unfold pad. rewrite !rev_app_distr, !rev_repeat_one. destruct (Nat.le_ge_cases (length a) (length b)) as [L|L].
  - rewrite Nat.max_r by lia. rewrite Nat.sub_diag. cbn [repeat]. rewrite app_nil_r. apply meet_pad. rewrite !rev_length. exact L.
  - rewrite Nat.max_l by lia. rewrite Nat.sub_diag. cbn [repeat]. rewrite app_nil_r. rewrite meet_sym, (meet_sym (rev a)). apply meet_pad. rewrite !rev_length. exact L.
Qed.
(* an operation on two tensors succeeds exactly when their shapes, aligned on the right, meet; otherwise RuntimeError *)
Theorem C112_shapes_must_agree : forall op a b,
  (meet (rev (shp a)) (rev (shp b)) -> exists t, bcast op a b = Ok t) /\ (~ meet (rev (shp a)) (rev (shp b)) -> bcast op a b = Raise RuntimeError).
Proof.
  intros op a b. unfold bcast, tdim. pose proof (meet_padded (shp a) (shp b)) as P.
  destruct (bshape_meet (pad (Nat.max (length (shp a)) (length (shp b))) (shp a)) (pad (Nat.max (length (shp a)) (length (shp b))) (shp b))) as [I1 I2].
  { unfold pad. rewrite !app_length, !repeat_length. lia. }
  split; intros H.
  - apply P in H. apply I1 in H as [s ->]. eauto.
  - rewrite I2 by (rewrite P; exact H). reflexivity.
Qed.
Example C112_shapes_case : (exists t, bcast Rplus (mkT [2; 1]%nat [1; 2]) (mkT [3]%nat [4; 5; 6]) = Ok t) /\ bcast Rplus (mkT [2]%nat [1; 2]) (mkT [3]%nat [4; 5; 6]) = Raise RuntimeError.
Proof. split; [apply C112_shapes_must_agree; cbn; tauto|]. apply C112_shapes_must_agree. cbn. lia. Qed.

(* ---------- C113: densities of the wrong kind of sample ---------- *)
Theorem C113_density_labels : forall s xi xl z zl,
  let plain := match s with TPlain _ _ => true | TLabelled _ _ _ _ => false end in
  let given {A} (o : option A) := match o with None => false | Some _ => true end in
  (given zl = plain -> t_log_prob s z zl = Raise AssertionError) /\
  (given zl = plain \/ given xl = plain -> t_log_prob_recentered s xi xl z zl = Raise AssertionError).
Proof.
  intros s xi xl z zl. destruct s, xl, zl; cbn; split; intros H; try reflexivity; try discriminate; destruct H; discriminate.
Qed.
Example C113_density_case : exists z, t_log_prob (TPlain (mkT [1]%nat [0]) 1) z (Some z) = Raise AssertionError.
Proof. exists (mkT [1]%nat [0]). exact (proj1 (C113_density_labels (TPlain (mkT [1]%nat [0]) 1) (mkT [1]%nat [0]) None (mkT [1]%nat [0]) (Some (mkT [1]%nat [0]))) eq_refl). Qed.
(* gradients of data and labels of different lengths are refused *)
Theorem C113_gradient_lengths : forall loss D xs ys, length xs <> length ys -> functional_grads loss D xs (Some ys) = Raise ValueError.
Proof. intros loss D xs ys H. unfold functional_grads. destruct (Nat.eqb_spec (length xs) (length ys)); [contradiction|reflexivity]. Qed.

(* ---------- C15: infinite radius and a power that is not positive ---------- *)
Theorem C15_infinite_power : forall P loss cost displace lp lpr n (rows : list (row P)) lam eps p,
  batch_ok n rows -> 0 < eps -> p <= 0 ->
  compute_dual P loss cost displace lp lpr
    {| d_rho := PInf; d_lam := lam; d_eps := eps; d_power := p; d_reduction := "mean"; d_imp := false; d_erm := false |} n rows
  = Ok (Scalar (Fin ((if Req_EM_T p 0 then lam else 0) + rmean (map (fun r => softmaximum eps (map (fun z => loss z - lam * cost (r_xi r) z) (r_zeta r))) rows)))).
Proof.
  intros P loss cost displace lp lpr n rows lam eps p Hb He Hp. unfold compute_dual. cbn [d_rho d_erm xeq orb xlt]. cbv iota. unfold integrands.
  cbn [d_imp d_reduction d_lam d_eps d_power bind]. cbv iota. cbn [bind]. rewrite map_map.
  rewrite (map_ext_in _ (fun r => Fin (soft P loss cost eps lam r / eps + ln (INR n)))).
  - destruct Hb as [Hn [Hne Hall]]. rewrite (reduce_mean_fin (fun r => soft P loss cost eps lam r / eps + ln (INR n)) rows Hne).
    rewrite (xlog_pos n Hn). assert (Q : rmean (map (fun r => soft P loss cost eps lam r / eps + ln (INR n)) rows) = rmean (map (soft P loss cost eps lam) rows) / eps + ln (INR n)).
    { unfold rmean. rewrite !map_length. assert (L : INR (length rows) <> 0) by (apply not_0_INR; destruct rows; [contradiction|discriminate]).
      rewrite <- (map_map (soft P loss cost eps lam) (fun v => v / eps + ln (INR n))). rewrite <- (map_length (soft P loss cost eps lam) rows) in *.
      generalize dependent (map (soft P loss cost eps lam) rows). intros l L. assert (S : rsum (map (fun v => v / eps + ln (INR n)) l) = rsum l / eps + INR (length l) * ln (INR n)).
      { clear L. induction l as [|a l IH]; [cbn; lra|]. cbn [map rsum length]. rewrite S_INR. unfold rsum in *. cbn. rewrite IH. field. lra. }
      rewrite S. field. split; lra. }
    cbn [bind out_map]. rewrite Q. do 2 f_equal. assert (E : Rltb 0 p = false) by (apply Rltb_false; exact Hp). unfold xpow_pos. rewrite E.
    change (fun r => softmaximum eps (map (fun z => loss z - lam * cost (r_xi r) z) (r_zeta r))) with (soft P loss cost eps lam).
    destruct (Req_EM_T p 0) as [->|N].
    + replace (Reqb 0 0) with true by (symmetry; apply Reqb_true; reflexivity). cbn. f_equal. field. lra.
    + replace (Reqb p 0) with false by (symmetry; apply Reqb_false; exact N). cbn. f_equal. field. lra.
  - intros r Hin. exact (soft_lse P loss cost n rows eps lam r 1 1 "mean" Hb Hin He).
Qed.
Example C15_infinite_case : batch_ok 2 sample_rows /\ 0 < 1 /\ -1 <= 0.
Proof. split; [exact (proj1 C15_case)|]. split; lra. Qed.

(* ---------- C65: nothing to optimise ---------- *)
Theorem C65_no_parameters : forall A (lbd : A) steps name, name = "mechanic"%string \/ name = "prodigy"%string -> composite_init [] lbd steps name = Raise ValueError.
Proof. intros A lbd steps name [-> | ->]; reflexivity. Qed.
Theorem C65_unknown_name : forall A params (lbd : A) steps name, name <> "mechanic"%string -> name <> "prodigy"%string -> composite_init params lbd steps name = Raise NotImplementedError.
Proof.
  intros A params lbd steps name N1 N2. unfold composite_init. apply String.eqb_neq in N1, N2. rewrite N1, N2. reflexivity.
Qed.

(* ---------- C03: exponents ---------- *)
(* a numeral that ends with e, or with e and a sign, is not a number *)
Definition no_digits (r : string) : Prop := r = ""%string \/ r = "+"%string \/ r = "-"%string.
Theorem C03_empty_exponent : forall r c, no_digits r -> c = "e"%char \/ c = "E"%char -> exponent (String c r) = None.
Proof. intros r c [-> | [-> | ->]] [-> | ->]; reflexivity. Qed.
Example C03_empty_exponent_case : pyfloat_c "1e" = None /\ pyfloat_c "1e+" = None /\ pyfloat_c "1e1" = Some (Rat 10).
Proof. repeat split; reflexivity. Qed.

(* ---------- C57: the problems the default arguments stand for ---------- *)
Definition problem (d : dual_args) (rho : R) (n : Z) (seed : Z) (l2 : option R) (sigma : R) (eps : R) (imp : bool) : Prop :=
  a_rho d = rho /\ a_n_samples d = n /\ cs_seed (a_sampler d) = Some seed /\ a_l2reg d = l2 /\ cs_sigma (a_sampler d) = Some sigma /\ a_epsilon d = Fin eps /\
  a_imp_samp d = imp /\ a_lr d = None /\ a_adapt d = Some "prodigy"%string.
Lemma default_epsilon : expert_epsilon (1 / 100) (Fin 2) None EPSILON_SIGMA_FACTOR SIGMA_FACTOR = Fin (1 / 40000).
Proof.
  unfold expert_epsilon, pow_t, EPSILON_SIGMA_FACTOR, SIGMA_FACTOR. replace (Rltb 0 (1 / 100)) with true by (symmetry; apply Rltb_true; lra).
  replace (2 - 1) with 1 by lra. rewrite Rpower_1 by lra. replace 2 with (1 + 1) at 2 by lra. rewrite Rpower_plus, Rpower_1 by lra. cbn [xmul xmax xlt].
  replace (Rltb _ _) with false by (symmetry; apply Rltb_false; lra). f_equal. lra.
Qed.
Lemma default_sigma : expert_sigma (1 / 100) None SIGMA_FACTOR = 1 / 200.
Proof. unfold expert_sigma, SIGMA_FACTOR. replace (Rltb 0 (1 / 100)) with true by (symmetry; apply Rltb_true; lra). lra. Qed.
Section Defaults.
Variable pf : string -> option xr.
Hypothesis P1 : pf "1"%string = Some (Fin 1).
Hypothesis P2 : pf "2"%string = Some (Fin 2).
Lemma problem_of u d pc c : dualize pf u = Ok d -> parse_code_torch xr pf (Fin 2) dk (u_cost u) (match u_labels u with None => false | Some _ => true end) = Ok pc ->
  cost_from_parse_torch xr x_ge0 pc = Ok c -> 0 < expert_sigma (u_rho u) (u_sigma u) SIGMA_FACTOR -> supported (c_p c) (c_power c) ->
  forall seed eps imp, u_seed u = Some seed -> expert_epsilon (u_rho u) (c_power c) (u_epsilon u) EPSILON_SIGMA_FACTOR SIGMA_FACTOR = Fin eps -> u_lr u = None -> u_adapt u = Some "prodigy"%string ->
  (imp = true <-> u_imp_samp u = true /\ c_power c = Fin 2 /\ c_p c = Fin 2) ->
  problem d (u_rho u) (u_n_samples u) seed (u_l2reg u) (expert_sigma (u_rho u) (u_sigma u) SIGMA_FACTOR) eps imp.
Proof.
  intros D Hp Hc Hs Hsup seed eps imp Es Ee El Ea Ei. destruct (dualize_outcome pf u pc c Hp Hc Hs) as [H _]. destruct (H Hsup) as (a & Ha & _ & _ & A1 & A2 & _ & A3 & A4).
  assert (a = d) by congruence. subst a. apply dualize_fields in D as (_ & _ & _ & B1 & _ & B2 & B3 & B4 & B5). unfold problem. rewrite A2, A1, A3, B1, B2, B3, B4, B5, El, Ea, Es, Ee.
  repeat split; try reflexivity. apply eq_true_iff_eq. rewrite A4, Ei. reflexivity.
Qed.
Lemma parse_22 : parse_code_torch xr pf (Fin 2) dk (Some "t-NLC-2-2"%string) true = Ok (mkParsed "t" "NLC" (Fin 2) (Fin 2) dk).
Proof. unfold parse_code_torch. cbn -[dk]. unfold to_float. rewrite P2. reflexivity. Qed.
Lemma cost_22 : cost_from_parse_torch xr x_ge0 (mkParsed "t" "NLC" (Fin 2) (Fin 2) dk) = Ok (mkCost NLC (Fin 2) (Fin 2) (Some dk) "Kappa-norm").
Proof. unfold cost_from_parse_torch. cbn [p_id p_kappa p_type p_power]. cbn [String.eqb Ascii.eqb Bool.eqb]. unfold NormLabelCost. rewrite dk_ge0. reflexivity. Qed.
Lemma parse_1 w v : (w = "1" /\ v = Fin 1 \/ w = "2" /\ v = Fin 2)%string -> parse_code_torch xr pf (Fin 2) dk (Some ("t-NC-1-" ++ w)%string) false = Ok (mkParsed "t" "NC" (Fin 1) v dk).
Proof. intros [[-> ->]|[-> ->]]; unfold parse_code_torch; cbn -[dk]; unfold to_float; rewrite P1, ?P2; reflexivity. Qed.

(* Weber, LinearRegression and LogisticRegression as they come: radius, samples, seed, penalty, sampler's scale, entropic regularisation *)
Theorem C57_default_values : forall X y d t,
  (wb_dispatch pf wb_defaults X y = Ok (FTorch d t) -> problem d (1 / 10) 10 0 (Some 0) (1 / 100) (1 / 100) true) /\
  (lr_dispatch pf lr_defaults X y = Ok (FTorch d t) -> problem d (1 / 100) 10 0 (Some 0) (1 / 200) (1 / 40000) true).
Proof.
  intros X y d t. split; intros H.
  - unfold wb_dispatch in H. cbn [wb_solver_name wb_defaults] in H. change (String.eqb "entropic_torch" "entropic") with false in H. change (contains "torch" "entropic_torch") with true in H. cbv iota in H.
    match type of H with context [dualize pf ?u] => destruct (dualize pf u) as [a|] eqn:D; cbn [bind] in H; [|discriminate] end. cbn [wb_n_iter wb_defaults] in H. injection H as <- _. change (problem a (1 / 10) 10 0 (Some 0) (1 / 100) (1 / 100) true).
    refine (problem_of _ _ _ _ D parse_22 cost_22 _ _ 0%Z (1 / 100) true _ _ _ _ _); try reflexivity.
    + cbn. lra.
    + right. split; reflexivity.
    + split; [intros _; repeat split|reflexivity].
  - unfold lr_dispatch in H. destruct (decode_22 pf P2) as [c Hc]. cbn [lr_cost lr_solver_name lr_defaults] in H. rewrite Hc in H. cbn [bind] in H. change (String.eqb "entropic_torch" "entropic") with false in H. change (contains "torch" "entropic_torch") with true in H. cbv iota in H.
    match type of H with context [dualize pf ?u] => destruct (dualize pf u) as [a|] eqn:D; cbn [bind] in H; [|discriminate] end. injection H as <- _.
    rewrite <- default_sigma. refine (problem_of _ _ _ _ D parse_22 cost_22 _ _ 0%Z (1 / 40000) true _ _ _ _ _); try reflexivity.
    + cbn [u_rho u_sigma lr_rho lr_sampler_reg lr_defaults]. rewrite default_sigma. lra.
    + right. split; reflexivity.
    + exact default_epsilon.
    + split; [intros _; repeat split|reflexivity].
Qed.
Theorem C57_default_values_logistic : forall X y d t, lg_dispatch pf lg_defaults X y = Ok (FTorch d t) -> problem d (1 / 100) 10 0 (Some 0) (1 / 200) (1 / 40000) true.
Proof.
  intros X y d t H. unfold lg_dispatch in H. destruct (lg_targets y) as [ts|]; cbn [bind] in H; [|discriminate]. destruct (decode_22 pf P2) as [c Hc]. cbn [lg_cost lg_solver_name lg_defaults] in H. rewrite Hc in H.
  cbn [bind] in H. change (String.eqb "entropic_torch" "entropic") with false in H. change (String.eqb "entropic_torch" "dedicated") with false in H. change (contains "torch" "entropic_torch") with true in H. cbv iota in H.
  match type of H with context [dualize pf ?u] => destruct (dualize pf u) as [a|] eqn:D; cbn [bind] in H; [|discriminate] end. injection H as <- _.
  rewrite <- default_sigma. refine (problem_of _ _ _ _ D parse_22 cost_22 _ _ 0%Z (1 / 40000) true _ _ _ _ _); try reflexivity.
  + cbn [u_rho u_sigma lg_rho lg_sampler_reg lg_defaults]. rewrite default_sigma. lra.
  + right. split; reflexivity.
  + exact default_epsilon.
  + split; [intros _; repeat split|reflexivity].
Qed.
(* NewsVendor and Portfolio with all defaults but the solver's name *)
Definition nv_named (s : string) : nv_args :=
  {| nv_rho := nv_rho nv_defaults; nv_k := nv_k nv_defaults; nv_u := nv_u nv_defaults; nv_cost := nv_cost nv_defaults; nv_l2_reg := nv_l2_reg nv_defaults; nv_solver_reg := nv_solver_reg nv_defaults;
     nv_lr := nv_lr nv_defaults; nv_n_zeta := nv_n_zeta nv_defaults; nv_solver_name := s; nv_seed := nv_seed nv_defaults; nv_n_iter := nv_n_iter nv_defaults |}.
Definition pf_named (s : string) : pf_args :=
  {| pf_rho := pf_rho pf_defaults; pf_eta := pf_eta pf_defaults; pf_alpha := pf_alpha pf_defaults; pf_C := pf_C pf_defaults; pf_d := pf_d pf_defaults; pf_fit_intercept := pf_fit_intercept pf_defaults;
     pf_cost := pf_cost pf_defaults; pf_solver_name := s; pf_solver_reg := pf_solver_reg pf_defaults; pf_reparam := pf_reparam pf_defaults; pf_lr := pf_lr pf_defaults;
     pf_n_zeta := pf_n_zeta pf_defaults; pf_seed := pf_seed pf_defaults; pf_n_iter := pf_n_iter pf_defaults |}.
Theorem C57_named_solvers : forall X s, contains "torch" s = true -> s <> "entropic"%string -> s <> "dedicated"%string ->
  (exists d, nv_dispatch pf (nv_named s) X = Ok (FTorch d None) /\ problem d (1 / 100) 10 0 None (1 / 200) (1 / 100) false) /\
  (exists d, pf_dispatch pf (pf_named s) X = Ok (FTorch d None) /\ problem d (1 / 100) 10 0 (Some 0) (1 / 200) (1 / 1000) false).
Proof.
  intros X s T N1 N2. apply String.eqb_neq in N1, N2. split.
  - unfold nv_dispatch, nv_named. destruct (decode_12 pf P1 P2) as [c Hc]. cbn [nv_cost nv_solver_name nv_defaults]. rewrite Hc. cbn [bind]. rewrite N1, T.
    match goal with |- context [dualize pf ?u] => destruct (dualize_12 pf u P1 P2 eq_refl eq_refl) as [d D]; [change (0 < expert_sigma (1 / 100) None SIGMA_FACTOR); rewrite default_sigma; lra|] end. rewrite D. cbn [bind].
    exists d. split; [reflexivity|].
    rewrite <- default_sigma. refine (problem_of _ _ _ (mkCost NC (Fin 2) (Fin 1) None "Norm") D (parse_1 "2" (Fin 2) (or_intror (conj eq_refl eq_refl))) eq_refl _ _ 0%Z (1 / 100) false _ _ _ _ _); try reflexivity.
    + change (0 < expert_sigma (1 / 100) None SIGMA_FACTOR). rewrite default_sigma. lra.
    + left. split; [reflexivity|auto].
    + split; [discriminate|]. intros (_ & W & _). injection W as W. lra.
  - unfold pf_dispatch, pf_named. destruct (decode_11 pf P1) as [c Hc]. cbn [pf_cost pf_solver_name pf_defaults]. rewrite Hc. cbn [bind]. unfold pf_columns. cbn [pf_C pf_d pf_defaults]. rewrite Nat.eqb_refl. cbn [negb]. rewrite N1, N2, T.
    assert (S : 0 < expert_sigma (1 / 100) None SIGMA_FACTOR) by (rewrite default_sigma; lra).
    match goal with |- context [dualize pf ?u] => destruct (dualize_outcome pf u _ (mkCost NC (Fin 1) (Fin 1) None "Norm") (parse_1 "1" (Fin 1) (or_introl (conj eq_refl eq_refl))) eq_refl S) as [Q _] end.
    destruct Q as (d & D & _); [left; split; [reflexivity|auto]|]. rewrite D. cbn [bind]. exists d. split; [reflexivity|].
    rewrite <- default_sigma. refine (problem_of _ _ _ (mkCost NC (Fin 1) (Fin 1) None "Norm") D (parse_1 "1" (Fin 1) (or_introl (conj eq_refl eq_refl))) eq_refl _ _ 0%Z (1 / 1000) false _ _ _ _ _); try reflexivity.
    + exact S.
    + left. split; [reflexivity|auto].
    + split; [discriminate|]. intros (_ & W & _). injection W as W. lra.
Qed.
End Defaults.
Example C57_default_case : exists d t, wb_dispatch read wb_defaults [[1; 2]] [3] = Ok (FTorch d t) /\ problem d (1 / 10) 10 0 (Some 0) (1 / 100) (1 / 100) true.
Proof.
  destruct (C57_weber_linear_logistic_portfolio read [[1; 2]] eq_refl eq_refl) as (H & _). destruct (H [3]) as (d & E & _). exists d, None. split; [exact E|].
  exact (proj1 (C57_default_values read eq_refl [[1; 2]] [3] d None) E).
Qed.
Print Assumptions C112_shapes_must_agree.
Print Assumptions C113_density_labels.
Print Assumptions C113_gradient_lengths.
Print Assumptions C15_infinite_power.
Print Assumptions C65_no_parameters.
Print Assumptions C65_unknown_name.
Print Assumptions C03_empty_exponent.
Print Assumptions C57_default_values.
Print Assumptions C57_default_values_logistic.
Print Assumptions C57_named_solvers.
