(* Properties C41-C46 and C70-C73: samplers, Dirac distribution, automatic hyperparameters, building the robust loss. *)
From Coq Require Import Reals List Bool ZArith String Lra Lia QArith Qreals.
From Verif Require Import PyBase RList XReal PyFloat_Model CostDecoder_Model Costs_Model OptCond_Model Samplers_Model Samplers_Spec
  Samplers_Proofs Wrap_Model Wrap_Proofs.
Import ListNotations.
Open Scope R_scope.

(* C41. After any list of resets (failed ones included) a cost sampler has everything it was built with, and the last means. *)
Theorem C41_resets :
  forall s l, built s -> kept s (cs_resets s l) /\ means (cs_resets s l) = last_means (has_labels s) (means s) l.
Proof. intros s l B. exact (proj2 (resets_spec l s B)). Qed.
Print Assumptions C41_resets.

(* a reset fails only when a labelled sampler is given no labels *)
Theorem C41_reset_fails_only_without_labels :
  forall s xi y, built s ->
    (has_labels s = true /\ y = None /\ cs_reset s xi y = Raise AssertionError) \/
    ((has_labels s = true -> y <> None) /\ exists s', cs_reset s xi y = Ok s').
Proof. exact reset_result. Qed.
Print Assumptions C41_reset_fails_only_without_labels.

(* the samplers with an explicit covariance: for every factorisation routine that returns valid factors, the factor in use
   and the seed are those of the construction, in whichever form the covariance was given *)
Theorem C41_covariance_resets :
  forall chol prec_chol, (forall C L, chol C = Some L -> lower_cholesky L = true) -> (forall P L, prec_chol P = Some L -> lower_cholesky L = true) ->
  forall xi k seed s l, ns_init chol prec_chol xi k seed = Ok s ->
    ns_resets chol prec_chol s l = Ok {| n_loc := last (map fst l) xi; n_tril := n_tril s; n_seed := seed |}.
Proof. exact ns_resets_spec. Qed.
Print Assumptions C41_covariance_resets.

Theorem C41_classification_resets :
  forall chol prec_chol, (forall C L, chol C = Some L -> lower_cholesky L = true) -> (forall P L, prec_chol P = Some L -> lower_cholesky L = true) ->
  forall l a xi y k seed s, cl_init chol prec_chol a xi y k seed = Ok s ->
    cl_resets chol prec_chol s l = Ok (cl_at s (fst (last l (xi, y))) (snd (last l (xi, y)))).
Proof. exact cl_resets_spec. Qed.
Print Assumptions C41_classification_resets.

Definition cost22 : scost := SNLC (Fin 2) (Fin 2) (Fin 3).
Lemma family_22 : family (Fin 2) (Fin 2) = Some FNormal.
Proof.
  unfold family. cbn [xeq]. replace (Reqb 2 1) with false by (symmetry; apply Reqb_false; lra).
  replace (Reqb 2 2) with true by (symmetry; apply Reqb_true; reflexivity). reflexivity.
Qed.
Lemma init22 xi y seed : labeled_init cost22 xi y (Some (/ 2)) seed
  = Ok (mkCS cost22 (Some (/ 2)) seed (LocScale FNormal xi (Fin (/ 2))) (Some (LocScale FNormal y (Fin (/ 2))))).
Proof.
  assert (H : xlt (Fin 0) (Fin (/ 2)) = true) by (cbn; apply Rltb_true; lra).
  unfold labeled_init, sampler_data, sampler_labels, cost22. cbn [sc_p sc_power]. rewrite family_22. cbn [eps_default].
  rewrite loc_scale_ok by exact H. cbn [bind xeq]. replace (Reqb 2 1) with false by (symmetry; apply Reqb_false; lra).
  rewrite loc_scale_ok by exact H. reflexivity.
Qed.
Definition s22 (seed : option Z) : csampler :=
  mkCS cost22 (Some (/ 2)) seed (LocScale FNormal [[1; 2]] (Fin (/ 2))) (Some (LocScale FNormal [[1]] (Fin (/ 2)))).
Lemma s22_built seed : built (s22 seed).
Proof. exists cost22, [[1; 2]], (Some (/ 2)), seed. right. exists [[1]]. apply init22. Qed.

Example C41_case :
  built (s22 (Some 5%Z)) /\
  means (cs_resets (s22 (Some 5%Z)) [([[3; 4]], Some [[-1]]); ([[5; 6]], None)]) = ([[3; 4]], Some [[-1]]).
Proof.
  split; [apply s22_built|]. rewrite (proj2 (C41_resets _ _ (s22_built _))). reflexivity.
Qed.

Example C41_covariance_case :
  exists s, ns_init (fun C => None) (fun P => None) [[1; 2]] {| k_sigma := Some 2; k_tril := None; k_prec := None; k_cov := None |} None = Ok s /\
            n_tril s = [[2; 0]; [0; 2]].
Proof.
  unfold ns_init, kw_tril. cbn [init_covar k_sigma k_tril k_prec k_cov bind mvn_tril last_dim List.length].
  replace (lower_cholesky (eye_scaled 2 2)) with true by (symmetry; apply eye_valid; [lia|lra]). cbn [bind].
  eexists; split; reflexivity.
Qed.

(* C42 is false when the sampler has a seed (the default of dualize_primal_loss is 42): reset_mean re-runs the constructor,
   which seeds the generator, so that all the passes of a training loop draw from the same generator state. *)
Theorem C42_seeded_passes_reuse_noise :
  forall G manual_seed draw rho n z mix bs s g, 0 < rho -> built s -> cs_seed s = Some z ->
    (has_labels s = true -> Forall (fun b => snd b <> None) bs) ->
    passes G manual_seed draw rho n true bs mix s g =
      Ok (map (fun b => Some (zetas_from G draw (at_batch s b) n (manual_seed z))) bs).
Proof. intros G ms draw rho n z mix bs s g Hr. exact (seeded_passes G ms draw rho n z mix Hr bs s g). Qed.
Print Assumptions C42_seeded_passes_reuse_noise.

(* two passes over the same batch give identical samples, whatever the generator and whatever is drawn in between *)
Theorem C42_new_noise_refuted :
  exists s b, built s /\ cs_seed s = Some 42%Z /\
    forall G manual_seed draw n mix g, exists z, passes G manual_seed draw 1 n true [b; b] mix s g = Ok [z; z].
Proof.
  exists (s22 (Some 42%Z)), ([[1; 2]], Some [[1]]). split; [apply s22_built|]. split; [reflexivity|].
  intros G ms draw n mix g. eexists.
  rewrite (C42_seeded_passes_reuse_noise G ms draw 1 n 42%Z mix _ (s22 (Some 42%Z)) g); [reflexivity|lra|apply s22_built|reflexivity|].
  intros _. repeat constructor; discriminate.
Qed.
Print Assumptions C42_new_noise_refuted.

(* ... and the state of the caller's generator before the pass is lost. *)
Theorem C42_generator_overwritten :
  forall G manual_seed draw rho n xi y s g g', built s -> cs_seed s <> None ->
    post_forward G manual_seed draw rho n xi y true s g = post_forward G manual_seed draw rho n xi y true s g'.
Proof. exact seeded_forgets. Qed.
Print Assumptions C42_generator_overwritten.

(* What holds: without a seed, or with reset_sampler=False, each pass draws from the state left by the previous one. *)
Theorem C42_unseeded_partial :
  forall G manual_seed draw rho n mix bs s g, 0 < rho -> built s -> cs_seed s = None ->
    (has_labels s = true -> Forall (fun b => snd b <> None) bs) ->
    passes G manual_seed draw rho n true bs mix s g = Ok (stream G draw n true mix s g bs).
Proof. intros G ms draw rho n mix bs s g Hr. exact (unseeded_passes G ms draw rho n mix Hr bs s g). Qed.
Print Assumptions C42_unseeded_partial.

Theorem C42_no_reset_partial :
  forall G manual_seed draw rho n mix bs s g, 0 < rho ->
    passes G manual_seed draw rho n false bs mix s g = Ok (stream G draw n false mix s g bs).
Proof. intros G ms draw rho n mix bs s g Hr. exact (unreset_passes G ms draw rho n mix Hr bs s g). Qed.
Print Assumptions C42_no_reset_partial.

(* a generator that never repeats itself: the two unseeded passes differ *)
Definition counter_draw (f : fam) (n : nat) (sh : list nat) (g : Z) : list batch * Z :=
  (repeat (map (fun d => repeat (IZR g) d) sh) n, (g + 1)%Z).
Example C42_case :
  exists z1 z2, passes Z (fun z => z) counter_draw 1 1 true [([[1]], Some [[1]]); ([[1]], Some [[1]])] (fun _ g => g) (s22 None) 0%Z
                = Ok [Some z1; Some z2] /\ fst z1 <> fst z2.
Proof.
  rewrite C42_unseeded_partial; [|lra|apply s22_built|reflexivity|intros _; repeat constructor; discriminate].
  assert (E : at_batch (s22 None) ([[1]], Some [[1]]) =
     mkCS cost22 (Some (/ 2)) None (LocScale FNormal [[1]] (Fin (/ 2))) (Some (LocScale FNormal [[1]] (Fin (/ 2))))).
  { apply caught_ok. unfold cs_reset, s22. cbn [cs_labels cs_cost cs_sigma cs_seed fst snd]. apply init22. }
  cbn [stream List.length]. rewrite E. unfold zetas_from, after, sample, rsample. cbn [cs_data cs_labels counter_draw].
  eexists; eexists. split; [reflexivity|]. cbn. intros H. inversion H. lra.
Qed.

(* C43. The priority order, and the error. *)
Theorem C43_priority :
  forall d s L P C, (forall t p c, init_covar d (Some s) t p c = Ok (ScaleTril (eye_scaled d s))) /\
    (forall p c, init_covar d None (Some L) p c = Ok (ScaleTril L)) /\
    (forall p, init_covar d None None p (Some C) = Ok (CovMatrix C)) /\
    init_covar d None None (Some P) None = Ok (PrecMatrix P).
Proof. intros. repeat split. Qed.
Print Assumptions C43_priority.

Theorem C43_error :
  forall d sg t p c, init_covar d sg t p c = Raise ValueError <-> sg = None /\ t = None /\ p = None /\ c = None.
Proof. exact init_covar_error. Qed.
Print Assumptions C43_error.

Example C43_case :
  init_covar 1 None None (Some [[4]]) (Some [[9]]) = Ok (CovMatrix [[9]]) /\ init_covar 1 None None None None = Raise ValueError.
Proof. split; reflexivity. Qed.

(* C70. sigma is a standard deviation: the covariance is sigma^2 times the identity, and it is accepted iff sigma > 0. *)
Theorem C70_sigma_is_std :
  forall d s i j, (i < d)%nat -> (j < d)%nat -> cov_entry (eye_scaled d s) i j = if Nat.eqb i j then s ^ 2 else 0.
Proof. exact sigma_covariance. Qed.
Print Assumptions C70_sigma_is_std.

Theorem C70_sigma_valid :
  forall d s, (0 < d)%nat -> lower_cholesky (eye_scaled d s) = true <-> 0 < s.
Proof. exact eye_valid. Qed.
Print Assumptions C70_sigma_valid.

(* the docstring promises Id/sigma**2 *)
Theorem C70_docstring_refuted :
  exists d s i, (i < d)%nat /\ lower_cholesky (eye_scaled d s) = true /\ cov_entry (eye_scaled d s) i i <> 1 / s ^ 2.
Proof.
  exists 1%nat, 2, 0%nat. split; [lia|]. split; [apply eye_valid; [lia|lra]|]. rewrite sigma_covariance by lia. simpl. lra.
Qed.
Print Assumptions C70_docstring_refuted.

Example C70_case : cov_entry (eye_scaled 3 (1 / 2)) 1 1 = 1 / 4 /\ cov_entry (eye_scaled 3 (1 / 2)) 0 2 = 0.
Proof. rewrite !C70_sigma_is_std by lia. simpl. lra. Qed.

(* C44. The outputs are y or -y; but p is the probability of keeping the label, not of switching it. *)
Theorem C44_outputs : forall y b, flip_label y b = if b then y else - y.
Proof. exact flip_values. Qed.
Print Assumptions C44_outputs.

Theorem C44_switch_probability : forall p y, y <> 0 -> prob_switch (flip_law p y) y = 1 - p.
Proof. exact flip_prob. Qed.
Print Assumptions C44_switch_probability.

Theorem C44_documented_p_refuted : exists p y, 0 <= p <= 1 /\ y = 1 /\ prob_switch (flip_law p y) y <> p.
Proof. exists (1 / 10), 1. split; [lra|]. split; [reflexivity|]. rewrite flip_prob by lra. lra. Qed.
Print Assumptions C44_documented_p_refuted.

Example C44_case : prob_switch (flip_law 0 (-1)) (-1) = 1 /\ prob_switch (flip_law (1 / 2) (-1)) (-1) = 1 / 2.
Proof. rewrite !C44_switch_probability by lra. lra. Qed.

(* C45. Sampling copies the location for every sample shape and every split into batch and event dimensions. *)
Theorem C45_rsample :
  forall loc nb ss, well_shaped loc ->
    let t := dirac_rsample (Dirac loc nb) ss in
    t_shape t = ss ++ t_shape loc /\ well_shaped t /\
    forall i j, valid_idx ss i -> valid_idx (t_shape loc) j -> tget t (i ++ j) = tget loc j.
Proof. exact rsample_spec. Qed.
Print Assumptions C45_rsample.

(* log_prob is one number for the whole tensor: 0 when everything matches, -inf when anything differs. *)
Theorem C45_log_prob_whole :
  forall loc nb ss v, well_shaped loc -> finite_list (t_data loc) -> finite_list v -> List.length v = prod (ss ++ t_shape loc) ->
    (v = t_data (dirac_rsample (Dirac loc nb) ss) -> dirac_log_prob (Dirac loc nb) ss v = Fin 0) /\
    (v <> t_data (dirac_rsample (Dirac loc nb) ss) -> dirac_log_prob (Dirac loc nb) ss v = MInf).
Proof. exact log_prob_finite. Qed.
Print Assumptions C45_log_prob_whole.

Definition two_labels : tensor := {| t_shape := [2; 1]%nat; t_data := [Fin 1; Fin 1] |}.

(* so it is not the log-density per element of the batch: with two labels, a wrong second one gives -inf to the first *)
Theorem C45_per_element_refuted :
  exists loc nb v, well_shaped loc /\ d_batch (Dirac loc nb) = [2]%nat /\ List.length v = prod (t_shape loc) /\
    event 1 v 0 = event 1 (t_data loc) 0 /\ dirac_log_prob (Dirac loc nb) [] v = MInf.
Proof.
  exists two_labels, 1%nat, [Fin 1; Fin 2]. split; [reflexivity|]. split; [reflexivity|]. split; [reflexivity|]. split; [reflexivity|].
  apply (C45_log_prob_whole two_labels 1 []); try reflexivity; try (repeat constructor; eexists; reflexivity).
  cbn. intros H. inversion H. lra.
Qed.
Print Assumptions C45_per_element_refuted.

Theorem C45_one_wrong_label :
  forall lp loc nb ss v, well_shaped loc -> finite_list (t_data loc) -> finite_list v ->
    List.length v = prod (ss ++ t_shape loc) -> v <> t_data (dirac_rsample (Dirac loc nb) ss) -> finite_list lp ->
    Forall (fun x => x = MInf) (labeled_log_prob lp (Dirac loc nb) ss v).
Proof. exact labeled_all_minf. Qed.
Print Assumptions C45_one_wrong_label.

(* an infinite or NaN entry: -inf even at the location itself *)
Theorem C45_nonfinite_location :
  forall loc nb x, In x (t_data loc) -> (x = PInf \/ x = MInf \/ x = NaN) ->
    dirac_log_prob (Dirac loc nb) [] (t_data loc) = MInf.
Proof. exact log_prob_infinite. Qed.
Print Assumptions C45_nonfinite_location.

Example C45_case :
  dirac_rsample (Dirac two_labels 1) [3]%nat = {| t_shape := [3; 2; 1]%nat; t_data := [Fin 1; Fin 1; Fin 1; Fin 1; Fin 1; Fin 1] |} /\
  dirac_log_prob (Dirac two_labels 1) [1]%nat [Fin 1; Fin 1] = Fin 0.
Proof.
  split; [reflexivity|]. apply (C45_log_prob_whole two_labels 1 [1%nat]); try reflexivity; repeat constructor; eexists; reflexivity.
Qed.

(* C46. *)
Theorem C46_sigma : forall rho, 0 < expert_sigma rho None SIGMA_FACTOR /\ (0 < rho -> expert_sigma rho None SIGMA_FACTOR = rho / 2).
Proof. exact auto_sigma. Qed.
Print Assumptions C46_sigma.

Theorem C46_epsilon :
  forall rho p, 0 <= rho -> 1 <= p ->
    exists e, expert_epsilon rho (Fin p) None EPSILON_SIGMA_FACTOR SIGMA_FACTOR = Fin e /\ 1 / 10000000 <= e.
Proof. exact auto_epsilon. Qed.
Print Assumptions C46_epsilon.

(* in closed form for the two powers that have samplers *)
Theorem C46_epsilon_values :
  forall rho, 0 <= rho ->
    expert_epsilon rho (Fin 1) None EPSILON_SIGMA_FACTOR SIGMA_FACTOR = Fin (1 / 200) /\
    expert_epsilon rho (Fin 2) None EPSILON_SIGMA_FACTOR SIGMA_FACTOR = Fin (Rmax (rho / 400) (1 / 10000000)).
Proof. intros rho H. exact (conj (auto_epsilon_1 rho H) (auto_epsilon_2 rho H)). Qed.
Print Assumptions C46_epsilon_values.

(* a negative radius is not refused here: it gets the fixed standard deviation 1/2, and for power 2 the smallest regularisation *)
Theorem C46_negative_radius :
  forall rho, rho < 0 ->
    expert_hyperparams rho (Fin 1) None EPSILON_SIGMA_FACTOR None SIGMA_FACTOR = (1 / 2, Fin (1 / 200)) /\
    expert_hyperparams rho (Fin 2) None EPSILON_SIGMA_FACTOR None SIGMA_FACTOR = (1 / 2, Fin (1 / 10000000)).
Proof.
  intros rho H. assert (E0 : Rltb 0 rho = false) by (apply Rltb_false; lra). assert (E1 : Reqb rho 0 = false) by (apply Reqb_false; lra).
  unfold expert_hyperparams, expert_sigma, expert_epsilon, pow_t, EPSILON_SIGMA_FACTOR, SIGMA_FACTOR. rewrite E0, E1.
  replace (1 - 1) with 0 by ring. replace (2 - 1) with 1 by ring.
  replace (Reqb 0 0) with true by (symmetry; apply Reqb_true; reflexivity). replace (Reqb 1 0) with false by (symmetry; apply Reqb_false; lra). replace (Reqb 1 1) with true by (symmetry; apply Reqb_true; reflexivity).
  split; f_equal; try lra.
  - rewrite Rpower_1 by lra. cbn [xmul xmax xlt]. replace (Rltb (1 / 100 * / 2 * 1) (1 / 10000000)) with false by (symmetry; apply Rltb_false; lra). f_equal; lra.
  - assert (P : 0 < Rpower (/ 2) 2) by apply exp_pos. cbn [xmul xmax xlt]. 
    match goal with |- context [Rltb ?a ?b] => assert (L : Rltb a b = true) end.
    { apply Rltb_true. assert (1 / 100 * Rpower (/ 2) 2 * rho <= 0); [|lra]. apply Rlt_le. rewrite <- (Rmult_0_r (1 / 100 * Rpower (/ 2) 2)). apply Rmult_lt_compat_l; [lra|exact H]. }
    rewrite L. reflexivity.
Qed.
Print Assumptions C46_negative_radius.
Example C46_negative_radius_case : expert_hyperparams (-3) (Fin 2) None EPSILON_SIGMA_FACTOR None SIGMA_FACTOR = (1 / 2, Fin (1 / 10000000)).
Proof. apply C46_negative_radius. lra. Qed.

Theorem C46_given_values :
  forall rho p s e,
    expert_hyperparams rho p (Some e) EPSILON_SIGMA_FACTOR (Some s) SIGMA_FACTOR = (s, Fin e) /\
    fst (expert_hyperparams rho p None EPSILON_SIGMA_FACTOR (Some s) SIGMA_FACTOR) = s /\
    snd (expert_hyperparams rho p (Some e) EPSILON_SIGMA_FACTOR None SIGMA_FACTOR) = Fin e.
Proof. exact given_unchanged. Qed.
Print Assumptions C46_given_values.

(* The whole construction, for every accepted cost specification: the loss is built iff the cost has a sampler, around the
   given data, with the sigma, epsilon and seed above, and importance sampling iff requested and the cost is 2-2. *)
Theorem C46_construction :
  forall pyfloat u pc c,
    parse_code_torch xr pyfloat (Fin 2) dk (u_cost u) (match u_labels u with None => false | Some _ => true end) = Ok pc ->
    cost_from_parse_torch xr x_ge0 pc = Ok c ->
    0 < expert_sigma (u_rho u) (u_sigma u) SIGMA_FACTOR ->
    (supported (c_p c) (c_power c) -> exists a, dualize pyfloat u = Ok a /\ a_cost a = c /\ built (a_sampler a) /\
       cs_sigma (a_sampler a) = Some (expert_sigma (u_rho u) (u_sigma u) SIGMA_FACTOR) /\ cs_seed (a_sampler a) = u_seed u /\
       means (a_sampler a) = (u_xi u, u_labels u) /\
       a_epsilon a = expert_epsilon (u_rho u) (c_power c) (u_epsilon u) EPSILON_SIGMA_FACTOR SIGMA_FACTOR /\
       (a_imp_samp a = true <-> u_imp_samp u = true /\ c_power c = Fin 2 /\ c_p c = Fin 2)) /\
    (~ supported (c_p c) (c_power c) -> dualize pyfloat u = Raise NotImplementedError).
Proof. exact dualize_outcome. Qed.
Print Assumptions C46_construction.

(* with the default arguments it never fails *)
Theorem C46_defaults :
  forall pyfloat rho xi y, exists a, dualize pyfloat (default_args rho xi y) = Ok a /\
    a_post a = true /\ a_n_iter a = SPair 200 2800 /\ a_n_samples a = 10%Z /\ cs_seed (a_sampler a) = Some 42%Z /\
    a_imp_samp a = true /\ means (a_sampler a) = (xi, y) /\ c_p (a_cost a) = Fin 2 /\ c_power (a_cost a) = Fin 2 /\
    c_kind (a_cost a) = (match y with None => NC | Some _ => NLC end).
Proof. exact dualize_default. Qed.
Print Assumptions C46_defaults.

Definition pyf_xr (x : pyf) : xr :=
  match x with Rat q => Fin (Q2R q) | Inf false => PInf | Inf true => MInf | Nan => NaN end.
Definition read (s : string) : option xr := option_map pyf_xr (pyfloat_c s).
Lemma q2r_2 : Q2R (2 # 1) = 2. Proof. unfold Q2R. simpl. lra. Qed.
Lemma q2r_1 : Q2R (1 # 1) = 1. Proof. unfold Q2R. simpl. lra. Qed.

Definition args (code : string) (y : option batch) : user_args :=
  {| u_rho := 1 / 10; u_xi := [[1; 2]]; u_labels := y; u_post := false; u_cost := Some code; u_n_samples := 3;
     u_seed := None; u_reduction := None; u_lr := None; u_epsilon := None; u_sigma := None;
     u_l2reg := None; u_adapt := None; u_n_iter := None; u_imp_samp := true; u_reduces := false |}.

Lemma parse_args code y ps : parse_code_torch xr read (Fin 2) dk (Some code) (match y with None => false | Some _ => true end) = Ok ps ->
  parse_code_torch xr read (Fin 2) dk (u_cost (args code y)) (match u_labels (args code y) with None => false | Some _ => true end) = Ok ps.
Proof. destruct y; exact (fun H => H). Qed.

Example C46_case :
  expert_hyperparams (1 / 10) (Fin 2) None EPSILON_SIGMA_FACTOR None SIGMA_FACTOR = (1 / 20, Fin (1 / 4000)) /\
  exists a, dualize read (args "t-NC-1-2" None) = Ok a /\ a_imp_samp a = false /\ a_epsilon a = Fin (1 / 200).
Proof.
  split.
  - unfold expert_hyperparams. rewrite auto_epsilon_2 by lra. f_equal.
    + rewrite (proj2 (auto_sigma (1 / 10))) by lra. lra.
    + f_equal. unfold Rmax. destruct (Rle_dec (1 / 10 / 400) (1 / 10000000)); lra.
  - destruct (C46_construction read (args "t-NC-1-2" None) (mkParsed "t" "NC" (Fin (Q2R 1)) (Fin (Q2R 2)) dk)
      (mkCost NC (Fin (Q2R 2)) (Fin (Q2R 1)) None "Norm")) as [H _]; [reflexivity|reflexivity|apply auto_sigma|].
    cbn [c_p c_power] in H. rewrite q2r_1, q2r_2 in H.
    destruct H as (a & Ha & _ & _ & _ & _ & _ & He & Hi); [left; auto|]. exists a. split; [exact Ha|]. split.
    + destruct (a_imp_samp a); [|reflexivity]. destruct Hi as [Hi _]. destruct (Hi eq_refl) as (_ & H & _). inversion H. lra.
    + rewrite He. cbn [u_rho u_epsilon args]. apply auto_epsilon_1. lra.
Qed.

(* C71 is false: specifications that the parser and the cost constructor accept have no sampler. *)
Theorem C71_accepted_cost_has_no_sampler_refuted :
  exists code c, decode_torch xr read (Fin 2) dk x_ge0 (Some code) false = Ok c /\
                 dualize read (args code None) = Raise NotImplementedError.
Proof.
  exists "t-NC-2-1"%string, (mkCost NC (Fin (Q2R 1)) (Fin (Q2R 2)) None "Norm"). split; [reflexivity|].
  apply (C46_construction read (args "t-NC-2-1" None) (mkParsed "t" "NC" (Fin (Q2R 2)) (Fin (Q2R 1)) dk)
      (mkCost NC (Fin (Q2R 1)) (Fin (Q2R 2)) None "Norm")); [reflexivity|reflexivity|apply auto_sigma|].
  cbn [c_p c_power]. rewrite q2r_1, q2r_2. intros [[H _]|[_ H]]; inversion H; lra.
Qed.
Print Assumptions C71_accepted_cost_has_no_sampler_refuted.

(* exactly four costs can be sampled: 1-1, 1-2, 1-inf and 2-2 (power-norm) *)
Theorem C71_supported_costs :
  forall c xi e, 0 < eps_default e ->
    (supported (sc_p c) (sc_power c) -> exists d, sampler_data c xi e = Ok d) /\
    (~ supported (sc_p c) (sc_power c) -> sampler_data c xi e = Raise NotImplementedError).
Proof. exact sampler_data_ok. Qed.
Print Assumptions C71_supported_costs.

(* a standard deviation that is not positive is refused by torch when the cost has a sampler, with or without labels *)
Theorem C71_sigma_not_positive :
  forall c xi y e seed, eps_default e <= 0 -> supported (sc_p c) (sc_power c) ->
    nolabels_init c xi e seed = Raise ValueError /\ labeled_init c xi y e seed = Raise ValueError.
Proof.
  intros c xi y e seed He Hs. assert (E : sampler_data c xi e = Raise ValueError).
  { unfold sampler_data. assert (L : forall f, loc_scale f xi (Fin (eps_default e)) = Raise ValueError).
    { intros f. unfold loc_scale. cbn [xlt]. assert (E0 : Rltb 0 (eps_default e) = false) by (apply Rltb_false; lra). rewrite E0. reflexivity. }
    destruct (proj1 (sampler_data_ok c xi (Some 1) ltac:(cbn; lra)) Hs) as (d & Hd). unfold sampler_data in Hd. destruct (family (sc_p c) (sc_power c)); [apply L|discriminate]. }
  unfold nolabels_init, labeled_init. rewrite E. auto.
Qed.
Print Assumptions C71_sigma_not_positive.
Example C71_sigma_not_positive_case : nolabels_init (SNC (Fin 2) (Fin 2)) [[1]] (Some 0) None = Raise ValueError.
Proof. apply (C71_sigma_not_positive (SNC (Fin 2) (Fin 2)) [[1]] []); [cbn; lra|right; auto]. Qed.

Example C71_case : supported PInf (Fin 1) /\ ~ supported (Fin 3) (Fin 1) /\ ~ supported NaN (Fin 2).
Proof.
  split; [left; auto|]. split.
  - intros [[_ [H|[H|H]]]|[H _]]; inversion H; lra.
  - intros [[_ [H|[H|H]]]|[_ H]]; discriminate.
Qed.

(* C72. With power 1 the label noise has scale sigma/kappa ... *)
Theorem C72_power_one_partial :
  forall p k y e, 0 < e -> 0 < k -> (p = Fin 1 \/ p = Fin 2 \/ p = PInf) -> label_scale p (Fin 1) (Fin k) y e = Some (Fin (e / k)).
Proof. exact label_scale_1. Qed.
Print Assumptions C72_power_one_partial.

(* ... but for the default 2-2 cost it does not depend on kappa at all (default 1e8). *)
Theorem C72_power_two_ignores_kappa :
  forall k y e, 0 < e -> xeq k PInf = false -> label_scale (Fin 2) (Fin 2) k y e = Some (Fin e).
Proof. exact label_scale_2. Qed.
Print Assumptions C72_power_two_ignores_kappa.

Theorem C72_kappa_refuted :
  exists p w k k' y e, 0 < e /\ 0 < k < k' /\ label_scale p w (Fin k) y e = label_scale p w (Fin k') y e /\ label_scale p w (Fin k) y e <> None.
Proof.
  exists (Fin 2), (Fin 2), 1, 100000000, [[1]], 1. split; [lra|]. split; [lra|].
  rewrite !label_scale_2 by (auto; lra). split; [reflexivity|discriminate].
Qed.
Print Assumptions C72_kappa_refuted.

Example C72_case : label_scale PInf (Fin 1) (Fin 4) [[1]] 1 = Some (Fin (1 / 4)).
Proof. apply C72_power_one_partial; [lra|lra|auto]. Qed.

(* C73 is false: a label cost is accepted for unlabelled data, and then every evaluation of the cost fails. *)
Theorem C73_label_cost_without_labels_refuted :
  exists code a, dualize read (args code None) = Ok a /\ a_has_labels a = false /\ c_kind (a_cost a) = NLC /\
    forall p power k xi zeta, nlc_value p power k xi zeta None None = Raise AssertionError.
Proof.
  exists "t-NLC-2-2"%string.
  assert (H0 : x_ge0 dk = true) by (unfold x_ge0, dk, xle; cbn [xlt]; replace (Rltb 0 100000000) with true by (symmetry; apply Rltb_true; lra); reflexivity).
  assert (Hc : cost_from_parse_torch xr x_ge0 (mkParsed "t" "NLC" (Fin (Q2R 2)) (Fin (Q2R 2)) dk) = Ok (mkCost NLC (Fin (Q2R 2)) (Fin (Q2R 2)) (Some dk) "Kappa-norm")).
  { unfold cost_from_parse_torch. cbn [p_id p_kappa p_type p_power]. cbn [String.eqb Ascii.eqb Bool.eqb]. unfold NormLabelCost. rewrite H0. reflexivity. }
  destruct (C46_construction read (args "t-NLC-2-2" None) _ _ eq_refl Hc) as [H _]; [apply auto_sigma|].
  cbn [c_p c_power] in H. rewrite q2r_2 in H. destruct H as (a & Ha & Ac & _); [right; auto|]. exists a. split; [exact Ha|]. split.
  - clear Hc Ac H0. unfold dualize in Ha. cbn [args u_labels u_cost] in Ha. destruct (parse_code_torch _ _ _ _ _ _); [|discriminate]. cbn [bind] in Ha.
    destruct (expert_hyperparams _ _ _ _ _ _). destruct (cost_from_parse_torch _ _ _); [|discriminate]. cbn [bind] in Ha.
    destruct (nolabels_init _ _ _ _); [|discriminate]. cbn [bind] in Ha. inversion Ha; reflexivity.
  - rewrite Ac. split; reflexivity.
Qed.
Print Assumptions C73_label_cost_without_labels_refuted.

(* ---------- concrete cases of the theorems above, one each ---------- *)
Example C41_resets_case : kept (s22 (Some 5%Z)) (cs_resets (s22 (Some 5%Z)) [([[3; 4]], Some [[-1]]); ([[5; 6]], None)]).
Proof. apply C41_resets, s22_built. Qed.
Example C41_reset_fails_only_without_labels_case :
  cs_reset (s22 None) [[3; 4]] None = Raise AssertionError /\ exists s', cs_reset (s22 None) [[3; 4]] (Some [[-1]]) = Ok s'.
Proof.
  split.
  - destruct (C41_reset_fails_only_without_labels (s22 None) [[3; 4]] None (s22_built _)) as [(_ & _ & H)|[H _]]; [exact H|]. exfalso. apply H; reflexivity.
  - destruct (C41_reset_fails_only_without_labels (s22 None) [[3; 4]] (Some [[-1]]) (s22_built _)) as [(_ & H & _)|[_ H]]; [discriminate H|exact H].
Qed.
(* Cholesky factors of one-by-one covariances and precisions *)
Definition chol1 (C : mat) : option mat := match C with [[c]] => if Rltb 0 c then Some [[sqrt c]] else None | _ => None end.
Definition prec1 (P : mat) : option mat := match P with [[c]] => if Rltb 0 c then Some [[/ sqrt c]] else None | _ => None end.
Lemma lower1 x : 0 < x -> lower_cholesky [[x]] = true.
Proof. intros H. unfold lower_cholesky. cbn. now rewrite (proj2 (Rltb_true 0 x) H). Qed.
Lemma chol1_valid C L : chol1 C = Some L -> lower_cholesky L = true.
Proof.
  unfold chol1. destruct C as [|[|c [|]] [|]]; try discriminate. destruct (Rltb 0 c) eqn:E; [|discriminate]. intros H. injection H as <-.
  apply lower1, sqrt_lt_R0. now apply Rltb_true.
Qed.
Lemma prec1_valid C L : prec1 C = Some L -> lower_cholesky L = true.
Proof.
  unfold prec1. destruct C as [|[|c [|]] [|]]; try discriminate. destruct (Rltb 0 c) eqn:E; [|discriminate]. intros H. injection H as <-.
  apply lower1, Rinv_0_lt_compat, sqrt_lt_R0. now apply Rltb_true.
Qed.
Definition kw_cov9 : covkw := {| k_sigma := None; k_tril := None; k_prec := None; k_cov := Some [[9]] |}.
Lemma nine : Rltb 0 9 = true. Proof. apply Rltb_true; lra. Qed.
(* the covariance 9 was given; after two resets the sampler still has the factor 3 *)
Example C41_covariance_resets_case : exists s, ns_init chol1 prec1 [[1]] kw_cov9 (Some 7%Z) = Ok s /\
  ns_resets chol1 prec1 s [([[2]], None); ([[5]], None)] = Ok {| n_loc := [[5]]; n_tril := [[3]]; n_seed := Some 7%Z |}.
Proof.
  eexists. split.
  - unfold ns_init, kw_tril. cbn. rewrite nine. cbn. reflexivity.
  - rewrite (C41_covariance_resets chol1 prec1 chol1_valid prec1_valid [[1]] kw_cov9 (Some 7%Z)).
    + cbn. repeat f_equal. replace 9 with (3 * 3) by lra. apply sqrt_square; lra.
    + unfold ns_init, kw_tril. cbn. rewrite nine. cbn. reflexivity.
Qed.
Example C41_classification_resets_case : exists s, cl_init chol1 prec1 (ANormalBernouilli (1 / 4)) [[1]] [[-1]] kw_cov9 (Some 7%Z) = Ok s /\
  cl_resets chol1 prec1 s [([[2]], [[1]]); ([[5]], [[-1]])] = Ok (cl_at s [[5]] [[-1]]).
Proof.
  assert (E : exists s, cl_init chol1 prec1 (ANormalBernouilli (1 / 4)) [[1]] [[-1]] kw_cov9 (Some 7%Z) = Ok s).
  { cbn. rewrite (proj2 (Rleb_true 0 (1 / 4))), (proj2 (Rleb_true (1 / 4) 1)) by lra. cbn. unfold ns_init, kw_tril. cbn. rewrite nine. cbn. eexists; reflexivity. }
  destruct E as [s E]. exists s. split; [exact E|].
  exact (C41_classification_resets chol1 prec1 chol1_valid prec1_valid [([[2]], [[1]]); ([[5]], [[-1]])] _ _ _ _ _ _ E).
Qed.
Example C42_seeded_passes_reuse_noise_case :
  passes Z (fun z => z) counter_draw 1 2 true [([[1; 2]], Some [[1]]); ([[3; 4]], Some [[-1]])] (fun _ g => (g + 100)%Z) (s22 (Some 42%Z)) 0%Z =
  Ok [Some (zetas_from Z counter_draw (at_batch (s22 (Some 42%Z)) ([[1; 2]], Some [[1]])) 2 42%Z); Some (zetas_from Z counter_draw (at_batch (s22 (Some 42%Z)) ([[3; 4]], Some [[-1]])) 2 42%Z)].
Proof. refine (C42_seeded_passes_reuse_noise Z (fun z => z) counter_draw 1 2 42%Z (fun _ g => (g + 100)%Z) [([[1; 2]], Some [[1]]); ([[3; 4]], Some [[-1]])] (s22 (Some 42%Z)) 0%Z _ _ eq_refl _); [lra|apply s22_built|intros _; repeat constructor; discriminate]. Qed.
Example C42_generator_overwritten_case :
  post_forward Z (fun z => z) counter_draw 1 2 [[3; 4]] (Some [[-1]]) true (s22 (Some 42%Z)) 0%Z = post_forward Z (fun z => z) counter_draw 1 2 [[3; 4]] (Some [[-1]]) true (s22 (Some 42%Z)) 1000%Z.
Proof. apply C42_generator_overwritten; [apply s22_built|discriminate]. Qed.
Example C42_unseeded_partial_case :
  passes Z (fun z => z) counter_draw 1 2 true [([[1; 2]], Some [[1]]); ([[3; 4]], Some [[-1]])] (fun _ g => (g + 100)%Z) (s22 None) 0%Z =
  Ok (stream Z counter_draw 2 true (fun _ g => (g + 100)%Z) (s22 None) 0%Z [([[1; 2]], Some [[1]]); ([[3; 4]], Some [[-1]])]).
Proof. apply C42_unseeded_partial; [lra|apply s22_built|reflexivity|intros _; repeat constructor; discriminate]. Qed.
(* without resets even a seeded sampler draws on: the states used are 0 and 102, as two draws were made and 100 was added between *)
Example C42_no_reset_partial_case :
  passes Z (fun z => z) counter_draw 1 1 false [([[1; 2]], Some [[1]]); ([[3; 4]], Some [[-1]])] (fun _ g => (g + 100)%Z) (s22 (Some 42%Z)) 0%Z =
  Ok [Some (zetas_from Z counter_draw (s22 (Some 42%Z)) 1 0%Z); Some (zetas_from Z counter_draw (s22 (Some 42%Z)) 1 102%Z)].
Proof. rewrite C42_no_reset_partial by lra. reflexivity. Qed.
Example C43_error_case : init_covar 2 None None None None = Raise ValueError /\ init_covar 2 None None (Some [[1; 0]; [0; 1]]) None <> Raise ValueError.
Proof. split; [apply C43_error; auto|]. intros H. apply C43_error in H as (_ & _ & H & _). discriminate H. Qed.
Example C70_sigma_is_std_case : cov_entry (eye_scaled 3 (1 / 2)) 1 1 = 1 / 4.
Proof. rewrite C70_sigma_is_std by lia. simpl. lra. Qed.
Example C70_sigma_valid_case : lower_cholesky (eye_scaled 3 (1 / 2)) = true /\ lower_cholesky (eye_scaled 3 (-1)) <> true.
Proof. split; [apply C70_sigma_valid; [lia|lra]|]. intros H. apply C70_sigma_valid in H; [lra|lia]. Qed.
Example C44_switch_probability_case : prob_switch (flip_law (1 / 10) 3) 3 = 9 / 10.
Proof. rewrite C44_switch_probability by lra. lra. Qed.
Example C45_rsample_case : tget (dirac_rsample (Dirac {| t_shape := [2; 1]%nat; t_data := [Fin 7; Fin 8] |} 1) [3]%nat) [2; 1; 0]%nat = Some (Fin 8).
Proof.
  destruct (C45_rsample {| t_shape := [2; 1]%nat; t_data := [Fin 7; Fin 8] |} 1 [3%nat] eq_refl) as (_ & _ & H).
  refine (eq_trans (H [2%nat] [1%nat; 0%nat] _ _) _); [repeat constructor; lia|repeat constructor; lia|reflexivity].
Qed.
Lemma ones_finite : finite_list (t_data two_labels). Proof. repeat constructor; eexists; reflexivity. Qed.
Lemma wrong_labels : [Fin 1; Fin 2] <> t_data (dirac_rsample (Dirac two_labels 1) []).
Proof. cbn. intros H. inversion H. lra. Qed.
Lemma wrong_finite : finite_list [Fin 1; Fin 2]. Proof. repeat constructor; eexists; reflexivity. Qed.
Example C45_log_prob_whole_case : dirac_log_prob (Dirac two_labels 1) [] [Fin 1; Fin 1] = Fin 0 /\ dirac_log_prob (Dirac two_labels 1) [] [Fin 1; Fin 2] = MInf.
Proof.
  split.
  - apply (C45_log_prob_whole two_labels 1 []); [reflexivity|apply ones_finite|apply ones_finite|reflexivity|reflexivity].
  - apply (C45_log_prob_whole two_labels 1 []); [reflexivity|apply ones_finite|apply wrong_finite|reflexivity|apply wrong_labels].
Qed.
Example C45_one_wrong_label_case : labeled_log_prob [Fin (-1); Fin (-2)] (Dirac two_labels 1) [] [Fin 1; Fin 2] = [MInf; MInf].
Proof.
  assert (F : Forall (fun x => x = MInf) (labeled_log_prob [Fin (-1); Fin (-2)] (Dirac two_labels 1) [] [Fin 1; Fin 2])).
  { apply C45_one_wrong_label; [reflexivity|apply ones_finite|apply wrong_finite|reflexivity|apply wrong_labels|repeat constructor; eexists; reflexivity]. }
  unfold labeled_log_prob in *. cbn [map] in *. inversion F as [|? ? A F1]; subst. inversion F1 as [|? ? B _]; subst. exact (f_equal2 cons A (f_equal2 cons B eq_refl)).
Qed.
Example C45_nonfinite_location_case : dirac_log_prob (Dirac {| t_shape := [2; 1]%nat; t_data := [Fin 1; PInf] |} 1) [] [Fin 1; PInf] = MInf.
Proof. apply (C45_nonfinite_location {| t_shape := [2; 1]%nat; t_data := [Fin 1; PInf] |} 1 PInf); simpl; tauto. Qed.
Example C46_sigma_case : expert_sigma (1 / 10) None SIGMA_FACTOR = 1 / 20 /\ 0 < expert_sigma (-3) None SIGMA_FACTOR.
Proof. split; [rewrite (proj2 (C46_sigma (1 / 10))) by lra; lra|apply C46_sigma]. Qed.
Example C46_epsilon_case : exists e, expert_epsilon 0 (Fin 3) None EPSILON_SIGMA_FACTOR SIGMA_FACTOR = Fin e /\ 1 / 10000000 <= e.
Proof. apply C46_epsilon; lra. Qed.
Example C46_epsilon_values_case : expert_epsilon 4 (Fin 1) None EPSILON_SIGMA_FACTOR SIGMA_FACTOR = Fin (1 / 200) /\ expert_epsilon 4 (Fin 2) None EPSILON_SIGMA_FACTOR SIGMA_FACTOR = Fin (1 / 100).
Proof. destruct (C46_epsilon_values 4) as [A B]; [lra|]. rewrite A, B. split; [reflexivity|]. f_equal. rewrite Rmax_left; lra. Qed.
Example C71_supported_costs_case : (exists d, sampler_data (SNC PInf (Fin 1)) [[1; 2]] (Some 3) = Ok d) /\ sampler_data (SNC NaN (Fin 2)) [[1; 2]] (Some 3) = Raise NotImplementedError.
Proof. split; apply C71_supported_costs; try (simpl; lra); apply C71_case. Qed.
Example C72_power_one_partial_case : label_scale (Fin 1) (Fin 1) (Fin 4) [[1]] 2 = Some (Fin (2 / 4)).
Proof. apply C72_power_one_partial; [lra|lra|auto]. Qed.
Example C72_power_two_ignores_kappa_case : label_scale (Fin 2) (Fin 2) (Fin 4) [[1]] 3 = Some (Fin 3) /\ label_scale (Fin 2) (Fin 2) (Fin 400) [[1]] 3 = Some (Fin 3).
Proof. split; apply C72_power_two_ignores_kappa; try lra; reflexivity. Qed.
Example C46_construction_case : exists a, dualize read (args "t-NC-1-2" None) = Ok a /\ built (a_sampler a) /\ means (a_sampler a) = ([[1; 2]], None).
Proof.
  destruct (C46_construction read (args "t-NC-1-2" None) (mkParsed "t" "NC" (Fin (Q2R 1)) (Fin (Q2R 2)) dk)
      (mkCost NC (Fin (Q2R 2)) (Fin (Q2R 1)) None "Norm")) as [H _]; [reflexivity|reflexivity|apply auto_sigma|].
  cbn [c_p c_power] in H. rewrite q2r_1, q2r_2 in H.
  destruct H as (a & Ha & _ & Hb & _ & _ & Hm & _); [left; auto|]. exists a. split; [exact Ha|]. split; [exact Hb|exact Hm].
Qed.
