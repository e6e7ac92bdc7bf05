(* Properties C22-C26 and C62-C65: the multiplier during training, its initial value, modes and trainability flags. *)
From Coq Require Import Reals List String ZArith Lra Lia.
From Verif Require Import PyBase RList XReal Costs_Model Dual_Model InitGuess_Model InitGuess_Spec InitGuess_Proofs
  Oracle_Model Oracle_Spec Oracle_Proofs.
Import ListNotations.
Local Open Scope R_scope.

(* C22. With the composite optimiser: after any history of optimiser steps (the inner optimisers and schedulers are arbitrary
   effects), initial guesses and other work, lambda is not negative (it may be NaN or infinite). *)
Theorem C22_composite_history :
  forall T (l : list (event T)) w w',
    Forall (event_ok T) l -> not_negative (w_lam w) -> do_events l w = (w', None) -> not_negative (w_lam w').
Proof. exact history_not_negative. Qed.
Print Assumptions C22_composite_history.

(* the clamp is the projection on [0, inf) of what the inner optimisers produced, and nothing else changes *)
Theorem C22_composite_step :
  forall T opts scheds (w w1 : world T),
    run_effects (opts ++ scheds) w = (w1, None) ->
    exists w', composite_step opts scheds w = (w', None) /\ w_rest w' = w_rest w1 /\
               (not_negative (w_lam w1) -> w_lam w' = w_lam w1) /\
               (forall r, w_lam w1 = Fin r -> w_lam w' = Fin (Rmax r 0)).
Proof. exact step_is_projection. Qed.
Print Assumptions C22_composite_step.

(* an inner optimiser or scheduler that raises ends the step: what follows it is not run, and lambda is left where the failing
   call left it, without the clamp *)
Theorem C22_error_unclamped :
  forall T (opts s1 s2 : list (effect T)) f w w1 w2 e,
    f w1 = (w2, Some e) ->
    (run_effects s1 w = (w1, None) -> composite_step (s1 ++ f :: s2) opts w = (w2, Some e)) /\
    (run_effects (opts ++ s1) w = (w1, None) -> composite_step opts (s1 ++ f :: s2) w = (w2, Some e)).
Proof. exact step_error. Qed.
Print Assumptions C22_error_unclamped.

Theorem C22_error_refuted :
  exists (opts : list (effect nat)) w w' e,
    not_negative (w_lam w) /\ composite_step opts [] w = (w', Some e) /\ ~ not_negative (w_lam w').
Proof.
  exists [(fun w => ({| w_lam := xsub (w_lam w) (Fin 5); w_rest := w_rest w |}, None)); (fun w => (w, Some RuntimeError))].
  exists {| w_lam := Fin 3; w_rest := 0%nat |}, {| w_lam := Fin (3 - 5); w_rest := 0%nat |}, RuntimeError.
  split; [simpl; lra|]. split; [reflexivity|]. simpl. lra.
Qed.
Print Assumptions C22_error_refuted.

Theorem C22_starts_not_negative :
  forall rho eps p red imp d, dual_init rho eps p red imp = Ok d -> 0 <= d_lam d.
Proof. exact dual_init_not_negative. Qed.
Print Assumptions C22_starts_not_negative.
(* The multiplier starts at a thousandth of 1/rho; at 0 for radii that are not positive, infinite or not a number. *)
Theorem C22_starting_value :
  forall rho eps p red imp d, dual_init rho eps p red imp = Ok d ->
    (forall r, rho = Fin r -> 0 < r -> r * d_lam d = / 1000) /\ ((forall r, rho = Fin r -> r <= 0) -> d_lam d = 0).
Proof.
  intros rho eps p red imp d H. unfold dual_init in H. injection H as <-. cbn. split.
  - intros r -> P. replace (Rltb 0 r) with true by (symmetry; apply Rltb_true; exact P). field. lra.
  - intros N. destruct rho as [r| | |]; try reflexivity. pose proof (N r eq_refl). replace (Rltb 0 r) with false by (symmetry; apply Rltb_false; lra). reflexivity.
Qed.
Print Assumptions C22_starting_value.

Definition bad_inner : effect nat := fun w => ({| w_lam := xsub (w_lam w) (Fin 5); w_rest := S (w_rest w) |}, None).
Example C22_case :
  Forall (event_ok nat) [EStep [bad_inner] []; EGuess (Fin 1) 2 [1]; EOther S; EStep [bad_inner; bad_inner] []] /\
  not_negative (Fin 3) /\
  exists w', do_events [EStep [bad_inner] []] {| w_lam := Fin 3; w_rest := 0%nat |} = (w', None) /\ w_lam w' = Fin 0.
Proof.
  split; [repeat constructor; simpl; lra|]. split; [simpl; lra|]. eexists. split; [reflexivity|]. simpl.
  unfold clamp_min0; simpl. unfold xmax; simpl. assert (E : Rltb (3 + - (5)) 0 = true) by (apply Rltb_true; lra).
  replace (3 - 5) with (3 + - (5)) by ring. rewrite E. reflexivity.
Qed.

(* Refuted for the other optimisers the library installs. AdamW (adapt=None, post-sampled): the first step with a gradient g
   of lambda makes it negative for every radius and gradient with 1e-3/rho < 0.05 g/(g+1e-8). *)
Theorem C22_adamw_first_step :
  forall rho eps p red imp d g,
    0 < rho -> 0 < g -> dual_init (Fin rho) eps p red imp = Ok d ->
    / 1000 / rho < / 20 * (g / (g + / 100000000)) ->
    snd (adamw_step (adamw_lr None) adam0 (d_lam d) g) < 0.
Proof. exact adamw_negative. Qed.
Print Assumptions C22_adamw_first_step.

(* with a learning rate of the caller, AdamW moves lambda by almost exactly that rate at its first step, whatever the size of
   the gradient: lambda becomes negative as soon as the rate exceeds 1e-3/rho by the factor (g+1e-8)/g *)
Theorem C22_adamw_given_rate :
  forall rho eps p red imp d g r,
    0 < rho -> 0 < g -> dual_init (Fin rho) eps p red imp = Ok d ->
    snd (adamw_step (adamw_lr (Some r)) adam0 (d_lam d) g) = / 1000 / rho - r * (g / (g + / 100000000)) /\
    (snd (adamw_step (adamw_lr (Some r)) adam0 (d_lam d) g) < 0 <-> / 1000 / rho < r * (g / (g + / 100000000))).
Proof. exact adamw_given. Qed.
Print Assumptions C22_adamw_given_rate.

Example C22_adamw_given_case : / 1000 / 1 < / 100 * (1 / (1 + / 100000000)).
Proof. assert (H : / 2 < 1 / (1 + / 100000000)) by (apply Rmult_lt_reg_r with (1 + / 100000000); [lra|]; unfold Rdiv; rewrite Rmult_assoc, Rinv_l; lra). lra. Qed.

Theorem C22_adamw_refuted :
  exists rho d g, 0 < rho /\ dual_init (Fin rho) 1 2 None false = Ok d /\ 0 <= d_lam d /\
    snd (adamw_step (adamw_lr None) adam0 (d_lam d) g) < 0.
Proof. exact adamw_witness. Qed.
Print Assumptions C22_adamw_refuted.

Theorem C22_lbfgs_refuted :
  exists rho d g, 0 < rho /\ dual_init (Fin rho) 1 2 None false = Ok d /\ 0 <= d_lam d /\
    exists lam', lbfgs_first_step (lbfgs_lr None) [0; d_lam d] [0; g] = [0; lam'] /\ lam' < 0.
Proof. exact lbfgs_witness. Qed.
Print Assumptions C22_lbfgs_refuted.

(* C23. Euclidean cost of any power p > 1: the initial multiplier is the unique minimiser of the linearised dual. *)
Theorem C23_guess_is_optimal :
  forall p rho lam grads,
    1 < p -> 0 < rho -> Exists nonzero grads ->
    exists lam0 v0,
      initial_guess (Fin rho) (Fin lam) true p (grads_norms (PFin 2) p grads) = Ok (Fin lam0) /\ 0 < lam0 /\
      lin_dual norm2 p rho grads lam0 v0 /\
      (forall l v, 0 <= l -> l <> lam0 -> lin_dual norm2 p rho grads l v -> v0 < v).
Proof. exact guess_optimal. Qed.
Print Assumptions C23_guess_is_optimal.

Theorem C23_guess_value :
  forall p rho lam grads,
    1 < p -> 0 < rho -> Exists nonzero grads ->
    exists lam0, initial_guess (Fin rho) (Fin lam) true p (grads_norms (PFin 2) p grads) = Ok (Fin lam0) /\
      lin_dual norm2 p rho grads lam0
        (rho * ppow (rmean (map (fun g => ppow (norm2 g) (p / (p - 1))) grads)) (1 - / p)).
Proof. exact guess_best_value. Qed.
Print Assumptions C23_guess_value.

Theorem C23_no_radius :
  forall rho lam norm_cost power gn,
    xlt (Fin 0) rho = false -> initial_guess rho (Fin lam) norm_cost power gn = Ok (Fin 0).
Proof. exact guess_no_radius. Qed.
Print Assumptions C23_no_radius.

Theorem C23_zero_gradients :
  forall p rho lam grads,
    1 < p -> 0 < rho -> grads <> [] -> Forall (Forall (fun a => a = 0)) grads ->
    initial_guess (Fin rho) (Fin lam) true p (grads_norms (PFin 2) p grads) = Ok (Fin 0).
Proof. exact guess_zero_gradients. Qed.
Print Assumptions C23_zero_gradients.

Example C23_case : 1 < 2 /\ 0 < / 10 /\ Exists nonzero [[0; 0]; [1; 2]].
Proof. split; [lra|]. split; [lra|]. apply Exists_cons_tl, Exists_cons_hd. exists 1. split; [left; reflexivity|lra]. Qed.
Example C23_case_zero : [[0; 0]; [0; 0]] <> [] /\ Forall (Forall (fun a : R => a = 0)) [[0; 0]; [0; 0]].
Proof. split; [discriminate|]. repeat constructor. Qed.

(* C24. Refuted: for power-1 costs the initial multiplier is 1/(m rho) whatever the gradients. *)
Theorem C24_ignores_gradients :
  forall rho lam gn gn',
    0 < rho -> gn <> [] -> List.length gn = List.length gn' ->
    initial_guess (Fin rho) (Fin lam) true 1 gn = initial_guess (Fin rho) (Fin lam) true 1 gn'.
Proof. exact power_one_blind. Qed.
Print Assumptions C24_ignores_gradients.

Theorem C24_value :
  forall rho lam gn,
    0 < rho -> gn <> [] ->
    initial_guess (Fin rho) (Fin lam) true 1 gn = Ok (Fin (/ (INR (List.length gn) * rho))).
Proof. exact guess_power_one. Qed.
Print Assumptions C24_value.

(* what it should reflect: the linearised dual is finite exactly above the largest gradient norm, and is lambda rho there *)
Theorem C24_linearised_dual :
  forall rho grads lam v,
    0 < rho -> 0 <= lam ->
    (lin_dual norm2 1 rho grads lam v <-> (Forall (fun g => norm2 g <= lam) grads /\ v = lam * rho)).
Proof. exact lin_dual_power_one. Qed.
Print Assumptions C24_linearised_dual.

Theorem C24_power_one_refuted :
  exists rho lam grads lam0 best,
    0 < rho /\ initial_guess (Fin rho) (Fin lam) true 1 (grads_norms (PFin 2) 1 grads) = Ok (Fin lam0) /\
    0 <= lam0 /\ 0 <= best /\
    (exists v, lin_dual norm2 1 rho grads best v /\ forall l v', 0 <= l -> lin_dual norm2 1 rho grads l v' -> v <= v') /\
    (forall v, ~ lin_dual norm2 1 rho grads lam0 v).
Proof. exact power_one_witness. Qed.
Print Assumptions C24_power_one_refuted.

Example C24_case : 0 < / 2 /\ [1; 4] <> [] /\ List.length [1; 4] = List.length [7; 100].
Proof. split; [lra|]. split; [discriminate|reflexivity]. Qed.

(* C25. eval() puts the loss and all modules below in evaluation mode. *)
Theorem C25_eval_mode : forall s, in_mode false (m_training (dual_eval s)) (m_below (dual_eval s)).
Proof. exact eval_mode. Qed.
Print Assumptions C25_eval_mode.

Theorem C25_train_true : forall s, in_mode true (m_training (dual_train true s)) (m_below (dual_train true s)).
Proof. exact train_true_mode. Qed.
Print Assumptions C25_train_true.

(* but train() is eval(), so that nothing is back where it was after eval() then train() *)
Theorem C25_train_is_eval : forall s, dual_train_default s = dual_eval s.
Proof. exact train_default_is_eval. Qed.
Print Assumptions C25_train_is_eval.

(* and the ERM flag follows the mode the wrong way round: eval() leaves it off, train(True) puts it on *)
Theorem C25_erm_flag : forall s, m_erm (dual_eval s) = false /\ m_erm (dual_train true s) = true.
Proof. exact erm_flags. Qed.
Print Assumptions C25_erm_flag.

Theorem C25_train_refuted :
  exists s, in_mode true (m_training s) (m_below s) /\
            ~ in_mode true (m_training (dual_train_default s)) (m_below (dual_train_default s)).
Proof. exact train_witness. Qed.
Print Assumptions C25_train_refuted.

Theorem C25_roundtrip_refuted : exists s, m_training s = true /\ dual_train_default (dual_eval s) <> s.
Proof. exact roundtrip_witness. Qed.
Print Assumptions C25_roundtrip_refuted.

Theorem C25_reading_the_loss_refuted :
  exists s, in_mode true (m_training s) (m_below s) /\
            in_mode false (m_training (fst (closure_eval s))) (m_below (fst (closure_eval s))).
Proof. exact closure_witness. Qed.
Print Assumptions C25_reading_the_loss_refuted.

(* C26. Flags are kept exactly when every primal parameter and lambda were trainable. *)
Theorem C26_flags_kept_iff :
  forall f s,
    fst (fst (displacement_direction None f s)) = f <->
    (Forall (fun b => b = true) (f_primal f) /\ f_lam f = true).
Proof. exact flags_kept. Qed.
Print Assumptions C26_flags_kept_iff.

Theorem C26_everything_trainable :
  forall f s b, In b (f_primal (fst (fst (displacement_direction None f s)))) -> b = true.
Proof. exact unfrozen. Qed.
Print Assumptions C26_everything_trainable.

Theorem C26_after_failure :
  forall e f s, exists f' s',
    displacement_direction (Some e) f s = (f', s', Some e) /\
    Forall (fun b => b = false) (f_primal f') /\ f_lam f' = false /\ Forall (fun b => b = false) (m_below s') /\
    f_hyper f' = f_hyper f.
Proof. exact failed_direction. Qed.
Print Assumptions C26_after_failure.

Theorem C26_frozen_parameter_refuted :
  exists f s, f_lam f = true /\ In false (f_primal f) /\ In true (f_primal f) /\
    f_primal (fst (fst (displacement_direction None f s))) = [true; true] /\
    fst (fst (displacement_direction None f s)) <> f.
Proof. exact flags_witness. Qed.
Print Assumptions C26_frozen_parameter_refuted.

Theorem C26_failure_refuted :
  exists f s e, Forall (fun b => b = true) (f_primal f) /\ f_lam f = true /\
    fst (fst (displacement_direction (Some e) f s)) <> f.
Proof. exact failed_witness. Qed.
Print Assumptions C26_failure_refuted.

Example C26_case :
  Forall (fun b => b = true) (f_primal {| f_primal := [true; true]; f_lam := true; f_hyper := [false; false] |}).
Proof. repeat constructor. Qed.

(* C62. Without a sampler the promised lazy initialisation never happens. *)
Theorem C62_no_sampler_always_fails :
  forall S (init : S) reset reset_sampler, ensure_sampler init reset reset_sampler None = Raise ValueError.
Proof. exact (@no_sampler_fails). Qed.
Print Assumptions C62_no_sampler_always_fails.

Theorem C62_lazy_sampler_refuted :
  exists (init : nat) reset reset_sampler, ensure_sampler init reset reset_sampler None = Raise ValueError.
Proof. exact (ex_intro _ 0%nat (ex_intro _ S (ex_intro _ true (no_sampler_fails 0%nat S true)))). Qed.
Print Assumptions C62_lazy_sampler_refuted.

Theorem C62_given_sampler :
  forall S (init x : S) reset reset_sampler,
    ensure_sampler init reset reset_sampler (Some x) = Ok (if reset_sampler then reset x else x).
Proof. exact (@with_sampler). Qed.
Print Assumptions C62_given_sampler.

(* C63. Refuted for the max norm: the price of the gradient is computed with the cost's own norm instead of the dual one. *)
Theorem C63_other_norm_refuted :
  exists p rho lam grads lam0 v0 best vbest,
    initial_guess (Fin rho) (Fin lam) true p (grads_norms PInfty p grads) = Ok (Fin lam0) /\
    0 < rho /\ 1 < p /\ 0 < lam0 /\ 0 < best /\
    lin_dual maxnorm p rho grads lam0 v0 /\ lin_dual maxnorm p rho grads best vbest /\ vbest < v0.
Proof. exact other_norm_witness. Qed.
Print Assumptions C63_other_norm_refuted.

(* C64. With Prodigy, the schedules after pre pretraining steps and j robust steps. *)
Theorem C64_schedules :
  forall A (params : list A) lbd pre train c j,
    composite_init params lbd (pre, train) "prodigy"%string = Ok c ->
    exists Tp Tl, c_schedulers c = Some (Tp, Tl) /\
      cosine_factor Tl (pre + j) = (1 + cos (PI * IZR (pre + j) / IZR train)) / 2 /\
      cosine_factor Tp (pre + j) = (1 + cos (PI * IZR (pre + j) / IZR (pre + train))) / 2.
Proof. exact (@lambda_schedule). Qed.
Print Assumptions C64_schedules.

(* the model's parameters: strictly decreasing, down to 0 at the last step *)
Theorem C64_parameters :
  forall pre train j,
    (0 <= pre)%Z -> (0 < train)%Z -> (0 <= j < train)%Z ->
    cosine_factor (pre + train) (pre + (j + 1)) < cosine_factor (pre + train) (pre + j) /\
    cosine_factor (pre + train) (pre + train) = 0.
Proof. exact params_schedule. Qed.
Print Assumptions C64_parameters.

(* refuted for lambda: with as many pretraining as training steps it starts at 0 and ends at full rate *)
Theorem C64_multiplier_refuted :
  exists pre train c Tp Tl, (0 < pre)%Z /\ (0 < train)%Z /\
    composite_init [1%nat] 0%nat (pre, train) "prodigy"%string = Ok c /\ c_schedulers c = Some (Tp, Tl) /\
    cosine_factor Tl (pre + 0) = 0 /\ cosine_factor Tl (pre + train) = 1.
Proof. exact schedule_witness. Qed.
Print Assumptions C64_multiplier_refuted.

Example C64_case : exists c, composite_init [1%nat; 2%nat] 0%nat (3, 10)%Z "prodigy"%string = Ok c.
Proof. eexists. reflexivity. Qed.

(* C65. The composite optimiser's own param_groups list only lambda. *)
Theorem C65_groups :
  forall A (params : list A) lbd steps name c,
    composite_init params lbd steps name = Ok c ->
    c_params c = params /\ c_lbd c = [lbd] /\ c_own c = [lbd] /\ params <> [].
Proof. exact (@groups_lambda_only). Qed.
Print Assumptions C65_groups.

Theorem C65_accepts :
  forall A (params : list A) lbd steps name,
    (exists c, composite_init params lbd steps name = Ok c) <->
    ((name = "mechanic"%string \/ name = "prodigy"%string) /\ params <> []).
Proof. exact (@composite_accepts). Qed.
Print Assumptions C65_accepts.

Theorem C65_groups_refuted :
  exists (params : list nat) lbd c, composite_init params lbd (200, 2800)%Z "prodigy"%string = Ok c /\
    exists x, In x params /\ ~ In x (c_own c).
Proof. exact groups_witness. Qed.
Print Assumptions C65_groups_refuted.

(* ---------- concrete cases of the theorems above, one each ---------- *)
(* two steps of an inner optimiser that subtracts 5, an initial guess and other work *)
Example C22_composite_history_case : exists w', do_events [EStep [bad_inner] []; EOther S; EStep [bad_inner; bad_inner] []] {| w_lam := Fin 3; w_rest := 0%nat |} = (w', None) /\ not_negative (w_lam w').
Proof.
  set (l := [EStep [bad_inner] []; EOther S; EStep [bad_inner; bad_inner] []]). set (w := {| w_lam := Fin 3; w_rest := 0%nat |}).
  exists (fst (do_events l w)). assert (E : do_events l w = (fst (do_events l w), None)) by reflexivity. split; [exact E|].
  refine (C22_composite_history nat l w _ _ _ E); [repeat constructor|simpl; lra].
Qed.
Example C22_composite_step_case : exists w', composite_step [bad_inner] [] {| w_lam := Fin 3; w_rest := 0%nat |} = (w', None) /\ w_rest w' = 1%nat /\ w_lam w' = Fin 0.
Proof.
  destruct (C22_composite_step nat [bad_inner] [] {| w_lam := Fin 3; w_rest := 0%nat |} _ eq_refl) as (w' & A & B & _ & C). exists w'. split; [exact A|]. split; [exact B|].
  rewrite (C (3 + - (5)) eq_refl). rewrite Rmax_right by lra. reflexivity.
Qed.
Example C22_error_unclamped_case : composite_step [bad_inner; (fun w => (w, Some RuntimeError)); bad_inner] [] {| w_lam := Fin 3; w_rest := 0%nat |}
  = ({| w_lam := Fin (3 + - (5)); w_rest := 1%nat |}, Some RuntimeError).
Proof. apply (C22_error_unclamped nat [] [bad_inner] [bad_inner] (fun w => (w, Some RuntimeError)) _ {| w_lam := Fin (3 + - (5)); w_rest := 1%nat |}); reflexivity. Qed.
Example C22_starts_not_negative_case : exists d, dual_init (Fin (1 / 10)) 1 2 None true = Ok d /\ 0 <= d_lam d.
Proof. eexists. split; [reflexivity|]. exact (C22_starts_not_negative (Fin (1 / 10)) 1 2 None true _ eq_refl). Qed.
Example C22_starting_value_case : exists d, dual_init (Fin (1 / 10)) 1 2 None true = Ok d /\ d_lam d = / 100.
Proof. eexists. split; [reflexivity|]. pose proof (proj1 (C22_starting_value (Fin (1 / 10)) 1 2 None true _ eq_refl) (1 / 10) eq_refl ltac:(lra)) as H. cbn in H |- *. lra. Qed.
Lemma half_below g : / 100000000 <= g -> / 2 <= g / (g + / 100000000).
Proof. intros H. apply Rmult_le_reg_r with (g + / 100000000); [lra|]. unfold Rdiv. rewrite Rmult_assoc, Rinv_l; lra. Qed.
Example C22_adamw_first_step_case : exists d, dual_init (Fin 1) 1 2 None false = Ok d /\ snd (adamw_step (adamw_lr None) adam0 (d_lam d) 1) < 0.
Proof. eexists. split; [reflexivity|]. apply (C22_adamw_first_step 1 1 2 None false); [lra|lra|reflexivity|]. pose proof (half_below 1 ltac:(lra)). lra. Qed.
Example C22_adamw_given_rate_case : exists d, dual_init (Fin 1) 1 2 None false = Ok d /\ snd (adamw_step (adamw_lr (Some (/ 100))) adam0 (d_lam d) 1) < 0.
Proof.
  eexists. split; [reflexivity|]. refine (proj2 (proj2 (C22_adamw_given_rate 1 1 2 None false _ 1 (/ 100) _ _ eq_refl)) C22_adamw_given_case); lra.
Qed.
Lemma grads_nonzero : Exists nonzero [[0; 0]; [1; 2]].
Proof. apply C23_case. Qed.
Example C23_guess_is_optimal_case : exists lam0 v0, initial_guess (Fin (/ 10)) (Fin 7) true 2 (grads_norms (PFin 2) 2 [[0; 0]; [1; 2]]) = Ok (Fin lam0) /\ 0 < lam0 /\
  lin_dual norm2 2 (/ 10) [[0; 0]; [1; 2]] lam0 v0 /\ (forall l v, 0 <= l -> l <> lam0 -> lin_dual norm2 2 (/ 10) [[0; 0]; [1; 2]] l v -> v0 < v).
Proof. apply C23_guess_is_optimal; [lra|lra|exact grads_nonzero]. Qed.
Example C23_guess_value_case : exists lam0, initial_guess (Fin (/ 10)) (Fin 7) true 3 (grads_norms (PFin 2) 3 [[0; 0]; [1; 2]]) = Ok (Fin lam0) /\
  lin_dual norm2 3 (/ 10) [[0; 0]; [1; 2]] lam0 (/ 10 * ppow (rmean (map (fun g => ppow (norm2 g) (3 / (3 - 1))) [[0; 0]; [1; 2]])) (1 - / 3)).
Proof. apply C23_guess_value; [lra|lra|exact grads_nonzero]. Qed.
Example C23_no_radius_case : initial_guess (Fin 0) (Fin 7) true 2 (grads_norms (PFin 2) 2 [[1; 2]]) = Ok (Fin 0) /\ initial_guess NaN (Fin 7) false 2 [] = Ok (Fin 0).
Proof. split; apply C23_no_radius; [|reflexivity]. cbn. apply Rltb_false. lra. Qed.
Example C23_zero_gradients_case : initial_guess (Fin (/ 10)) (Fin 7) true 2 (grads_norms (PFin 2) 2 [[0; 0]; [0; 0]]) = Ok (Fin 0).
Proof. apply C23_zero_gradients; [lra|lra|discriminate|repeat constructor]. Qed.
Example C24_ignores_gradients_case : initial_guess (Fin (/ 2)) (Fin 7) true 1 [1; 4] = initial_guess (Fin (/ 2)) (Fin 7) true 1 [7; 100].
Proof. apply C24_ignores_gradients; [lra|discriminate|reflexivity]. Qed.
Example C24_value_case : initial_guess (Fin (/ 2)) (Fin 7) true 1 [1; 4] = Ok (Fin 1).
Proof. rewrite C24_value; [|lra|discriminate]. do 2 f_equal. simpl. field. Qed.
Example C24_linearised_dual_case : lin_dual norm2 1 (/ 2) [[1]; [-2]] 3 (3 / 2) /\ ~ lin_dual norm2 1 (/ 2) [[1]; [-2]] 1 (1 / 2).
Proof.
  assert (N : forall a, norm2 [a] = Rabs a). { intros a. unfold norm2, sqnorm, dot. simpl. rewrite Rplus_0_r. apply sqrt_Rsqr_abs. }
  split; [|intros H]; [|apply C24_linearised_dual in H; try lra]; [apply C24_linearised_dual; try lra; split; [|lra]; repeat constructor|].
  - rewrite N, Rabs_right; lra.
  - rewrite N, Rabs_left; lra.
  - destruct H as [H _]. apply Forall_inv_tail, Forall_inv in H. rewrite N, Rabs_left in H; lra.
Qed.
Definition some_modes : modes := {| m_training := true; m_below := [true; false; true]; m_erm := false |}.
Example C25_eval_mode_case : in_mode false (m_training (dual_eval some_modes)) (m_below (dual_eval some_modes)) /\ m_below (dual_eval some_modes) = [false; false; false].
Proof. split; [apply C25_eval_mode|reflexivity]. Qed.
Example C25_train_true_case : in_mode true (m_training (dual_train true some_modes)) (m_below (dual_train true some_modes)) /\ m_below (dual_train true some_modes) = [true; true; true].
Proof. split; [apply C25_train_true|reflexivity]. Qed.
Example C25_train_is_eval_case : m_training (dual_train_default some_modes) = false.
Proof. rewrite C25_train_is_eval. apply C25_eval_mode. Qed.
Example C26_flags_kept_iff_case :
  let f := {| f_primal := [true; true]; f_lam := true; f_hyper := [false; false] |} in let g := {| f_primal := [true; false]; f_lam := true; f_hyper := [false; false] |} in
  fst (fst (displacement_direction None f some_modes)) = f /\ fst (fst (displacement_direction None g some_modes)) <> g.
Proof.
  cbv zeta. split; [apply C26_flags_kept_iff; split; [repeat constructor|reflexivity]|]. intros H. apply C26_flags_kept_iff in H as [H _]. apply Forall_inv_tail, Forall_inv in H. discriminate.
Qed.
Example C26_after_failure_case : exists f' s', displacement_direction (Some RuntimeError) {| f_primal := [true; true]; f_lam := true; f_hyper := [false] |} some_modes = (f', s', Some RuntimeError) /\
  Forall (fun b => b = false) (f_primal f') /\ f_lam f' = false /\ f_hyper f' = [false].
Proof. destruct (C26_after_failure RuntimeError {| f_primal := [true; true]; f_lam := true; f_hyper := [false] |} some_modes) as (f' & s' & A & B & C & D & E). exists f', s'. auto. Qed.
Example C62_given_sampler_case : ensure_sampler 0%nat S true (Some 4%nat) = Ok 5%nat /\ ensure_sampler 0%nat S false (Some 4%nat) = Ok 4%nat.
Proof. split; apply C62_given_sampler. Qed.
Example C64_schedules_case : exists c Tp Tl, composite_init [1%nat; 2%nat] 0%nat (3, 10)%Z "prodigy"%string = Ok c /\ c_schedulers c = Some (Tp, Tl) /\
  cosine_factor Tl (3 + 4) = (1 + cos (PI * IZR 7 / IZR 10)) / 2 /\ cosine_factor Tp (3 + 4) = (1 + cos (PI * IZR 7 / IZR 13)) / 2.
Proof.
  eexists. destruct (C64_schedules nat [1%nat; 2%nat] 0%nat 3 10 _ 4 eq_refl) as (Tp & Tl & H). exists Tp, Tl. split; [reflexivity|exact H].
Qed.
Example C64_parameters_case : cosine_factor 13 8 < cosine_factor 13 7 /\ cosine_factor 13 13 = 0.
Proof. apply (C64_parameters 3 10 4); lia. Qed.
Example C65_groups_case : exists c, composite_init [1%nat; 2%nat] 9%nat (3, 10)%Z "mechanic"%string = Ok c /\ c_params c = [1%nat; 2%nat] /\ c_own c = [9%nat].
Proof. eexists. split; [reflexivity|]. destruct (C65_groups nat [1%nat; 2%nat] 9%nat (3, 10)%Z "mechanic" _ eq_refl) as (A & _ & B & _). auto. Qed.
Example C65_accepts_case : (exists c, composite_init [1%nat] 0%nat (3, 10)%Z "mechanic"%string = Ok c) /\ ~ (exists c, composite_init (@nil nat) 0%nat (3, 10)%Z "mechanic"%string = Ok c).
Proof. split; [apply C65_accepts; split; [auto|discriminate]|]. intros H. apply C65_accepts in H as [_ H]. contradiction. Qed.
