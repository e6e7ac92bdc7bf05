(* C66, C102: the iteration number handed to the stopping test, and the multiplier the study returns. *)
From Coq Require Import Reals List Bool String ZArith Lia Lra.
From Verif Require Import PyBase XReal OptCond_Model Solver_Model Solver_Spec Study_Model Tests_Proofs Solver_Proofs Study_Proofs Props_Solver Props_Study.
Import ListNotations.

(* C66. Whatever the outcome of the robust optimisation, every stopping test it makes comes after the initial guess of the multiplier,
   and is handed the number of robust steps taken since, minus one. *)
Theorem C66_tests :
  forall W fwd step_with zero_grad plain_step generate guess reset cond metric_grad n_iter theta intercept lam presample opt rho s s' r,
    solve W fwd step_with zero_grad plain_step generate guess reset cond metric_grad n_iter theta intercept lam presample opt rho s = (s', r) ->
    exists tr, s_log s' = s_log s ++ tr /\
      forall p it b q, tr = p ++ ECond it b :: q -> exists p1 p2, p = p1 ++ EGuess :: p2 /\ ~ In EGuess p2 /\ Z.of_nat (n_steps p2) = (it + 1)%Z.
Proof.
  intros W fwd step_with zero_grad plain_step generate guess reset cond metric_grad n_iter theta intercept lam presample opt rho s s' r E.
  destruct (safe_solve W fwd step_with zero_grad plain_step generate guess reset cond metric_grad n_iter theta intercept lam presample opt rho s s' r E) as (tr & b & E1 & E2 & _).
  exists tr. split; [exact E1|]. intros p it c q Q. exact (scan_cond tr b p it c q E2 Q).
Qed.
Print Assumptions C66_tests.

(* C102, the same for the study *)
Theorem C102_tests :
  forall W fwd step_with zero_grad plain_step generate guess reset cond n_iter pos_grad lam_grad lam_item open_figure draw_curves theta intercept lam presample opt rho s s' r,
    study W fwd step_with zero_grad plain_step generate guess reset cond n_iter pos_grad lam_grad lam_item open_figure draw_curves theta intercept lam presample opt rho s = (s', r) ->
    exists tr, s_log s' = s_log s ++ tr /\
      forall p it b q, tr = p ++ ECond it b :: q -> exists p1 p2, p = p1 ++ EGuess :: p2 /\ ~ In EGuess p2 /\ Z.of_nat (n_steps p2) = (it + 1)%Z.
Proof.
  intros W fwd step_with zero_grad plain_step generate guess reset cond n_iter pos_grad lam_grad lam_item open_figure draw_curves theta intercept lam presample opt rho s s' r E.
  destruct (safe_study W fwd step_with zero_grad plain_step generate guess reset cond n_iter theta intercept lam pos_grad lam_grad lam_item open_figure draw_curves presample opt rho s s' r E) as (tr & b & E1 & E2 & _).
  exists tr. split; [exact E1|]. intros p it c q Q. exact (scan_cond tr b p it c q E2 Q).
Qed.
Print Assumptions C102_tests.

(* the multiplier returned: the final one if the radius is positive, 0 otherwise *)
Theorem C102_multiplier :
  forall W fwd step_with zero_grad plain_step generate guess reset cond n_iter pos_grad lam_grad lam_item open_figure draw_curves theta intercept lam presample opt rho s s' r,
    study W fwd step_with zero_grad plain_step generate guess reset cond n_iter pos_grad lam_grad lam_item open_figure draw_curves theta intercept lam presample opt (Fin rho) s = (s', Ok r) ->
    ((0 < rho)%R -> r_lam r = lam (s_w s')) /\ ((rho <= 0)%R -> r_lam r = [0%R]).
Proof.
  intros W fwd step_with zero_grad plain_step generate guess reset cond n_iter pos_grad lam_grad lam_item open_figure draw_curves theta intercept lam presample opt rho s s' r E.
  unfold study in E.
  assert (B : forall A C (m : M W A) (k : A -> M W C) t t' y, bnd W m k t = (t', Ok y) -> exists x t1, m t = (t1, Ok x) /\ k x t1 = (t', Ok y)).
  { intros A C m k t t' y Q. unfold bnd in Q. destruct (m t) as [t1 [x|e]]; [eauto|discriminate]. }
  apply B in E as (x0 & t0 & _ & E). destruct presample.
  - apply B in E as (x1 & t1 & _ & E). apply B in E as (x2 & t2 & _ & E). apply B in E as (x3 & t3 & _ & E). discriminate.
  - apply B in E as (x1 & t1 & _ & E). apply B in E as (x2 & t2 & _ & E). apply B in E as (x3 & t3 & _ & E).
    apply B in E as (w & t4 & E4 & E). injection E4 as <- <-. apply B in E as (y & t5 & E5 & E).
    assert (t5 = t3). { unfold last_item in E5. destruct (rev (c_loss x1)); cbn in E5; injection E5 as <- _; reflexivity. } subst t5.
    injection E as <- <-. cbn. split; intros H.
    + destruct (Rltb 0 rho) eqn:L; [reflexivity|]. apply Rltb_false in L. lra.
    + destruct (Rltb 0 rho) eqn:L; [|reflexivity]. apply Rltb_true in L. lra.
Qed.
Print Assumptions C102_multiplier.

(* both are met: tests made after the first and the second robust step *)
Example C102_tests_case : exists s r, toy_study 1 (SPair 1 3) 5 = (s, Ok r) /\
  exists p1 p2 p3, s_log s = p1 ++ EGuess :: p2 ++ ECond 0 false :: p3 ++ [ECond 1 true] /\ n_steps p2 = 1%nat /\ n_steps (p2 ++ p3) = 2%nat.
Proof.
  eexists. eexists. split; [vm_compute; reflexivity|]. cbn [s_log].
  exists [EFwd true true; EStep true true; ELoss (Fin (-5))], [EReset; EFwd false true; EStep false true], [ELoss (Fin (Rabs (-4))); EFwd false true; EStep false true].
  repeat split; reflexivity.
Qed.
Example C66_tests_case : exists s r, toy true (SPair 1 2) true 100 = (s, Ok r) /\ exists p q b, s_log s = p ++ ECond 1 b :: q.
Proof. run_toy (toy true (SPair 1 2) true 100). eexists [_; _; _; _; _; _; _; _; _; _], _, _. reflexivity. Qed.
