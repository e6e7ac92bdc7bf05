(* Properties C101 and C102: the solver of the epsilon study. As in Props_Solver, everything outside the loops is an arbitrary
   function on an arbitrary world that may raise. *)
From Coq Require Import Reals List Bool ZArith Lra Lia.
From Verif Require Import SolverTrace_Spec SolverTrace_Proofs PyBase XReal OptCond_Model Solver_Model Solver_Spec Solver_Proofs Study_Model Study_Proofs.
Import ListNotations.

(* C101. With a pre-sampled loss it never returns, *)
Theorem C101_presample_never :
  forall W fwd step_with zero_grad plain_step generate guess reset cond n_iter pos_grad lam_grad lam_item open_figure draw_curves theta intercept lam has_opt rho s,
    is_ok (snd (study W fwd step_with zero_grad plain_step generate guess reset cond n_iter pos_grad lam_grad lam_item open_figure draw_curves theta intercept lam true has_opt rho s)) = false.
Proof. exact presample_never. Qed.
Print Assumptions C101_presample_never.

(* and without an optimiser nothing at all is done *)
Theorem C101_no_optimizer :
  forall W fwd step_with zero_grad plain_step generate guess reset cond n_iter pos_grad lam_grad lam_item open_figure draw_curves theta intercept lam presample rho s,
    study W fwd step_with zero_grad plain_step generate guess reset cond n_iter pos_grad lam_grad lam_item open_figure draw_curves theta intercept lam presample false rho s = (s, Raise AttributeError).
Proof. intros. reflexivity. Qed.
Print Assumptions C101_no_optimizer.

(* not even when nothing else fails, *)
Theorem C101_refuted :
  exists n_iter s s1 l,
    (* the solver of the study ran to its end ... *)
    study_presample Z neg_fwd toy_step toy_nop toy_nop toy_nop None (fun _ w => (w, Ok false)) n_iter s = (s1, Ok l) /\ List.length l = 3%nat /\
    (* ... the main solver returns on the same problem ... *)
    is_ok (snd (solve Z neg_fwd toy_step toy_nop toy_plain toy_nop toy_nop None (fun _ w => (w, Ok false)) true n_iter
                  (fun w => [IZR w]) (fun _ => None) (fun w => [IZR w]) true true PInf s)) = true /\
    (* ... and this one does not *)
    snd (study Z neg_fwd toy_step toy_nop toy_plain toy_nop toy_nop None (fun _ w => (w, Ok false)) n_iter
           (fun w => Ok (Fin (IZR w))) (fun w => Ok (Fin (IZR w))) (fun w => Ok (Fin (IZR w))) toy_nop toy_nop
           (fun w => [IZR w]) (fun _ => None) (fun w => [IZR w]) true true PInf s) = Raise ValueError.
Proof.
  exists (SPair 1 3), {| s_w := 10%Z; s_erm := false; s_imp := true; s_log := [] |}. eexists. eexists.
  split; [vm_compute; reflexivity|]. split; [reflexivity|]. split; reflexivity.
Qed.
Print Assumptions C101_refuted.

(* nor with exactly four recorded losses, which can be unpacked *)
Example C101_four_losses :
  snd (study Z neg_fwd toy_step toy_nop toy_plain toy_nop toy_nop None (fun _ w => (w, Ok false)) (SPair 1 4)
         (fun w => Ok (Fin (IZR w))) (fun w => Ok (Fin (IZR w))) (fun w => Ok (Fin (IZR w))) toy_nop toy_nop
         (fun w => [IZR w]) (fun _ => None) (fun w => [IZR w]) true true PInf {| s_w := 10%Z; s_erm := false; s_imp := true; s_log := [] |}) = Raise TypeError.
Proof. reflexivity. Qed.

(* C102. With a post-sampled loss: the pretraining is in ERM mode and takes its number of steps, then the multiplier is initialised
   and its optimiser reset, then the robust phase takes its number of steps unless the stopping test says yes; the step at which it
   does is not recorded; the recorded losses of the robust phase are absolute values; the last recorded one is reported. *)
Theorem C102_postsample :
  forall W fwd step_with zero_grad plain_step generate guess reset cond n_iter pos_grad lam_grad lam_item open_figure draw_curves theta intercept lam rho s s' r,
    study W fwd step_with zero_grad plain_step generate guess reset cond n_iter pos_grad lam_grad lam_item open_figure draw_curves theta intercept lam false true rho s = (s', Ok r) ->
    let in_mode erm := Forall (fun e => match e with EStep a b | EFwd a b => a = erm /\ b = s_imp s | _ => True end) in
    let stopped tr := exists it, In (ECond it true) tr in
    exists before after l,
      s_log s' = s_log s ++ before ++ EGuess :: (match reset with Some _ => [EReset] | None => [] end) ++ after /\
      ~ In EGuess before /\ ~ In EGuess after /\ ~ In EReset after /\
      n_steps before = Z.to_nat (fst (interpret_steps n_iter)) /\ List.length (recorded before) = n_steps before /\
      in_mode true before /\ in_mode false after /\
      (n_steps after <= Z.to_nat (snd (interpret_steps n_iter)))%nat /\
      ((~ stopped after /\ n_steps after = Z.to_nat (snd (interpret_steps n_iter)) /\ List.length (recorded after) = n_steps after) \/
       (exists after' it, after = after' ++ [ECond it true] /\ ~ stopped after' /\ n_steps after = S (List.length (recorded after)))) /\
      Forall (fun x => x = NaN \/ x = PInf \/ exists y, x = Fin y /\ (0 <= y)%R) (recorded after) /\
      recorded before ++ recorded after = l ++ [r_loss r] /\
      r_theta r = theta (s_w s') /\ r_intercept r = intercept (s_w s').
Proof.
  intros. apply study_post in H as (b & a & l & H1 & H2 & H3 & H4 & H5 & H6 & H7 & H8 & H9 & H10 & H11 & H12 & H13 & H14).
  exists b, a, l. repeat (split; [assumption|]). split; [|split; [|split]]; auto.
  eapply Forall_impl; [|exact H11]. intros x (y & ->). destruct y; simpl; auto. right. right. eexists. split; [reflexivity|]. apply Rabs_pos.
Qed.
Print Assumptions C102_postsample.

(* C102, with a pre-sampled loss: the list the phase returns is exactly the losses recorded in it, one for each step after which the
   stopping test said no; steps are taken with the importance-sampling flag of the caller and losses recorded with its negation. *)
Theorem C102_presample :
  forall W fwd step_with zero_grad generate guess reset cond n_iter (s s' : st W) l,
    study_presample W fwd step_with zero_grad generate guess reset cond n_iter s = (s', Ok l) ->
    let stopped tr := exists it, In (ECond it true) tr in
    exists after,
      s_log s' = s_log s ++ repeat (EStep true (s_imp s)) (Z.to_nat (fst (interpret_steps n_iter))) ++
                 EGuess :: (match reset with Some _ => [EReset] | None => [] end) ++ after /\
      ~ In EGuess after /\ ~ In EReset after /\
      Forall (fun e => match e with EStep a b => a = false /\ b = s_imp s | EFwd a b => a = false /\ b = negb (s_imp s) | _ => True end) after /\
      recorded after = l /\
      (n_steps after <= Z.to_nat (snd (interpret_steps n_iter)))%nat /\
      ((~ stopped after /\ n_steps after = Z.to_nat (snd (interpret_steps n_iter)) /\ List.length l = n_steps after) \/
       (exists after' it, after = after' ++ [ECond it true] /\ ~ stopped after' /\ n_steps after = S (List.length l))).
Proof. intros. exact (study_pre W fwd step_with zero_grad generate guess reset cond n_iter s s' l H). Qed.
Print Assumptions C102_presample.

(* the evaluations are those of the logs, as in C69_evaluations; the losses that are only recorded are evaluated without gradients *)
Theorem C102_evaluations :
  forall W fwd step_with zero_grad plain_step generate guess reset cond n_iter pos_grad lam_grad lam_item (s : st W) (seen : W -> list (bool * bool * bool)),
    (forall erm imp back, one_seen seen erm imp back (fwd erm imp back)) ->
    (forall w, seen (fst (zero_grad w)) = seen w /\ snd (zero_grad w) = None) ->
    evaluates_once seen step_with ->
    nothing_seen seen plain_step -> nothing_seen seen generate -> nothing_seen seen guess ->
    (forall f, reset = Some f -> nothing_seen seen f) -> (forall it, nothing_seen seen (cond it)) ->
    (forall s' l, study_presample W fwd step_with zero_grad generate guess reset cond n_iter s = (s', Ok l) ->
       exists tr, s_log s' = s_log s ++ tr /\ seen (s_w s') = seen (s_w s) ++ evaluations true false tr) /\
    (forall s' c, study_postsample W fwd zero_grad plain_step guess reset cond n_iter pos_grad lam_grad lam_item s = (s', Ok c) ->
       exists tr, s_log s' = s_log s ++ tr /\ seen (s_w s') = seen (s_w s) ++ evaluations false true tr).
Proof.
  intros W fwd step_with zero_grad plain_step generate guess reset cond n_iter pos_grad lam_grad lam_item s seen H1 H2 H3 H4 H5 H6 H7 H8.
  assert (Z1 : nothing_seen seen zero_grad) by (intros w; apply H2).
  split; intros s' x E; revert E.
  - apply told_study_pre; auto. intros w. apply H2.
  - apply told_study_post; auto.
Qed.
Print Assumptions C102_evaluations.

Example C102_evaluations_case :
  exists s l, study_presample (list (bool * bool * bool)) (fun a b g w => (w ++ [(a, b, g)], Ok (Fin 1))) (fun c w => (fst (c w), None)) (fun w => (w, None))
                (fun w => (w, None)) (fun w => (w, None)) None (fun _ w => (w, Ok false)) (SPair 1 2)
                {| s_w := []; s_erm := false; s_imp := true; s_log := [] |} = (s, Ok l) /\
    s_w s = [(true, true, true); (false, true, true); (false, false, false); (false, true, true); (false, false, false)].
Proof. eexists. eexists. split; [vm_compute; reflexivity|reflexivity]. Qed.

Example C102_presample_case :
  exists s1 l, study_presample Z neg_fwd toy_step toy_nop toy_nop toy_nop None (fun it w => (w, Ok (it =? 2)%Z)) (SPair 1 5)
                 {| s_w := 10%Z; s_erm := false; s_imp := true; s_log := [] |} = (s1, Ok l) /\ List.length l = 2%nat /\ n_steps (s_log s1) = 4%nat.
Proof. eexists. eexists. split; [vm_compute; reflexivity|]. split; reflexivity. Qed.

(* so the reported loss is not the objective: its sign is lost, *)
Theorem C102_sign_refuted :
  exists s r, toy_study (-1) (SPair 0 1) 5 = (s, Ok r) /\ snd (neg_fwd false true true 5) = Ok (Fin (-5)) /\ r_loss r = Fin (Rabs (-5)) /\ r_loss r <> Fin (-5).
Proof.
  assert (E : forall x, x = Fin (Rabs (-5)) -> x <> Fin (-5)).
  { intros x -> K. injection K as K. pose proof (Rabs_pos (-5)). rewrite K in H. lra. }
  eexists. eexists. split; [vm_compute; reflexivity|]. split; [reflexivity|]. split; [|apply E]; reflexivity.
Qed.
Print Assumptions C102_sign_refuted.

(* and when the stopping test says yes after the first step there may be nothing to report *)
Theorem C102_first_stop_refuted :
  exists s, toy_study 0 (SPair 0 3) 5 = (s, Raise IndexError) /\ n_steps (s_log s) = 1%nat.
Proof. eexists. split; vm_compute; reflexivity. Qed.
Print Assumptions C102_first_stop_refuted.

Example C102_case :
  exists s r, toy_study 1 (SPair 1 3) 5 = (s, Ok r) /\ n_steps (s_log s) = 3%nat /\ recorded (s_log s) = [Fin (-5); Fin (Rabs (-4))] /\ r_loss r = Fin (Rabs (-4)).
Proof. eexists. eexists. split; [vm_compute; reflexivity|]. repeat split. Qed.
