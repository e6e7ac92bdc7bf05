(* Properties C33-C36 and C67-C69: the solver loops of solve_dual_wdro. The robust loss, the optimiser, the initial multiplier and
   the stopping condition are arbitrary functions on an arbitrary world, all of which may raise. *)
From Coq Require Import Reals List Bool ZArith Lia Lra.
From Verif Require Import SolverTrace_Spec SolverTrace_Proofs PyBase XReal OptCond_Model Solver_Model Solver_Spec Solver_Proofs.
Import ListNotations.

(* C33. Post-sampling: the pretraining takes its number of steps; the robust phase at most its own, and exactly that many when no
   loss is NaN and the stopping test never says yes; one loss is recorded per step. *)
Theorem C33_postsample :
  forall W fwd step_with zero_grad plain_step generate guess reset cond metric_grad n_iter theta intercept lam rho s s' r,
    solve W fwd step_with zero_grad plain_step generate guess reset cond metric_grad n_iter theta intercept lam false true rho s = (s', Ok r) ->
    exists before after,
      s_log s' = s_log s ++ before ++ EGuess :: after /\
      n_steps before = Z.to_nat (fst (interpret_steps n_iter)) /\
      List.length (recorded before) = Z.to_nat (fst (interpret_steps n_iter)) /\
      n_steps after = List.length (recorded after) /\
      (n_steps after <= Z.to_nat (snd (interpret_steps n_iter)))%nat /\
      (Forall (fun e => ~ ends e) after -> n_steps after = Z.to_nat (snd (interpret_steps n_iter))).
Proof. exact post_steps. Qed.
Print Assumptions C33_postsample.

(* pre-sampling: the same, but the pretraining records no loss *)
Theorem C33_presample :
  forall W fwd step_with zero_grad plain_step generate guess reset cond metric_grad n_iter theta intercept lam rho s s' r,
    solve W fwd step_with zero_grad plain_step generate guess reset cond metric_grad n_iter theta intercept lam true true rho s = (s', Ok r) ->
    exists before after,
      s_log s' = s_log s ++ before ++ EGuess :: after /\
      n_steps before = Z.to_nat (fst (interpret_steps n_iter)) /\
      recorded before = [] /\
      n_steps after = List.length (recorded after) /\
      (n_steps after <= Z.to_nat (snd (interpret_steps n_iter)))%nat /\
      (Forall (fun e => ~ ends e) after -> n_steps after = Z.to_nat (snd (interpret_steps n_iter))).
Proof. exact pre_steps. Qed.
Print Assumptions C33_presample.

(* an integer is the number of robust steps, with three tenths more of pretraining (rounded down) *)
Theorem C33_integer :
  forall n, (0 <= n)%Z ->
    let '(pre, train) := interpret_steps (SInt n) in
    (0 <= pre <= train)%Z /\ train = n /\ (10 * pre <= 3 * n < 10 * pre + 10)%Z.
Proof. exact int_steps. Qed.
Print Assumptions C33_integer.

Example C33_case :
  interpret_steps (SInt 10) = (3, 10)%Z /\
  (exists s r, toy true (SPair 2 3) false 100 = (s, Ok r) /\ recorded (s_log s) = map (fun z => Fin (IZR z)) [100; 99; 98; 97; 96]%Z /\ n_steps (s_log s) = 5%nat) /\
  (exists s r, toy true (SPair 2 3) true 100 = (s, Ok r) /\ recorded (s_log s) = map (fun z => Fin (IZR z)) [97; 96; 95]%Z /\ n_steps (s_log s) = 5%nat).
Proof.
  split; [reflexivity|]. split.
  - run_toy (toy true (SPair 2 3) false 100). split; reflexivity.
  - run_toy (toy true (SPair 2 3) true 100). split; reflexivity.
Qed.

(* Without an optimiser there is no result and nothing is run. *)
Theorem C34_no_optimizer :
  forall W fwd step_with zero_grad plain_step generate guess reset cond pre n_iter theta intercept lam presample rho s,
    solve W fwd step_with zero_grad plain_step generate guess reset cond pre n_iter theta intercept lam presample false rho s = (s, Raise AttributeError).
Proof. intros. reflexivity. Qed.
Print Assumptions C34_no_optimizer.

(* C34. The result of a solve: the last loss recorded, the final parameters, and the multiplier or 0. *)
Theorem C34_result :
  forall W fwd step_with zero_grad plain_step generate guess reset cond metric_grad n_iter theta intercept lam presample has_opt rho s s' r,
    solve W fwd step_with zero_grad plain_step generate guess reset cond metric_grad n_iter theta intercept lam presample has_opt rho s = (s', Ok r) ->
    (exists tr l, s_log s' = s_log s ++ tr /\ recorded tr = l ++ [r_loss r]) /\
    r_theta r = theta (s_w s') /\ r_intercept r = intercept (s_w s') /\
    (xlt (Fin 0) rho = true -> r_lam r = lam (s_w s')) /\ (xlt (Fin 0) rho = false -> r_lam r = [0%R]).
Proof. exact solve_result. Qed.
Print Assumptions C34_result.

(* without robust iterations there is no last loss and the solver does not return *)
Theorem C34_no_iterations :
  forall W fwd step_with zero_grad plain_step generate guess reset cond metric_grad n_iter theta intercept lam presample rho s,
    (train_steps n_iter <= 0)%Z -> (presample = false -> (fst (interpret_steps n_iter) <= 0)%Z) ->
    is_ok (snd (solve W fwd step_with zero_grad plain_step generate guess reset cond metric_grad n_iter theta intercept lam presample true rho s)) = false.
Proof. exact no_iterations. Qed.
Print Assumptions C34_no_iterations.

Example C34_case :
  (exists s r, toy true (SPair 2 3) true 100 = (s, Ok r) /\ r_loss r = Fin 95 /\ r_theta r = [95%R] /\ r_lam r = [190%R]) /\
  snd (toy true (SInt 0) true 100) = Raise IndexError /\ snd (toy true (SPair 5 0) true 100) = Raise IndexError.
Proof. split; [run_toy (toy true (SPair 2 3) true 100); repeat split|split; reflexivity]. Qed.

(* C35. In the robust phase nothing happens after a NaN loss. *)
Theorem C35_nan_stops :
  forall W fwd step_with zero_grad plain_step generate guess reset cond metric_grad n_iter theta intercept lam presample rho s s' r,
    solve W fwd step_with zero_grad plain_step generate guess reset cond metric_grad n_iter theta intercept lam presample true rho s = (s', Ok r) ->
    exists before after,
      s_log s' = s_log s ++ before ++ EGuess :: after /\ ~ In EGuess before /\
      forall a b, after = a ++ ELoss NaN :: b -> b = [].
Proof. exact nan_stops. Qed.
Print Assumptions C35_nan_stops.

Example C35_case :
  exists s r, toy true (SPair 0 10) true 3 = (s, Ok r) /\ recorded (s_log s) = [Fin 2; Fin 1; NaN] /\ n_steps (s_log s) = 3%nat /\ r_loss r = NaN.
Proof. run_toy (toy true (SPair 0 10) true 3). repeat split. Qed.

(* C36. Importance sampling is as before after every successful solve ... *)
Theorem C36_success :
  forall W fwd step_with zero_grad plain_step generate guess reset cond metric_grad n_iter theta intercept lam presample has_opt rho s s' r,
    solve W fwd step_with zero_grad plain_step generate guess reset cond metric_grad n_iter theta intercept lam presample has_opt rho s = (s', Ok r) ->
    s_imp s' = s_imp s.
Proof. intros. eapply flags_after. eassumption. Qed.
Print Assumptions C36_success.

(* ... and on every path, exceptions included, unless the pre-sampled solver runs with the parameter metric, ... *)
Theorem C36_every_path :
  forall W fwd step_with zero_grad plain_step generate guess reset cond metric_grad n_iter theta intercept lam presample has_opt rho,
    presample = false \/ metric_grad = true ->
    forall s, s_imp (fst (solve W fwd step_with zero_grad plain_step generate guess reset cond metric_grad n_iter theta intercept lam presample has_opt rho s)) = s_imp s.
Proof. exact imp_survives. Qed.
Print Assumptions C36_every_path.

(* ... where a forward pass that raises leaves it off. *)
Theorem C36_parameter_metric_refuted :
  exists fwd s, s_imp s = true /\
    let out := solve unit fwd (fun _ w => (w, None)) (fun w => (w, None)) (fun w => (w, None)) (fun w => (w, None)) (fun w => (w, None))
                 (Some (fun w => (w, None))) (fun _ w => (w, Ok false)) false (SPair 0 1) (fun _ => [1%R]) (fun _ => None) (fun _ => [1%R]) true true PInf s in
    snd out = Raise RuntimeError /\ s_imp (fst out) = false.
Proof.
  exists (fun _ _ _ w => (w, Raise RuntimeError)), {| s_w := tt; s_erm := false; s_imp := true; s_log := [] |}.
  split; [reflexivity|]. split; reflexivity.
Qed.
Print Assumptions C36_parameter_metric_refuted.

Example C36_case : s_imp (fst (toy false (SPair 2 3) true 100)) = true /\ is_ok (snd (toy false (SPair 2 3) true 100)) = true.
Proof. split; reflexivity. Qed.

(* C67. With pre-sampling the reported loss is that of the returned parameters, provided that evaluating the loss and the stopping
   condition do not move the parameters; it is evaluated without importance sampling when the parameter metric is used. *)
Theorem C67_presample :
  forall W fwd step_with zero_grad plain_step generate guess reset cond metric_grad n_iter theta intercept lam rho s s' r,
    let same w w' := theta w' = theta w /\ intercept w' = intercept w /\ lam w' = lam w in
    (forall i w, same w (fst (cond i w))) -> (forall e i k w, same w (fst (fwd e i k w))) ->
    solve W fwd step_with zero_grad plain_step generate guess reset cond metric_grad n_iter theta intercept lam true true rho s = (s', Ok r) ->
    exists w, same w (s_w s') /\ snd (fwd false (metric_grad && s_imp s) metric_grad w) = Ok (r_loss r).
Proof. exact presample_value. Qed.
Print Assumptions C67_presample.

(* with post-sampling it is the loss of the parameters before the last step *)
Theorem C67_postsample_refuted :
  exists s r, toy true (SPair 0 2) false 100 = (s, Ok r) /\ r_theta r = [98%R] /\
    snd (toy_fwd false true true 98) = Ok (Fin 98) /\ r_loss r = Fin 99.
Proof. run_toy (toy true (SPair 0 2) false 100). repeat split. Qed.
Print Assumptions C67_postsample_refuted.

Example C67_case :
  exists s r, toy true (SPair 0 2) true 100 = (s, Ok r) /\ r_theta r = [98%R] /\ r_loss r = Fin 98.
Proof. run_toy (toy true (SPair 0 2) true 100). repeat split. Qed.

(* C68. ERM mode is off after every successful solve, and on every path of the post-sampled one. *)
Theorem C68_success :
  forall W fwd step_with zero_grad plain_step generate guess reset cond metric_grad n_iter theta intercept lam presample has_opt rho s s' r,
    solve W fwd step_with zero_grad plain_step generate guess reset cond metric_grad n_iter theta intercept lam presample has_opt rho s = (s', Ok r) ->
    s_erm s' = false.
Proof. intros. eapply flags_after. eassumption. Qed.
Print Assumptions C68_success.

Theorem C68_postsample :
  forall W fwd step_with zero_grad plain_step generate guess reset cond metric_grad n_iter theta intercept lam rho s,
    s_erm (fst (solve W fwd step_with zero_grad plain_step generate guess reset cond metric_grad n_iter theta intercept lam false true rho s)) = false.
Proof. exact postsample_erm_off. Qed.
Print Assumptions C68_postsample.

(* an exception during the pretraining of the pre-sampled solver leaves it on *)
Theorem C68_presample_refuted :
  exists step_with s, s_erm s = false /\
    let out := solve unit (fun _ _ _ w => (w, Ok (Fin 0))) step_with (fun w => (w, None)) (fun w => (w, None)) (fun w => (w, None)) (fun w => (w, None))
                 (Some (fun w => (w, None))) (fun _ w => (w, Ok false)) true (SPair 1 1) (fun _ => [1%R]) (fun _ => None) (fun _ => [1%R]) true true PInf s in
    snd out = Raise RuntimeError /\ s_erm (fst out) = true.
Proof.
  exists (fun _ w => (w, Some RuntimeError)), {| s_w := tt; s_erm := false; s_imp := true; s_log := [] |}.
  split; [reflexivity|]. split; reflexivity.
Qed.
Print Assumptions C68_presample_refuted.

Example C68_case : s_erm (fst (toy false (SPair 2 3) true 100)) = false /\ is_ok (snd (toy false (SPair 2 3) true 100)) = true.
Proof. split; reflexivity. Qed.

(* C69. The pretraining steps are taken in ERM mode exactly when the loss is pre-sampled; the robust phase never is. *)
Theorem C69_modes :
  forall W fwd step_with zero_grad plain_step generate guess reset cond metric_grad n_iter theta intercept lam presample rho s s' r,
    solve W fwd step_with zero_grad plain_step generate guess reset cond metric_grad n_iter theta intercept lam presample true rho s = (s', Ok r) ->
    exists before after,
      s_log s' = s_log s ++ before ++ EGuess :: after /\ n_steps before = Z.to_nat (fst (interpret_steps n_iter)) /\
      Forall (fun e => match e with EStep erm _ => erm = presample | _ => True end) before /\
      Forall (fun e => match e with EStep erm _ => erm = false | _ => True end) after.
Proof. exact pretraining_modes. Qed.
Print Assumptions C69_modes.

Theorem C69_postsample_refuted :
  exists s r, toy true (SPair 1 1) false 100 = (s, Ok r) /\
    exists after, s_log s = EFwd false true :: EStep false true :: ELoss (Fin 100) :: EGuess :: after.
Proof. run_toy (toy true (SPair 1 1) false 100). eexists. reflexivity. Qed.
Print Assumptions C69_postsample_refuted.

Example C69_case :
  exists s r, toy true (SPair 1 1) true 100 = (s, Ok r) /\ exists after, s_log s = EStep true true :: EGuess :: after.
Proof. run_toy (toy true (SPair 1 1) true 100). eexists. reflexivity. Qed.

(* C69, what is evaluated: in any world that keeps the list of the flags with which the loss is evaluated and of whether gradients are computed, and in which the other calls
   evaluate nothing, the evaluations of a solve are exactly those its log speaks of, in that order: with a pre-sampled loss one for each
   step (the closure) and one for each recorded loss, otherwise one for each step. Every step has gradients; the evaluation that is only
   recorded has them exactly when the stopping test watches gradients. *)
Theorem C69_evaluations :
  forall W fwd step_with zero_grad plain_step generate guess reset cond metric_grad n_iter theta intercept lam presample has_opt rho (s s' : st W) r
         (seen : W -> list (bool * bool * bool)),
    (forall erm imp back, one_seen seen erm imp back (fwd erm imp back)) ->
    (forall w, seen (fst (zero_grad w)) = seen w /\ snd (zero_grad w) = None) ->
    evaluates_once seen step_with ->
    nothing_seen seen plain_step -> nothing_seen seen generate -> nothing_seen seen guess ->
    (forall f, reset = Some f -> nothing_seen seen f) -> (forall it, nothing_seen seen (cond it)) ->
    solve W fwd step_with zero_grad plain_step generate guess reset cond metric_grad n_iter theta intercept lam presample has_opt rho s = (s', Ok r) ->
    exists l, s_log s' = s_log s ++ l /\ seen (s_w s') = seen (s_w s) ++ evaluations presample (if presample then metric_grad else true) l.
Proof.
  intros W fwd step_with zero_grad plain_step generate guess reset cond metric_grad n_iter theta intercept lam presample has_opt rho s s' r seen
    H1 H2 H3 H4 H5 H6 H7 H8 H.
  unfold solve in H. apply bnd_ok in H as (s1 & a1 & E1 & H). destruct has_opt; [|discriminate]. injection E1 as <- _.
  apply bnd_ok in H as (s2 & a2 & E2 & H). apply bnd_ok in H as (s3 & a3 & E3 & H). unfold read in E3. injection E3 as <- _.
  apply bnd_ok in H as (s4 & a4 & E4 & H). unfold last_item in E4. injection E4 as <- _. unfold ret in H. injection H as <- _.
  assert (Z1 : nothing_seen seen zero_grad) by (intros w; apply H2).
  destruct presample.
  - revert E2. apply told_presample; auto. intros w. apply H2.
  - revert E2. apply told_postsample; auto.
Qed.
Print Assumptions C69_evaluations.

(* such a world: the list itself *)
Example C69_evaluations_case :
  exists s r, solve (list (bool * bool * bool)) (fun a b g w => (w ++ [(a, b, g)], Ok (Fin 1))) (fun c w => (fst (c w), None)) (fun w => (w, None)) (fun w => (w, None))
                (fun w => (w, None)) (fun w => (w, None)) None (fun _ w => (w, Ok false)) false (SPair 1 2) (fun _ => []) (fun _ => None) (fun _ => []) true true PInf
                {| s_w := []; s_erm := false; s_imp := true; s_log := [] |} = (s, Ok r) /\
    s_w s = [(true, true, true); (false, true, true); (false, false, false); (false, true, true); (false, false, false)].
Proof. eexists. eexists. split; [vm_compute; reflexivity|reflexivity]. Qed.

(* C100. After the pretraining and the initial multiplier, the pre-sampled solver resets the multiplier's optimiser, once, before
   the first robust step, ... *)
Theorem C100_presample :
  forall W fwd step_with zero_grad plain_step generate guess reset cond metric_grad n_iter theta intercept lam rho s s' r,
    solve W fwd step_with zero_grad plain_step generate guess (Some reset) cond metric_grad n_iter theta intercept lam true true rho s = (s', Ok r) ->
    exists pretraining robust,
      s_log s' = s_log s ++ pretraining ++ EGuess :: EReset :: robust /\
      ~ In EReset pretraining /\ ~ In EGuess pretraining /\ ~ In EReset robust /\
      n_steps pretraining = Z.to_nat (fst (interpret_steps n_iter)) /\ (0 < n_steps robust)%nat.
Proof. intros. apply presample_resets with (reset := Some reset) in H. exact H. Qed.
Print Assumptions C100_presample.

(* ... and leaves an optimiser that cannot be reset alone. *)
Theorem C100_presample_other :
  forall W fwd step_with zero_grad plain_step generate guess cond metric_grad n_iter theta intercept lam rho s s' r,
    solve W fwd step_with zero_grad plain_step generate guess None cond metric_grad n_iter theta intercept lam true true rho s = (s', Ok r) ->
    exists tr, s_log s' = s_log s ++ tr /\ ~ In EReset tr.
Proof.
  intros. apply presample_resets with (reset := None) in H as (a & b & H & H1 & _ & H2 & _). eexists. split; [exact H|].
  rewrite in_app_iff. intros [K|[K|K]]; [exact (H1 K)|discriminate|exact (H2 K)].
Qed.
Print Assumptions C100_presample_other.

(* the post-sampled solver never does, whatever happens: its result is the same with any other reset method, or with none *)
Theorem C100_postsample_never :
  forall W fwd step_with zero_grad plain_step generate guess reset cond metric_grad n_iter theta intercept lam has_opt rho s,
    exists tr,
      s_log (fst (solve W fwd step_with zero_grad plain_step generate guess reset cond metric_grad n_iter theta intercept lam false has_opt rho s)) = s_log s ++ tr /\
      ~ In EReset tr.
Proof. exact postsample_never_resets. Qed.
Print Assumptions C100_postsample_never.

Theorem C100_postsample_ignores :
  forall W fwd step_with zero_grad plain_step generate guess reset reset' cond metric_grad n_iter theta intercept lam has_opt rho s,
    solve W fwd step_with zero_grad plain_step generate guess reset cond metric_grad n_iter theta intercept lam false has_opt rho s =
    solve W fwd step_with zero_grad plain_step generate guess reset' cond metric_grad n_iter theta intercept lam false has_opt rho s.
Proof. exact postsample_ignores_reset. Qed.
Print Assumptions C100_postsample_ignores.

(* so with a resettable optimiser, after a step of pretraining and the initial multiplier, the robust steps go on from the old state *)
Theorem C100_postsample_refuted :
  exists s r, toy true (SPair 1 1) false 100 = (s, Ok r) /\ In EGuess (s_log s) /\ n_steps (s_log s) = 2%nat /\ ~ In EReset (s_log s).
Proof.
  run_toy (toy true (SPair 1 1) false 100). split; [tauto|]. split; [reflexivity|].
  intros K. repeat (destruct K as [K|K]; [discriminate|]). exact K.
Qed.
Print Assumptions C100_postsample_refuted.

Example C100_case :
  exists s r, toy true (SPair 1 1) true 100 = (s, Ok r) /\ exists after, s_log s = EStep true true :: EGuess :: EReset :: after.
Proof. run_toy (toy true (SPair 1 1) true 100). eexists. reflexivity. Qed.

(* ---------- concrete cases of the theorems above that the runs so far leave out ---------- *)
Example C33_integer_case : interpret_steps (SInt 7) = (2, 7)%Z /\ (0 <= 2 <= 7)%Z /\ (10 * 2 <= 3 * 7 < 10 * 2 + 10)%Z.
Proof. split; [reflexivity|]. destruct (C33_integer 7 ltac:(lia)) as (A & _ & B). split; [exact A|exact B]. Qed.
(* a forward pass that fails at the second evaluation of the robust phase, with the gradient metric: importance sampling is on again *)
Definition failing_fwd (e i k : bool) (w : Z) : Z * Result xr := (w, if (w <=? 98)%Z then Raise RuntimeError else Ok (Fin (IZR w))).
Definition failing (metric_grad pres : bool) :=
  solve Z failing_fwd toy_step toy_nop toy_plain toy_nop toy_nop (Some toy_nop) toy_cond metric_grad (SPair 0 5) (fun w => [IZR w]) (fun _ => None) (fun w => [IZR w]) pres true PInf
    {| s_w := 100%Z; s_erm := false; s_imp := true; s_log := [] |}.
Example C36_every_path_case : snd (failing true true) = Raise RuntimeError /\ s_imp (fst (failing true true)) = true /\ snd (failing false false) = Raise RuntimeError /\ s_imp (fst (failing false false)) = true.
Proof.
  split; [reflexivity|]. split; [unfold failing; rewrite C36_every_path by auto; reflexivity|]. split; [reflexivity|]. unfold failing. rewrite C36_every_path by auto. reflexivity.
Qed.
(* the same failure leaves ERM mode off in the post-sampled solver *)
Example C68_postsample_case : snd (failing false false) = Raise RuntimeError /\ s_erm (fst (failing false false)) = false.
Proof. split; [reflexivity|]. apply C68_postsample. Qed.
Local Notation run_of reset n := (solve Z toy_fwd toy_step toy_nop toy_plain toy_nop toy_nop reset toy_cond true n (fun w => [IZR w]) (fun _ => None) (fun w => [IZR (2 * w)]) true true PInf
    {| s_w := 100%Z; s_erm := false; s_imp := true; s_log := [] |}).
Example C67_presample_case : exists s r w, run_of (Some toy_nop) (SPair 0 2) = (s, Ok r) /\ s_w s = 98%Z /\ IZR w = 98%R /\ snd (toy_fwd false true true w) = Ok (r_loss r).
Proof.
  assert (W : s_w (fst (run_of (Some toy_nop) (SPair 0 2))) = 98%Z) by (vm_compute; reflexivity).
  assert (K : is_ok (snd (run_of (Some toy_nop) (SPair 0 2))) = true) by (vm_compute; reflexivity).
  pose proof (C67_presample Z toy_fwd toy_step toy_nop toy_plain toy_nop toy_nop (Some toy_nop) toy_cond true (SPair 0 2) (fun w => [IZR w]) (fun _ => None) (fun w => [IZR (2 * w)]) PInf
    {| s_w := 100%Z; s_erm := false; s_imp := true; s_log := [] |}) as P.
  destruct (run_of (Some toy_nop) (SPair 0 2)) as [s [r|e]]; [|discriminate K]. exists s, r. cbn [fst] in W. clear K.
  destruct (P s r ltac:(intros; repeat split) ltac:(intros; repeat split) eq_refl) as (w & (A & _ & _) & B). exists w. split; [reflexivity|]. split; [exact W|]. rewrite W in A. injection A as A. split; [symmetry; exact A|exact B].
Qed.
(* an optimiser without a reset method *)
Example C100_presample_other_case : exists s r, run_of None (SPair 1 2) = (s, Ok r) /\ n_steps (s_log s) = 3%nat /\ ~ In EReset (s_log s).
Proof.
  assert (N : n_steps (s_log (fst (run_of None (SPair 1 2)))) = 3%nat) by (vm_compute; reflexivity).
  assert (K : is_ok (snd (run_of None (SPair 1 2))) = true) by (vm_compute; reflexivity).
  pose proof (C100_presample_other Z toy_fwd toy_step toy_nop toy_plain toy_nop toy_nop toy_cond true (SPair 1 2) (fun w => [IZR w]) (fun _ => None) (fun w => [IZR (2 * w)]) PInf
    {| s_w := 100%Z; s_erm := false; s_imp := true; s_log := [] |}) as P.
  destruct (run_of None (SPair 1 2)) as [s [r|e]]; [|discriminate K]. exists s, r. cbn [fst] in N. clear K. split; [reflexivity|]. split; [exact N|].
  destruct (P s r eq_refl) as (tr & L & Q). rewrite L. exact Q.
Qed.
Example C100_postsample_never_case : exists tr, s_log (fst (failing false false)) = tr /\ ~ In EReset tr.
Proof.
  destruct (C100_postsample_never Z failing_fwd toy_step toy_nop toy_plain toy_nop toy_nop (Some toy_nop) toy_cond false (SPair 0 5) (fun w => [IZR w]) (fun _ => None) (fun w => [IZR w]) true PInf
    {| s_w := 100%Z; s_erm := false; s_imp := true; s_log := [] |}) as (tr & L & K). exists tr. split; [rewrite <- (app_nil_l tr); exact L|exact K].
Qed.
