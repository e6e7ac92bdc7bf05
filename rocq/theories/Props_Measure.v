(* C95: the stopping condition fails loudly exactly when it cannot measure what it watches. *)
From Coq Require Import Reals List Bool String ZArith Lra Lia.
From Verif Require Import PyBase XReal OptCond_Model OptCond_Spec Measure_Proofs.
Import ListNotations.
Local Open Scope string_scope.

(* C95 (no multiplier gradient): NoneGradError, in any state of the condition and at any iteration *)
Theorem C95_no_multiplier_gradient : forall vnorm c o it,
  metric c = "grad" -> xle (tol_lambda c) (Fin 0) = false ->
  watches_both (monitoring c) \/ watches_lambda (monitoring c) ->
  o_lgrad o = None -> snd (oc_call vnorm c o it) = Raise NoneGradError.
Proof. intros vnorm c o it M T W N. apply call_lambda_raises; [exact W|]. intros n. apply lam_missing; assumption. Qed.

(* C95 (a parameter without gradient): ValueError; no parameter at all: RuntimeError *)
Theorem C95_no_parameter_gradient : forall vnorm c o it,
  xle (tol_theta c) (Fin 0) = false -> watches_theta (monitoring c) ->
  (metric c = "grad" -> In None (o_tgrad o) -> snd (oc_call vnorm c o it) = Raise ValueError) /\
  (metric c = "grad" -> o_tgrad o = [] -> snd (oc_call vnorm c o it) = Raise RuntimeError) /\
  (metric c = "param" -> o_theta o = [] -> snd (oc_call vnorm c o it) = Raise RuntimeError).
Proof.
  intros vnorm c o it T W. repeat split; intros M N; apply call_theta_raises; try exact W; intros n;
    [apply theta_missing|apply theta_empty_grad|apply theta_empty_param]; assumption.
Qed.

(* C95 (otherwise it answers): documented settings, a loss with its gradients and of constant size: no evaluation of a
   new condition ever raises, however many there are *)
Theorem C95_answers : forall vnorm c n l, fresh c -> documented c -> Forall (measurable n) l ->
  Forall (fun r => exists b, r = Ok b) (evals vnorm c l).
Proof. intros vnorm c n l F D M. eapply evals_ok; [exact M|apply fresh_sane; exact F|exact D]. Qed.

(* concrete cases *)
Definition cond_of (mon me : string) : oc :=
  {| tol_theta := Fin 1; tol_lambda := Fin 1; monitoring := mon; mode := "rel"; metric := me; max_iter := 0%Z;
     l_mem := None; t_mem := None; l_0 := None; t_0 := None; l_grad_0 := None; t_grad_0 := None; delta_l_1 := None; delta_t_1 := None |}.
Definition loss_of (lg : option xr) (tg : list (option (list xr))) (v : R) : obs :=
  {| o_mem := fun _ => Fin v; o_lam := 0; o_lgrad := lg; o_theta := [[Fin v; Fin 2]; [Fin v]]; o_tgrad := tg; o_niter := SInt 10 |}.
Lemma one_positive : xle (Fin 1) (Fin 0) = false.
Proof. cbn. apply orb_false_intro; [apply Rltb_false; lra|apply Reqb_false; lra]. Qed.
Example C95_ex_multiplier : snd (oc_call (fun _ => Fin 0) (cond_of "both" "grad") (loss_of None [Some [Fin 1]] 0) 3) = Raise NoneGradError.
Proof. apply C95_no_multiplier_gradient; try reflexivity; [apply one_positive|left; left; reflexivity]. Qed.
Example C95_ex_parameter : snd (oc_call (fun _ => Fin 0) (cond_of "t" "grad") (loss_of None [Some [Fin 1]; None] 0) 3) = Raise ValueError.
Proof. apply C95_no_parameter_gradient; [apply one_positive|right; left; reflexivity|reflexivity|right; left; reflexivity]. Qed.
Example C95_ex_answers : forall v w u, Forall (fun r => exists b, r = Ok b)
  (evals (fun _ => Fin 0) (cond_of "l&t" "param")
     [(loss_of (Some (Fin 1)) [Some [Fin 1]] v, 0%Z); (loss_of (Some (Fin 1)) [Some [Fin 1]] w, 1%Z); (loss_of (Some (Fin 1)) [Some [Fin 1]] u, 2%Z)]).
Proof.
  intros. apply C95_answers with (n := 3%nat).
  - repeat split.
  - unfold documented; cbn. repeat split; auto; try discriminate. left. unfold watches_both. cbn. tauto.
  - assert (M : forall x it, measurable 3 (loss_of (Some (Fin 1)) [Some [Fin 1]] x, it)).
    { intros x it. unfold measurable; cbn. repeat split; try discriminate. constructor; [discriminate|constructor]. }
    constructor; [apply M|]. constructor; [apply M|]. constructor; [apply M|constructor].
Qed.

Print Assumptions C95_no_multiplier_gradient.
Print Assumptions C95_no_parameter_gradient.
Print Assumptions C95_answers.
