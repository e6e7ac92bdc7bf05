From Coq Require Import Reals List Bool ZArith String.
From Verif Require Import PyBase XReal OptCond_Model Solver_Model Solver_Proofs SolverTrace_Spec Study_Model.
Import ListNotations.

Section T.
Variable W : Type.
Variable fwd : bool -> bool -> bool -> W -> W * Result xr.
Variable step_with : (W -> W * Result xr) -> W -> W * option exn.
Variables zero_grad plain_step generate guess : W -> W * option exn.
Variable reset : option (W -> W * option exn).
Variable cond : Z -> W -> W * Result bool.
Variable metric_grad : bool.
Variable n_iter : steps.
Variable seen : W -> list (bool * bool * bool).
Variables wc fb : bool.
Hypothesis Hfwd : forall erm imp back, one_seen seen erm imp back (fwd erm imp back).
Hypothesis Hzero : nothing_seen seen zero_grad.
Hypothesis Hguess : nothing_seen seen guess.
Hypothesis Hreset : forall f, reset = Some f -> nothing_seen seen f.
Hypothesis Hcond : forall it, nothing_seen seen (cond it).

Notation st := (st W).
Definition told {A} (m : M W A) : Prop :=
  forall s s' a, m s = (s', Ok a) -> exists l, s_log s' = s_log s ++ l /\ seen (s_w s') = seen (s_w s) ++ evaluations wc fb l.

Lemma told_bnd {A B} (m : M W A) (k : A -> M W B) : told m -> (forall a, told (k a)) -> told (bnd W m k).
Proof.
  intros Hm Hk s s' b H. apply bnd_ok in H as (s1 & a & E & H). apply Hm in E as (l1 & E1 & E2). apply Hk in H as (l2 & F1 & F2).
  exists (l1 ++ l2). unfold evaluations in *. rewrite flat_map_app, F1, F2, E1, E2, !app_assoc. split; reflexivity.
Qed.
Lemma told_quiet {A} (m : M W A) : (forall s s' a, m s = (s', Ok a) -> s_log s' = s_log s /\ seen (s_w s') = seen (s_w s)) -> told m.
Proof. intros H s s' a E. apply H in E as (A1 & A2). exists []. rewrite A1, A2. cbn. rewrite !app_nil_r. auto. Qed.
Lemma told_ret {A} (a : A) : told (ret W a).
Proof. apply told_quiet. unfold ret. intros s s' b H. injection H as <- _. auto. Qed.
Lemma told_set_erm b : told (set_erm W b).
Proof. apply told_quiet. unfold set_erm. intros s s' u H. injection H as <- _. auto. Qed.
Lemma told_set_imp b : told (set_imp W b).
Proof. apply told_quiet. unfold set_imp. intros s s' u H. injection H as <- _. auto. Qed.
Lemma told_get_imp : told (get_imp W).
Proof. apply told_quiet. unfold get_imp. intros s s' u H. injection H as <- _. auto. Qed.
Lemma told_run f : nothing_seen seen f -> told (run W f).
Proof.
  intros Hf. apply told_quiet. unfold run. intros s s' u H. pose proof (Hf (s_w s)) as Q. destruct (f (s_w s)) as [w [e|]]; [discriminate|].
  injection H as <- _. auto.
Qed.
Lemma told_ask {A} (f : W -> W * Result A) : nothing_seen seen f -> told (ask W f).
Proof.
  intros Hf. apply told_quiet. unfold ask. intros s s' u H. pose proof (Hf (s_w s)) as Q. destruct (f (s_w s)) as [w r].
  injection H as <- _. auto.
Qed.
Lemma told_log e : evaluations wc fb [e] = [] -> told (log W e).
Proof. intros He s s' u H. unfold log in H. injection H as <- _. exists [e]. rewrite He. cbn. rewrite app_nil_r. auto. Qed.

Lemma closure_seen erm imp back w w' x : closure_w W fwd zero_grad erm imp back w = (w', Ok x) -> seen w' = seen w ++ [(erm, imp, back)].
Proof.
  unfold closure_w. pose proof (Hzero w) as Hz. destruct (zero_grad w) as [w1 [e|]]; [discriminate|]. intros H.
  pose proof (Hfwd erm imp back w1) as Hf. rewrite H in Hf. cbn in *. rewrite Hf, Hz. reflexivity.
Qed.
Lemma told_fwd_log back : back = fb -> told (fun s => bnd W (log W (EFwd (s_erm s) (s_imp s))) (fun _ => ask W (closure_w W fwd zero_grad (s_erm s) (s_imp s) back)) s).
Proof.
  intros Hb s s' x H. apply bnd_ok in H as (s1 & a & E & H). unfold log in E. injection E as <- _. unfold ask in H. cbn in H.
  destruct (closure_w W fwd zero_grad (s_erm s) (s_imp s) back (s_w s)) as [w r] eqn:C. injection H as <- ->. cbn.
  apply closure_seen in C. exists [EFwd (s_erm s) (s_imp s)]. rewrite C, Hb. auto.
Qed.
Lemma told_closure back : back = fb -> told (closure W fwd zero_grad back).
Proof. intros Hb. unfold closure. apply told_bnd; [destruct back; [apply told_ret|apply told_set_erm]|]. intros _. apply told_fwd_log, Hb. Qed.
Lemma told_study_closure back : back = fb -> told (study_closure W fwd zero_grad back).
Proof. apply told_fwd_log. Qed.
Lemma told_reset : told (reset_lbd W reset).
Proof.
  unfold reset_lbd. destruct reset as [f|] eqn:R; [|apply told_ret]. apply told_bnd; [apply told_run, Hreset; reflexivity|].
  intros _. apply told_log. reflexivity.
Qed.
Lemma told_stop it x : told (stop_test W cond it x).
Proof.
  unfold stop_test. destruct (isnan x); [apply told_ret|]. apply told_bnd; [apply told_ask, Hcond|]. intros b.
  apply told_bnd; [apply told_log; reflexivity|]. intros _. apply told_ret.
Qed.
Lemma told_loop body : (forall it, told (body it)) -> forall n it ls, told (loop W body it n ls).
Proof.
  intros Hb n. induction n as [|n IH]; intros it ls; cbn; [apply told_ret|]. apply told_bnd; [apply Hb|]. intros [x b].
  destruct b; [apply told_ret|apply IH].
Qed.

Section Closure.
Hypothesis Hwc : wc = true.
Hypothesis Hgen : nothing_seen seen generate.
Hypothesis Hstep : evaluates_once seen step_with.
(* zero_grad may fail, in which case the closure evaluates nothing and raises: it is assumed not to *)
Hypothesis Hz : forall w, snd (zero_grad w) = None.

Lemma closure_one erm imp back : one_seen seen erm imp back (closure_w W fwd zero_grad erm imp back).
Proof.
  intros w. unfold closure_w. pose proof (Hz w) as E. pose proof (Hzero w) as Q. destruct (zero_grad w) as [w1 o]. cbn in *. subst o.
  rewrite Hfwd, Q. reflexivity.
Qed.
Lemma told_step_closure : told (step_closure W fwd step_with zero_grad).
Proof.
  intros s s' u H. unfold step_closure in H. apply bnd_ok in H as (s1 & a & E & H). unfold log in H. injection H as <- _.
  unfold run in E. pose proof (Hstep (s_erm s) (s_imp s) true _ (closure_one (s_erm s) (s_imp s) true) (s_w s)) as Q.
  destruct (step_with (closure_w W fwd zero_grad (s_erm s) (s_imp s) true) (s_w s)) as [w [e|]]; [discriminate|]. injection E as <- _. cbn in *.
  exists [EStep (s_erm s) (s_imp s)]. split; [reflexivity|]. rewrite Q, Hwc. reflexivity.
Qed.
Lemma told_repeat n m : told m -> told (repeat_m W n m).
Proof. intros Hm. induction n as [|n IH]; cbn; [apply told_ret|]. apply told_bnd; [exact Hm|]. intros _. exact IH. Qed.
Lemma told_pre_body it : metric_grad = fb -> told (pre_body W fwd step_with zero_grad cond metric_grad it).
Proof.
  intros Hm. unfold pre_body. apply told_bnd; [apply told_step_closure|]. intros _. apply told_bnd.
  - destruct metric_grad; (apply told_bnd; [apply told_get_imp|]; intros i).
    + apply told_bnd; [apply told_closure, Hm|]. intros x. apply told_bnd; [apply told_set_imp|]. intros _. apply told_ret.
    + apply told_bnd; [apply told_set_imp|]. intros _. apply told_bnd; [apply told_closure, Hm|]. intros x.
      apply told_bnd; [apply told_set_imp|]. intros _. apply told_ret.
  - intros x. apply told_bnd; [apply told_log; reflexivity|]. intros _. apply told_bnd; [apply told_stop|]. intros b. apply told_ret.
Qed.
Lemma told_presample : metric_grad = fb -> told (optim_presample W fwd step_with zero_grad generate guess reset cond metric_grad n_iter).
Proof.
  intros Hm. unfold optim_presample. apply told_bnd; [apply told_run, Hgen|]. intros _. destruct (interpret_steps n_iter) as [pre tr].
  apply told_bnd; [apply told_set_erm|]. intros _. apply told_bnd; [apply told_repeat, told_step_closure|]. intros _.
  apply told_bnd; [apply told_run, Hguess|]. intros _. apply told_bnd; [apply told_log; reflexivity|]. intros _.
  apply told_bnd; [apply told_set_erm|]. intros _. apply told_bnd; [apply told_reset|]. intros _. apply told_loop. intros it. apply told_pre_body, Hm.
Qed.
Lemma told_study_pre : fb = false -> told (study_presample W fwd step_with zero_grad generate guess reset cond n_iter).
Proof.
  intros Hm. unfold study_presample. apply told_bnd; [apply told_run, Hgen|]. intros _. destruct (interpret_steps n_iter) as [pre tr].
  apply told_bnd; [apply told_set_erm|]. intros _. apply told_bnd; [apply told_repeat, told_step_closure|]. intros _.
  apply told_bnd; [apply told_run, Hguess|]. intros _. apply told_bnd; [apply told_log; reflexivity|]. intros _.
  apply told_bnd; [apply told_set_erm|]. intros _. apply told_bnd; [apply told_reset|]. intros _.
  assert (G : forall n it ls, told (study_pre_loop W fwd step_with zero_grad cond it n ls)); [|apply G].
  induction n as [|n IH]; intros it ls; cbn; [apply told_ret|]. apply told_bnd; [|intros [x|]; [apply IH|apply told_ret]].
  unfold study_pre_body. apply told_bnd; [apply told_step_closure|]. intros _. apply told_bnd; [apply told_ask, Hcond|]. intros b.
  apply told_bnd; [apply told_log; reflexivity|]. intros _. destruct b; [apply told_ret|]. apply told_bnd; [apply told_get_imp|]. intros i.
  apply told_bnd; [apply told_set_imp|]. intros _. apply told_bnd; [apply told_study_closure; symmetry; exact Hm|]. intros x.
  apply told_bnd; [apply told_set_imp|]. intros _. apply told_bnd; [apply told_log; reflexivity|]. intros _. apply told_ret.
Qed.
End Closure.

Section Plain.
Hypothesis Hwc : wc = false.
Hypothesis Hfb : fb = true.
Hypothesis Hplain : nothing_seen seen plain_step.
Lemma told_post_fwd : told (fun s => bnd W (log W (EFwd (s_erm s) (s_imp s))) (fun _ => ask W (fwd (s_erm s) (s_imp s) true)) s).
Proof.
  intros s s' x H. apply bnd_ok in H as (s1 & a & E & H). unfold log in E. injection E as <- _. unfold ask in H. cbn in H.
  pose proof (Hfwd (s_erm s) (s_imp s) true (s_w s)) as Q. destruct (fwd (s_erm s) (s_imp s) true (s_w s)) as [w r]. injection H as <- ->. cbn in *.
  exists [EFwd (s_erm s) (s_imp s)]. rewrite Q, Hfb. auto.
Qed.
Lemma told_step_log : told (fun s => log W (EStep (s_erm s) (s_imp s)) s).
Proof.
  intros s s' u H. unfold log in H. injection H as <- _. exists [EStep (s_erm s) (s_imp s)]. rewrite Hwc. cbn. rewrite app_nil_r. auto.
Qed.
Lemma told_post_step : told (post_step W fwd zero_grad plain_step).
Proof.
  unfold post_step. apply told_bnd; [apply told_run, Hzero|]. intros _. apply told_bnd; [apply told_post_fwd|]. intros x.
  apply told_bnd; [apply told_run, Hplain|]. intros _. apply told_bnd; [apply told_step_log|]. intros _.
  apply told_bnd; [apply told_log; reflexivity|]. intros _. apply told_ret.
Qed.
Lemma told_reset_if : told (fun s => (if s_erm s then reset_lbd W reset else ret W tt) s).
Proof. intros s s' u H. destruct (s_erm s); [eapply told_reset; exact H|eapply told_ret; exact H]. Qed.
Lemma told_postsample : told (optim_postsample W fwd zero_grad plain_step guess reset cond n_iter).
Proof.
  unfold optim_postsample. destruct (interpret_steps n_iter) as [pre tr]. apply told_bnd; [apply told_set_erm|]. intros _. apply told_bnd.
  { generalize (@nil xr). induction (Z.to_nat pre) as [|n IH]; intros ls; cbn; [apply told_ret|]. apply told_bnd; [apply told_post_step|]. intros x. apply IH. }
  intros ls. apply told_bnd; [apply told_run, Hguess|]. intros _. apply told_bnd; [apply told_log; reflexivity|]. intros _.
  apply told_bnd; [apply told_reset_if|]. intros _. apply told_bnd; [apply told_set_erm|]. intros _. apply told_loop. intros it.
  unfold post_body. apply told_bnd; [apply told_post_step|]. intros x. apply told_bnd; [apply told_stop|]. intros b. apply told_ret.
Qed.
Variables pos_grad lam_grad lam_item : W -> Result xr.
Lemma told_look f : told (look W f).
Proof. apply told_quiet. unfold look. intros s s' a H. injection H as <- _. auto. Qed.
Lemma told_study_step : told (study_step W fwd zero_grad plain_step).
Proof.
  unfold study_step. apply told_bnd; [apply told_run, Hzero|]. intros _. apply told_bnd; [apply told_post_fwd|]. intros x.
  apply told_bnd; [apply told_run, Hplain|]. intros _. apply told_bnd; [apply told_step_log|]. intros _. apply told_ret.
Qed.
Lemma told_study_post : told (study_postsample W fwd zero_grad plain_step guess reset cond n_iter pos_grad lam_grad lam_item).
Proof.
  unfold study_postsample. destruct (interpret_steps n_iter) as [pre tr]. apply told_bnd; [apply told_set_erm|]. intros _. apply told_bnd.
  { generalize {| c_loss := []; c_lgrad := []; c_tgrad := []; c_lam := [] |}. induction (Z.to_nat pre) as [|n IH]; intros c; cbn; [apply told_ret|].
    apply told_bnd; [apply told_study_step|]. intros x. apply told_bnd; [apply told_log; reflexivity|]. intros _.
    apply told_bnd; [apply told_look|]. intros t. apply IH. }
  intros c. apply told_bnd; [apply told_run, Hguess|]. intros _. apply told_bnd; [apply told_log; reflexivity|]. intros _.
  apply told_bnd; [apply told_reset_if|]. intros _. apply told_bnd; [apply told_set_erm|]. intros _. clear -Hfwd Hzero Hcond Hwc Hfb Hplain.
  generalize 0%Z c. induction (Z.to_nat tr) as [|n IH]; intros it c0; cbn; [apply told_ret|].
  apply told_bnd; [apply told_study_step|]. intros x. apply told_bnd; [apply told_ask, Hcond|]. intros b.
  apply told_bnd; [apply told_log; reflexivity|]. intros _. destruct b; [apply told_ret|].
  apply told_bnd; [apply told_log; reflexivity|]. intros _. apply told_bnd; [apply told_look|]. intros lg.
  apply told_bnd; [apply told_look|]. intros l. apply told_bnd; [apply told_look|]. intros t. apply IH.
Qed.
End Plain.
End T.
