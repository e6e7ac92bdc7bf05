(* C69, C102: the number handed to the stopping test is the number of robust steps taken so far, minus one. *)
From Coq Require Import Reals List Bool String ZArith Lia.
From Verif Require Import PyBase XReal OptCond_Model Solver_Model Solver_Spec Study_Model.
Import ListNotations.

(* reading a log: None before the initial guess, then the number of steps since *)
Fixpoint scan (a : option nat) (l : list ev) : option (option nat) :=
  match l with
  | [] => Some a
  | EGuess :: r => scan (Some 0) r
  | EStep _ _ :: r => scan (option_map S a) r
  | ECond it _ :: r => match a with Some n => if Z.eqb (Z.of_nat n) (it + 1) then scan a r else None | None => None end
  | _ :: r => scan a r
  end.
Lemma scan_app l1 : forall a b l2, scan a l1 = Some b -> scan a (l1 ++ l2) = scan b l2.
Proof.
  induction l1 as [|e l1 IH]; intros a b l2 H; cbn in *; [injection H as <-; reflexivity|].
  destruct e; try (apply IH; exact H). destruct a; [|discriminate]. destruct (Z.eqb _ _); [apply IH; exact H|discriminate].
Qed.
Lemma scan_split p : forall a b q, scan a (p ++ q) = Some b -> exists c, scan a p = Some c /\ scan c q = Some b.
Proof.
  induction p as [|e p IH]; intros a b q H; [exists a; split; [reflexivity|exact H]|]. cbn in *.
  destruct e; try (apply IH; exact H). destruct a; [|discriminate]. destruct (Z.eqb _ _); [apply IH; exact H|discriminate].
Qed.
Lemma scan_since p : forall n, scan None p = Some (Some n) -> exists p1 p2, p = p1 ++ EGuess :: p2 /\ ~ In EGuess p2 /\ n = n_steps p2.
Proof.
  induction p as [|e p IH] using rev_ind; intros n H; [discriminate|]. apply scan_split in H as (c & H1 & H2).
  destruct e; cbn in H2; try (injection H2 as ->; destruct (IH _ H1) as (p1 & p2 & -> & N & ->); eexists p1, (p2 ++ [_]); split; [rewrite <- app_assoc; reflexivity|]; split; [intros Q; apply in_app_iff in Q; destruct Q as [Q|[Q|[]]]; [exact (N Q)|discriminate]|]; unfold n_steps; rewrite filter_app; cbn; rewrite app_nil_r; reflexivity).
  - destruct c as [k|]; [|discriminate]. injection H2 as <-. destruct (IH _ H1) as (p1 & p2 & -> & N & ->). eexists p1, (p2 ++ [_]). split; [rewrite <- app_assoc; reflexivity|]. split; [intros Q; apply in_app_iff in Q; destruct Q as [Q|[Q|[]]]; [exact (N Q)|discriminate]|].
    unfold n_steps. rewrite filter_app, app_length. cbn. lia.
  - injection H2 as <-. exists p, []. split; [reflexivity|]. split; [intros []|reflexivity].
  - destruct c as [k|]; [|discriminate]. destruct (Z.eqb _ _); [|discriminate]. injection H2 as ->. destruct (IH _ H1) as (p1 & p2 & -> & N & ->). eexists p1, (p2 ++ [_]). split; [rewrite <- app_assoc; reflexivity|]. split; [intros Q; apply in_app_iff in Q; destruct Q as [Q|[Q|[]]]; [exact (N Q)|discriminate]|].
    unfold n_steps. rewrite filter_app. cbn. rewrite app_nil_r. reflexivity.
Qed.
Lemma scan_cond tr b p it c q : scan None tr = Some b -> tr = p ++ ECond it c :: q -> exists p1 p2, p = p1 ++ EGuess :: p2 /\ ~ In EGuess p2 /\ Z.of_nat (n_steps p2) = (it + 1)%Z.
Proof.
  intros H ->. apply scan_split in H as (x & H1 & H2). cbn in H2. destruct x as [n|]; [|discriminate]. destruct (Z.eqb_spec (Z.of_nat n) (it + 1)) as [E|]; [|discriminate].
  destruct (scan_since _ _ H1) as (p1 & p2 & -> & N & ->). exists p1, p2. repeat split; assumption.
Qed.

Section T.
Variable W : Type.
Variable fwd : bool -> bool -> bool -> W -> W * Result xr.
Variable step_with : (W -> W * Result xr) -> W -> W * option exn.
Variables zero_grad plain_step generate guess : W -> W * option exn.
Variable reset : option (W -> W * option exn).
Variable cond : Z -> W -> W * Result bool.
Variable metric_grad : bool.
Variable n_iter : steps.
Variables (theta : W -> list R) (intercept : W -> option (list R)) (lam : W -> list R).
Variables pos_grad lam_grad lam_item : W -> Result xr.
Variables open_figure draw_curves : W -> W * option exn.

Definition safe {A} (a : option nat) (m : M W A) (B : option nat -> Prop) : Prop :=
  forall s s' r, m s = (s', r) -> exists tr b, s_log s' = s_log s ++ tr /\ scan a tr = Some b /\ (forall x, r = Ok x -> B b).

Lemma safe_bnd {A C} a (m : M W A) (k : A -> M W C) B B' : safe a m B -> (forall x b, B b -> safe b (k x) B') -> safe a (bnd W m k) B'.
Proof.
  intros H K s s' r E. unfold bnd in E. destruct (m s) as [s1 [x|e]] eqn:Em; destruct (H _ _ _ Em) as (tr & b & E1 & E2 & E3).
  - destruct (K x b (E3 x eq_refl) _ _ _ E) as (tr' & b' & F1 & F2 & F3). exists (tr ++ tr'), b'. split; [rewrite F1, E1, app_assoc; reflexivity|]. split; [rewrite (scan_app _ _ _ _ E2); exact F2|exact F3].
  - injection E as <- <-. exists tr, b. split; [exact E1|]. split; [exact E2|]. intros x Q. discriminate.
Qed.
Lemma safe_quiet {A} a (m : M W A) (B : option nat -> Prop) : (forall s, s_log (fst (m s)) = s_log s) -> B a -> safe a m B.
Proof. intros H Ha s s' r E. exists [], a. specialize (H s). rewrite E in H. cbn in H. rewrite H, app_nil_r. repeat split; auto. Qed.
Lemma safe_log a e b (B : option nat -> Prop) : scan a [e] = Some b -> B b -> safe a (log W e) B.
Proof. intros H Hb s s' r E. injection E as <- <-. exists [e], b. repeat split; auto. Qed.
Lemma safe_here {A} a (m : st W -> M W A) B : (forall s0, safe a (m s0) B) -> safe a (fun s => m s s) B.
Proof. intros H s s' r E. exact (H s s s' r E). Qed.
Lemma safe_weaken {A} a (m : M W A) (B B' : option nat -> Prop) : (forall b, B b -> B' b) -> safe a m B -> safe a m B'.
Proof. intros H K s s' r E. destruct (K _ _ _ E) as (tr & b & E1 & E2 & E3). exists tr, b. repeat split; auto. intros. apply H. eapply E3; eassumption. Qed.

Ltac quiet := apply safe_quiet; [intros ?; cbv beta delta [ret run ask get_imp set_imp set_erm read look lift last_item]; cbv beta iota zeta; repeat (match goal with |- context [match ?x with _ => _ end] => destruct x end); reflexivity|try reflexivity; auto].
Ltac logs := eapply safe_log; [reflexivity|try reflexivity; auto].
Ltac here := match goal with
  | |- safe ?a (fun s => bnd W (@?x s) (@?k s) s) ?B => apply (safe_here a (fun s0 => bnd W (x s0) (k s0)) B)
  | |- safe ?a (fun s => log W (@?x s) s) ?B => apply (safe_here a (fun s0 => log W (x s0)) B)
  | |- safe ?a (fun s => (if s_erm s then ?x else ?y) s) ?B => apply (safe_here a (fun s0 => if s_erm s0 then x else y) B)
  end.
Ltac next := eapply (safe_bnd _ _ _ (eq _)).

Lemma safe_step a : safe a (step_closure W fwd step_with zero_grad) (eq (option_map S a)).
Proof. unfold step_closure. here. intros s0. next; [quiet|intros ? ? <-]. logs. Qed.
Lemma safe_closure a back : safe a (closure W fwd zero_grad back) (eq (a)).
Proof. unfold closure. next; [destruct back; quiet|intros ? ? <-]. here. intros s0. next; [logs|intros ? ? <-]. quiet. Qed.
Lemma safe_pretrain n m : safe None m (eq (None)) -> safe None (repeat_m W n m) (eq (None)).
Proof. intros H. induction n as [|n IH]; cbn [repeat_m]; [quiet|]. next; [exact H|intros ? ? <-; exact IH]. Qed.
Lemma safe_reset a : safe a (reset_lbd W reset) (eq (a)).
Proof. unfold reset_lbd. destruct reset; [|quiet]. next; [quiet|intros ? ? <-; logs]. Qed.
Lemma safe_test n it x : Z.of_nat n = (it + 1)%Z -> safe (Some n) (stop_test W cond it x) (eq (Some n)).
Proof.
  intros E. unfold stop_test. destruct (isnan x); [quiet|]. next; [quiet|intros ? ? <-]. next; [|intros ? ? <-; quiet]. eapply safe_log; [|reflexivity]. cbn [scan]. rewrite E, Z.eqb_refl. reflexivity.
Qed.
Lemma safe_post_step a : safe a (post_step W fwd zero_grad plain_step) (eq (option_map S a)).
Proof. unfold post_step. next; [quiet|intros ? ? <-]. next; [here; intros s0; next; [logs|intros ? ? <-; quiet]|intros ? ? <-]. next; [quiet|intros ? ? <-]. eapply (safe_bnd _ _ _ (eq (option_map S a))); [here; intros s0; logs|intros ? ? <-]. next; [logs|intros ? ? <-; quiet]. Qed.
Lemma safe_loop body n : (forall it k, Z.of_nat k = it -> safe (Some k) (body it) (eq (Some (S k)))) ->
  forall k it losses, Z.of_nat k = it -> safe (Some k) (loop W body it n losses) (fun _ => True).
Proof.
  intros H. induction n as [|n IH]; intros k it losses E; cbn [loop]; [quiet|]. eapply safe_bnd; [exact (H it k E)|]. intros [x b] b' <-. destruct b; [quiet|]. apply IH. lia.
Qed.
Lemma safe_pre_body it k : Z.of_nat k = it -> safe (Some k) (pre_body W fwd step_with zero_grad cond metric_grad it) (eq (Some (S k))).
Proof.
  intros E. unfold pre_body. eapply safe_bnd; [apply safe_step|]. intros _ b <-. cbn [option_map].
  eapply (safe_bnd _ _ _ (eq (Some (S k)))).
  { destruct metric_grad.
    - next; [quiet|intros ? ? <-]. next; [apply safe_closure|intros ? ? <-]. next; [quiet|intros ? ? <-]. quiet.
    - next; [quiet|intros ? ? <-]. next; [quiet|intros ? ? <-]. next; [apply safe_closure|intros ? ? <-]. next; [quiet|intros ? ? <-]. quiet. }
  intros x b <-. next; [logs|intros ? ? <-]. next; [apply safe_test; lia|intros ? ? <-]. quiet.
Qed.
Lemma safe_post_body it k : Z.of_nat k = it -> safe (Some k) (post_body W fwd zero_grad plain_step cond it) (eq (Some (S k))).
Proof. intros E. unfold post_body. eapply safe_bnd; [apply safe_post_step|]. intros x b <-. cbn [option_map]. next; [apply safe_test; lia|intros ? ? <-]. quiet. Qed.
Lemma safe_pretrain_post n : forall l, safe None (pretrain_post W fwd zero_grad plain_step n l) (eq (None)).
Proof. induction n as [|n IH]; intros l; cbn [pretrain_post]; [quiet|]. eapply safe_bnd; [apply safe_post_step|]. intros x b <-. apply IH. Qed.
Lemma safe_guess a : safe a (log W EGuess) (eq (Some 0%nat)).
Proof. logs. Qed.

Lemma safe_solve presample opt rho : safe None (solve W fwd step_with zero_grad plain_step generate guess reset cond metric_grad n_iter theta intercept lam presample opt rho) (fun _ => True).
Proof.
  unfold solve. next; [destruct opt; quiet|intros ? ? <-]. eapply (safe_bnd _ _ _ (fun _ => True)).
  { destruct presample.
    - unfold optim_presample. next; [quiet|intros ? ? <-]. destruct (interpret_steps n_iter) as [pre tr]. next; [quiet|intros ? ? <-]. next; [apply safe_pretrain, safe_step|intros ? ? <-]. next; [quiet|intros ? ? <-]. eapply safe_bnd; [apply safe_guess|]. intros _ b <-. next; [quiet|intros ? ? <-]. next; [apply safe_reset|intros ? ? <-].
      apply (safe_loop _ _ (fun it k E => safe_pre_body it k E)). reflexivity.
    - unfold optim_postsample. destruct (interpret_steps n_iter) as [pre tr]. next; [quiet|intros ? ? <-]. next; [apply safe_pretrain_post|intros ? ? <-]. next; [quiet|intros ? ? <-]. eapply safe_bnd; [apply safe_guess|]. intros _ b <-.
      next; [here; intros s0; destruct (s_erm s0); [apply safe_reset|quiet]|intros ? ? <-]. next; [quiet|intros ? ? <-]. apply (safe_loop _ _ (fun it k E => safe_post_body it k E)). reflexivity. }
  intros l b _. next; [quiet|intros ? ? <-]. next; [quiet|intros ? ? <-]. quiet.
Qed.

Lemma safe_study_step a : safe a (study_step W fwd zero_grad plain_step) (eq (option_map S a)).
Proof. unfold study_step. next; [quiet|intros ? ? <-]. next; [here; intros s0; next; [logs|intros ? ? <-; quiet]|intros ? ? <-]. next; [quiet|intros ? ? <-]. eapply (safe_bnd _ _ _ (eq (option_map S a))); [here; intros s0; logs|intros ? ? <-]. quiet. Qed.
Lemma safe_study_pretrain n : forall c, safe None (study_pretrain W fwd zero_grad plain_step pos_grad n c) (eq (None)).
Proof. induction n as [|n IH]; intros c; cbn [study_pretrain]; [quiet|]. eapply safe_bnd; [apply safe_study_step|]. intros x b <-. cbn [option_map]. next; [logs|intros ? ? <-]. next; [quiet|intros ? ? <-]. apply IH. Qed.
Lemma safe_study_loop n : forall k it c, Z.of_nat k = it -> safe (Some k) (study_loop W fwd zero_grad plain_step cond pos_grad lam_grad lam_item it n c) (fun _ => True).
Proof.
  induction n as [|n IH]; intros k it c E; cbn [study_loop]; [quiet|]. eapply safe_bnd; [apply safe_study_step|]. intros x b <-. cbn [option_map]. next; [quiet|intros ? ? <-].
  next; [eapply safe_log; [|reflexivity]; cbn [scan]; replace (Z.of_nat (S k)) with (it + 1)%Z by lia; rewrite Z.eqb_refl; reflexivity|intros ? ? <-].
  match goal with |- safe _ (if ?b then _ else _) _ => destruct b end; [quiet|]. next; [logs|intros ? ? <-]. next; [quiet|intros ? ? <-]. next; [quiet|intros ? ? <-]. next; [quiet|intros ? ? <-]. apply IH. lia.
Qed.
Lemma safe_study_pre_body it k : Z.of_nat k = it -> safe (Some k) (study_pre_body W fwd step_with zero_grad cond it) (eq (Some (S k))).
Proof.
  intros E. unfold study_pre_body. eapply safe_bnd; [apply safe_step|]. intros x b <-. cbn [option_map]. next; [quiet|intros ? ? <-].
  next; [eapply safe_log; [|reflexivity]; cbn [scan]; replace (Z.of_nat (S k)) with (it + 1)%Z by lia; rewrite Z.eqb_refl; reflexivity|intros ? ? <-].
  match goal with |- safe _ (if ?b then _ else _) _ => destruct b end; [quiet|]. next; [quiet|intros ? ? <-]. next; [quiet|intros ? ? <-].
  next; [unfold study_closure; here; intros s0; next; [logs|intros ? ? <-; quiet]|intros ? ? <-]. next; [quiet|intros ? ? <-]. next; [logs|intros ? ? <-]. quiet.
Qed.
Lemma safe_study_pre_loop n : forall k it l, Z.of_nat k = it -> safe (Some k) (study_pre_loop W fwd step_with zero_grad cond it n l) (fun _ => True).
Proof. induction n as [|n IH]; intros k it l E; cbn [study_pre_loop]; [quiet|]. eapply safe_bnd; [apply safe_study_pre_body; exact E|]. intros [x|] b <-; [apply IH; lia|quiet]. Qed.
Lemma safe_study presample opt rho :
  safe None (study W fwd step_with zero_grad plain_step generate guess reset cond n_iter pos_grad lam_grad lam_item open_figure draw_curves theta intercept lam presample opt rho) (fun _ => True).
Proof.
  unfold study. next; [destruct opt; quiet|intros ? ? <-]. destruct presample.
  - eapply (safe_bnd _ _ _ (fun _ => True)).
    { unfold study_presample. next; [quiet|intros ? ? <-]. destruct (interpret_steps n_iter) as [pre tr]. next; [quiet|intros ? ? <-]. next; [apply safe_pretrain, safe_step|intros ? ? <-]. next; [quiet|intros ? ? <-]. eapply safe_bnd; [apply safe_guess|]. intros _ b <-. next; [quiet|intros ? ? <-]. next; [apply safe_reset|intros ? ? <-]. apply safe_study_pre_loop. reflexivity. }
    intros l b _. next; [quiet|intros ? ? <-]. next; [quiet|intros ? ? <-]. quiet.
  - eapply (safe_bnd _ _ _ (fun _ => True)).
    { unfold study_postsample. destruct (interpret_steps n_iter) as [pre tr]. next; [quiet|intros ? ? <-]. next; [apply safe_study_pretrain|intros ? ? <-]. next; [quiet|intros ? ? <-]. eapply safe_bnd; [apply safe_guess|]. intros _ b <-.
      next; [here; intros s0; destruct (s_erm s0); [apply safe_reset|quiet]|intros ? ? <-]. next; [quiet|intros ? ? <-]. apply safe_study_loop. reflexivity. }
    intros l b _. next; [quiet|intros ? ? <-]. next; [quiet|intros ? ? <-]. next; [quiet|intros ? ? <-]. next; [quiet|intros ? ? <-]. quiet.
Qed.
End T.
