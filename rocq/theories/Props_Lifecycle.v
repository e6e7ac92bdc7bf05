(* C91 (the attributes after fit), C122-C124: the estimators as objects. *)
From Coq Require Import Reals List Bool ZArith Arith String Lia Lra.
From Verif Require Import PyBase RList XReal Estim_Model Tuner_Model Lifecycle_Model Lifecycle_Spec Lifecycle_Proofs.
Import ListNotations.
Local Open Scope string_scope.

Section P.
Variable rf : string -> option R.
Implicit Types (e : estimator) (x : env) (s : attrs) (a : string).

(* ---------- C91: the tuners' table of attributes ---------- *)
Lemma written_names e x ded rho r1 r2 r3 r4 c d dv cond icpt : 
  same_names (map fst (written e x ded rho r1 r2 r3 r4 c d dv cond icpt)) (fit_attrs e ded) = true.
Proof. destruct e, ded; reflexivity. Qed.
(* after a successful fit of a new estimator, the attributes that exist are exactly those listed for its class and its branch *)
Theorem C91_attributes : forall e args x s s', init e args = Ok s -> fit rf e x s = (s', Ok tt) ->
  exists dedicated : bool, (exists n, args "solver" = PStr n /\ (if dedicated then n = "dedicated" else contains "torch" n = true)) /\
    forall a, defined s' a <-> has_attr e dedicated a = true.
Proof.
  intros e args x s s' I F. apply fit_writes in F as (ded & rho & r1 & r2 & r3 & r4 & c & d & dv & cond & icpt & -> & (n & L & N & B) & W & _).
  assert (S : look s "solver" = Some (args "solver")) by (rewrite (look_init args e s _ I); destruct e; reflexivity).
  exists ded. split; [exists n; split; [congruence|exact B]|]. intros a.
  rewrite defined_puts, (same_names_ok _ _ a (written_names e x ded rho r1 r2 r3 r4 c d dv cond icpt)).
  unfold has_attr. rewrite existsb_eqb, in_app_iff. apply init_ok in I as [_ ->]. unfold defined. rewrite look_fold.
  destruct (existsb (String.eqb a) (init_attrs e)) eqn:E; [apply existsb_eqb in E; split; eauto|].
  cbn [look]. assert (Q : ~ In a (init_attrs e)) by (intros Q; apply existsb_eqb in Q; congruence). split; [intros [[v V]|V]; [discriminate|tauto]|tauto].
Qed.

(* ---------- C122: documented attributes ---------- *)
Theorem C122_documented_attributes : forall e x s s', e <> EWeber -> fit rf e x s = (s', Ok tt) ->
  forall a, In a (documented e) -> exists v, look s' a = Some v /\
    (made_by (v_call x) v \/ (v = PNone /\ e = ELogistic /\ a = "intercept_" /\ exists w, look s "fit_intercept" = Some w /\ truthy w = false)).
Proof.
  intros e x s s' NW F a I. apply fit_writes in F as (ded & rho & r1 & r2 & r3 & r4 & c & d & dv & cond & icpt & -> & _ & _ & _ & Ic & _).
  rewrite look_puts. destruct e; cbn [documented List.In] in I; try (now destruct NW).
  - destruct I as [<-|[]]. destruct ded; cbn; eexists; (split; [reflexivity|left; eexists; reflexivity]).
  - destruct I as [<-|[<-|[]]]; destruct ded; cbn; eexists; (split; [reflexivity|left; eexists; reflexivity]).
  - destruct I as [<-|[<-|[]]]; destruct ded; cbn; try (eexists; split; [reflexivity|left; eexists; reflexivity]).
    destruct (Ic eq_refl eq_refl) as (w & Lw & ->). destruct (truthy w) eqn:T; eexists; (split; [reflexivity|]); [left; eexists; reflexivity|right; eauto 6].
Qed.
(* Weber documents position_, and no method ever assigns it *)
Theorem C122_weber_position_never : forall args s xs s', init EWeber args = Ok s ->
  fold_left (fun t x => fst (fit rf EWeber x t)) xs s = s' -> ~ defined s' "position_".
Proof.
  intros args s xs s' I <-. assert (N : ~ defined s "position_") by (intros [v V]; rewrite (look_init args _ _ _ I) in V; discriminate).
  clear I. revert s N. induction xs as [|x xs IH]; intros s N; [exact N|]. cbn [fold_left]. apply IH. intros [v V]. apply N.
  assert (Q : look (fst (fit rf EWeber x s)) "position_" = look s "position_"); [|exists v; congruence].
  assert (B : forall A B (m : M A) (k : A -> M B), (forall t, look (fst (m t)) "position_" = look t "position_") ->
    (forall y t, look (fst (k y t)) "position_" = look t "position_") -> forall t, look (fst (bnd m k t)) "position_" = look t "position_").
  { intros A B m k Hm Hk t. unfold bnd. specialize (Hm t). destruct (m t) as [t1 [y|ex]]; [|exact Hm]. rewrite Hk. exact Hm. }
  cbn [fit]. unfold wb_fit, fit_rho, fit_cond, fit_results, fitted_ok, solver_is, in_solver. clear V N. revert s.
  repeat first
  [ apply B; [|intros ?]
  | intros ?; first [reflexivity | rewrite get_all_state; reflexivity | cbn [set fst]; rewrite look_store; reflexivity]
  | match goal with |- forall t, look (fst ((if ?b then _ else _) t)) _ = _ => destruct b end
  | match goal with |- forall t, look (fst ((match ?v with _ => _ end) t)) _ = _ => destruct v end ].
Qed.

(* ---------- C123: parameters ---------- *)
(* the constructor stores every argument unchanged under its own name, and nothing else *)
Theorem C123_constructor : forall e args s, init e args = Ok s ->
  forall a, (In a (signature e) -> get_param e a s = (s, Ok (args a))) /\ (~ In a (signature e) -> look s a = None).
Proof.
  intros e args s I a. pose proof (look_init args e s a I) as L. split; intros H.
  - apply existsb_eqb in H. rewrite H in L. unfold get_param, get. rewrite H, L. reflexivity.
  - destruct (existsb (String.eqb a) (signature e)) eqn:E; [apply existsb_eqb in E; contradiction|exact L].
Qed.
(* so that cloning an estimator that was just built gives it back *)
Theorem C123_clone : forall e args s, init e args = Ok s -> clone e s = Ok s.
Proof.
  intros e args s I. unfold clone. rewrite <- I. apply init_ext. intros a H. rewrite (look_init args e s a I). apply existsb_eqb in H. rewrite H. reflexivity.
Qed.
(* whatever the data and the outcome, fit leaves all parameters alone except two: rho becomes a float, and an opt_cond equal to None
   is replaced by the condition the call builds *)
Theorem C123_parameters_kept : forall e x s a, In a (signature e) ->
  let s' := fst (fit rf e x s) in
  look s' a = look s a \/
  (a = "rho" /\ exists v r, look s a = Some v /\ to_float rf v = Ok r /\ look s' a = Some (PFloat r)) \/
  (a = "opt_cond" /\ look s a = Some PNone /\ look s' a = Some (PObj "condition" (v_call x))).
Proof.
  intros e x s a I s'. destruct (frame_fit rf e x s) as (A & B & C). fold s' in A, B, C.
  destruct (String.eqb_spec a "rho") as [->|N1]; [destruct B as [B|B]; auto|].
  destruct (String.eqb_spec a "opt_cond") as [->|N2]; [destruct C as [C|[C D]]; auto|]. left. exact (A a I N1 N2).
Qed.
(* the value of a numerical rho does not change *)
Theorem C123_radius_value : forall e x s v w r, look s "rho" = Some v -> number v = Ok r -> look (fst (fit rf e x s)) "rho" = Some w -> same_number v w.
Proof.
  intros e x s v w r L N L'. destruct (frame_fit rf e x s) as (_ & B & _). exists r. split; [exact N|].
  destruct B as [B|(v' & r' & E & F & G)]; [congruence|]. assert (v' = v) by congruence. subst v'. rewrite G in L'. injection L' as <-. cbn.
  destruct v; cbn in N, F; try discriminate; congruence.
Qed.
(* with a float radius and a condition given, nothing changes, on success or failure *)
Theorem C123_unchanged : forall e x s r c, look s "rho" = Some (PFloat r) -> look s "opt_cond" = Some c -> c <> PNone ->
  forall a, In a (signature e) -> look (fst (fit rf e x s)) a = look s a.
Proof.
  intros e x s r c R C NC a I. destruct (C123_parameters_kept e x s a I) as [H|[[-> (v & q & V & F & H)]|[-> [V H]]]]; [exact H| |congruence].
  rewrite H, R. assert (v = PFloat r) by congruence. subst v. cbn in F. congruence.
Qed.

(* ---------- C124: answers ---------- *)
(* predict and eval change nothing *)
Theorem C124_answers_read_only : forall e two data s, fst (answer e two data s) = s.
Proof. intros. apply answer_state. Qed.
(* set_params and a new object: never fitted *)
Theorem C124_new_is_unfitted : forall e args s, init e args = Ok s -> unfitted e s.
Proof.
  intros e args s I a. unfold defined. rewrite (look_init args e s a I), <- existsb_eqb. destruct (existsb _ _); [split; eauto|split; [intros [v V]; discriminate|discriminate]].
Qed.
Theorem C124_set_params_is_unfitted : forall e s a v, unfitted e s -> unfitted e (fst (set_param e a v s)).
Proof.
  intros e s a v U. unfold set_param. destruct (existsb (String.eqb a) (signature e)) eqn:E; [|exact U]. cbn [set fst]. apply existsb_eqb in E.
  intros b. rewrite defined_store, (U b). split; [intros [<-|H]; [exact E|exact H]|auto].
Qed.
Lemma unfitted_none e s a : unfitted e s -> existsb (String.eqb a) (signature e) = false -> look s a = None.
Proof.
  intros U E. destruct (look s a) as [v|] eqn:L; [|reflexivity]. assert (D : In a (signature e)) by (apply U; exists v; exact L). apply existsb_eqb in D. congruence.
Qed.
Theorem C124_predict_before_fit : forall e two data s, e = ELinear \/ e = ELogistic -> unfitted e s -> answer e two data s = (s, Raise NotFittedError).
Proof.
  intros e two data s [-> | ->] U; cbn [answer]; unfold lr_predict_attrs, lg_predict_attrs, bnd, check_is_fitted; cbn [forallb];
  rewrite (unfitted_none _ s "X_" U) by reflexivity; reflexivity.
Qed.
(* eval before fit raises as well, but an AttributeError *)
Theorem C124_eval_before_fit : forall e two data s, e <> ELinear -> e <> ELogistic -> unfitted e s -> answer e two data s = (s, Raise AttributeError).
Proof.
  intros e two data s N1 N2 U.
  assert (A : or_eval_attrs e data s = (s, Raise AttributeError)).
  { unfold or_eval_attrs, bnd, get. rewrite (unfitted_none _ s "is_fitted_" U); [reflexivity|]. destruct e; try contradiction; reflexivity. }
  destruct e; try contradiction; exact A.
Qed.
(* and so it does after a first fit that failed *)
Theorem C124_eval_after_failed_fit : forall e two data x s s' ex, e <> ELinear -> e <> ELogistic -> unfitted e s -> fit rf e x s = (s', Raise ex) ->
  answer e two data s' = (s', Raise AttributeError).
Proof.
  intros e two data x s s' ex N1 N2 U F. apply onraise_fit in F.
  assert (A : or_eval_attrs e data s' = (s', Raise AttributeError)).
  { unfold or_eval_attrs, bnd, get. rewrite F, (unfitted_none _ s "is_fitted_" U); [reflexivity|]. destruct e; try contradiction; reflexivity. }
  destruct e; try contradiction; exact A.
Qed.
(* data that are refused leave the object as it was *)
Theorem C124_refused_data : forall e x s ex, v_data x = Raise ex -> fit rf e x s = (s, Raise ex).
Proof.
  intros e x s ex H. destruct e; cbn [fit]; unfold nv_fit, pf_fit, wb_fit, lr_fit, lg_fit, bnd at 1, lift at 1; rewrite H; reflexivity.
Qed.
(* the solver names for which eval has a branch *)
Definition evaluable e s : Prop := e = ELinear \/ e = ELogistic \/ exists n, look s "solver" = Some (PStr n) /\ (contains "entropic" n = true \/ n = "dedicated").
Ltac rd := repeat (rewrite look_puts; cbn).
(* after a successful fit, whatever happened before, everything an answer uses was made by that call *)
Theorem C124_answers_from_last_fit : forall e x s s', fit rf e x s = (s', Ok tt) -> evaluable e s' ->
  exists u, answer e (v_classes x <=? 2)%nat (Ok tt) s' = (s', Ok u) /\ u <> [] /\
    forall a v, In (a, v) u -> made_by (v_call x) v \/ (a = "intercept_" /\ v = PNone /\ look s' a = Some v /\ e = ELogistic).
Proof.
  intros e x s s' F Ev. apply fit_writes in F as (ded & rho & r1 & r2 & r3 & r4 & c & d & dv & cond & icpt & E & (n & L & N & B) & W & Cl & Ic & KU).
  assert (Ls : look s' "solver" = Some (PStr n)).
  { rewrite E, look_puts. destruct e, ded; cbn; exact L. }
  assert (Lk : forall a, look s' a = match look (rev (written e x ded rho r1 r2 r3 r4 c d dv cond icpt)) a with Some v => Some v | None => look s a end).
  { intros a. rewrite E. apply look_puts. }
  clear E. destruct e; cbn [answer].
  1-3: assert (Ev' : contains "entropic" n = true \/ n = "dedicated") by (destruct Ev as [Ev|[Ev|(m & Lm & Ev)]]; try discriminate; assert (m = n) by congruence; subst m; exact Ev).
  1-3: assert (Ex : ded = false -> contains "entropic" n = true) by (intros ->; destruct Ev' as [?| ->]; [assumption|discriminate B]).
  - unfold or_eval_attrs, in_solver, solver_is, reading. cbn [fold_right get_all]. unfold bnd, get, lift, ret. rewrite (Lk "is_fitted_").
    destruct ded; cbn; rewrite ?Ls.
    + subst n. cbn. rewrite ?Ls. cbn. rewrite (Lk "k"). cbn. destruct (KU eq_refl eq_refl) as [[vk ->] [vu Lu]]. rewrite (Lk "coef_"). cbn. rewrite (Lk "u"). cbn. rewrite Lu.
      eexists. split; [reflexivity|]. split; [discriminate|]. intros a v [I|[]]. injection I as <- <-. left. eexists. reflexivity.
    + rewrite (Ex eq_refl), (Lk "_wdro_loss"). cbn. eexists. split; [reflexivity|]. split; [discriminate|]. intros a v [I|[]]. injection I as <- <-. left. eexists. reflexivity.
  - unfold or_eval_attrs, in_solver, solver_is, reading. cbn [fold_right get_all]. unfold bnd, get, lift, ret. rewrite (Lk "is_fitted_").
    destruct ded; cbn; rewrite ?Ls.
    + subst n. cbn. rewrite ?Ls. cbn. rewrite (Lk "coef_"). cbn. eexists. split; [reflexivity|]. split; [discriminate|]. intros a v [I|[]]. injection I as <- <-. left. eexists. reflexivity.
    + rewrite (Ex eq_refl), (Lk "_wdro_loss"). cbn. eexists. split; [reflexivity|]. split; [discriminate|]. intros a v [I|[]]. injection I as <- <-. left. eexists. reflexivity.
  - rewrite (W eq_refl) in *. unfold or_eval_attrs, in_solver, solver_is, reading. cbn [fold_right get_all]. unfold bnd, get, lift, ret. rewrite (Lk "is_fitted_"). cbn. rewrite Ls.
    rewrite (Ex eq_refl), (Lk "_wdro_loss"). cbn. eexists. split; [reflexivity|]. split; [discriminate|]. intros a v [I|[]]. injection I as <- <-. left. eexists. reflexivity.
  - unfold lr_predict_attrs, check_is_fitted, lift, reading. cbn [fold_right forallb]. unfold bnd, get, ret. rewrite (Lk "X_"), (Lk "y_").
    destruct ded; cbn; rewrite (Lk "intercept_"), (Lk "coef_"); cbn;
    (eexists; split; [reflexivity|]; split; [discriminate|]; intros a v [I|[I|[]]]; injection I as <- <-; left; eexists; reflexivity).
  - destruct (Cl eq_refl) as [C2 Cd].
    unfold lg_predict_attrs, lg_proba2_attrs, lg_proba_attrs, check_is_fitted, lift, reading, has. cbn [fold_right forallb]. unfold bnd, get, ret.
    rewrite (Lk "X_"), (Lk "y_"). destruct ded; cbn; rewrite (Lk "le_"); cbn.
    + rewrite (Cd eq_refl). cbn. repeat (first [rewrite (Lk "X_") | rewrite (Lk "y_") | rewrite (Lk "coef_") | rewrite (Lk "intercept_")]; cbn).
      eexists. split; [reflexivity|]. split; [discriminate|]. intros a v [I|[I|[I|[]]]]; injection I as <- <-; left; eexists; reflexivity.
    + destruct (Ic eq_refl eq_refl) as (w & Lw & Ei).
      destruct (Nat.eqb_spec (v_classes x) 2) as [E2|E2]; cbn.
      * repeat (first [rewrite (Lk "X_") | rewrite (Lk "y_") | rewrite (Lk "coef_") | rewrite (Lk "intercept_")]; cbn).
        eexists. split; [reflexivity|]. split; [discriminate|]. intros a v [I|[I|[I|[]]]]; injection I as <- <-; try (left; eexists; reflexivity).
        destruct icpt; [left; eexists; reflexivity|]. right. rewrite ?(Lk "intercept_"). cbn. auto.
      * repeat (first [rewrite (Lk "X_") | rewrite (Lk "y_") | rewrite (Lk "wdro_loss_") | rewrite (Lk "classes_")]; cbn).
        destruct (Nat.leb_spec (v_classes x) 2); [lia|]. rewrite (Lk "wdro_loss_"). cbn.
        eexists. split; [reflexivity|]. split; [discriminate|]. intros a v [I|[I|[]]]; injection I as <- <-; left; eexists; reflexivity.
Qed.
End P.

(* ---------- witnesses ---------- *)
(* arguments and a call with everything going well *)
Definition good (n classes : nat) : env :=
  {| v_call := n; v_data := Ok tt; v_cost := fun _ => Ok tt; v_columns := Ok tt; v_dual := Ok tt; v_solve := Ok tt; v_classes := classes; v_zero := false |}.
Definition diverged (n classes : nat) : env :=
  {| v_call := n; v_data := Ok tt; v_cost := fun _ => Ok tt; v_columns := Ok tt; v_dual := Ok tt; v_solve := Raise ValueError; v_classes := classes; v_zero := false |}.
Definition typical (solver : string) (a : string) : pyv :=
  if String.eqb a "solver" then PStr solver
  else if existsb (String.eqb a) ["rho"; "alpha"; "eta"; "solver_reg"; "k"; "u"] then PFloat 1
  else if String.eqb a "n_zeta_samples" then PInt 10
  else if String.eqb a "fit_intercept" then PBool true
  else if String.eqb a "cost" then PStr "t-NC-1-2"
  else PNone.
Definition no_float (_ : string) : option R := None.

Lemma typical_init e n : exists s, init e (typical n) = Ok s.
Proof.
  unfold init. assert (H : init_checks e (typical n) = Ok tt); [|rewrite H; eexists; reflexivity].
  unfold init_checks. cbn. destruct (Rltb 1 0) eqn:L; [apply Rltb_true in L; lra|]. cbn. destruct e; try reflexivity. cbn.
  destruct (Rleb 1 0) eqn:Q; [apply Rleb_true in Q; lra|]. destruct (Rltb 1 1) eqn:L1; [apply Rltb_true in L1; lra|]. cbn.
  destruct (Rltb 10 0) eqn:L2; [apply Rltb_true in L2; lra|]. reflexivity.
Qed.

(* C91, C122, C124 are not vacuous: all five classes can be fitted *)
Example C124_case : forall e, exists s s' u, init e (typical "entropic_torch") = Ok s /\ fit no_float e (good 1 2) s = (s', Ok tt) /\ evaluable e s' /\
  answer e true (Ok tt) s' = (s', Ok u) /\ u <> [].
Proof.
  intros e. destruct (typical_init e "entropic_torch") as [s I]. pose proof (proj2 (init_ok _ _ _ I)) as E.
  exists s. destruct e; cbn in E; subst s; eexists _, _; (split; [exact I|]; split; [reflexivity|]; split; [|split; [reflexivity|discriminate]]);
  unfold evaluable; try tauto; right; right; eexists; (split; [reflexivity|left; reflexivity]).
Qed.
Example C122_case : exists s s', init ELogistic (typical "dedicated") = Ok s /\ fit no_float ELogistic (good 7 2) s = (s', Ok tt) /\
  look s' "coef_" = Some (PObj "result" 7) /\ look s' "intercept_" = Some (PObj "result" 7).
Proof.
  destruct (typical_init ELogistic "dedicated") as [s I]. pose proof (proj2 (init_ok _ _ _ I)) as E. exists s. cbn in E; subst s. eexists. split; [exact I|]. split; [reflexivity|]. split; reflexivity.
Qed.
Theorem C122_weber_position_refuted : exists s s', init EWeber (typical "entropic_torch") = Ok s /\ fit no_float EWeber (good 1 2) s = (s', Ok tt) /\
  In "position_" (documented EWeber) /\ ~ defined s' "position_".
Proof.
  destruct (typical_init EWeber "entropic_torch") as [s I]. pose proof (proj2 (init_ok _ _ _ I)) as E. exists s. cbn in E; subst s. eexists. split; [exact I|]. split; [reflexivity|].
  split; [left; reflexivity|]. intros [v V]. discriminate.
Qed.
(* C123: a fit that replaces opt_cond, and one that replaces an integer radius *)
Theorem C123_parameters_refuted : exists e x s s', init e (typical "entropic_torch") = Ok s /\ fit no_float e x s = (s', Ok tt) /\
  look s "opt_cond" = Some PNone /\ look s' "opt_cond" = Some (PObj "condition" (v_call x)) /\ clone e s' <> clone e s.
Proof.
  exists ELinear, (good 3 2). destruct (typical_init ELinear "entropic_torch") as [s I]. pose proof (proj2 (init_ok _ _ _ I)) as E. exists s. cbn in E; subst s. eexists. split; [exact I|]. split; [reflexivity|].
  split; [reflexivity|]. split; [reflexivity|]. rewrite (C123_clone _ _ _ I). unfold clone, init. destruct (init_checks _ _); cbn; discriminate.
Qed.
Definition whole (a : string) : pyv := if String.eqb a "rho" then PInt 1 else typical "dedicated" a.
Theorem C123_radius_type_refuted : exists e x s s', init e whole = Ok s /\ fit no_float e x s = (s', Ok tt) /\ look s "rho" = Some (PInt 1) /\ look s' "rho" = Some (PFloat 1).
Proof.
  exists ENewsVendor, (good 3 2). assert (I : exists s, init ENewsVendor whole = Ok s).
  { unfold init. cbn. destruct (Rltb 1 0) eqn:L; [apply Rltb_true in L; lra|]. eexists. reflexivity. }
  destruct I as [s I]. pose proof (proj2 (init_ok _ _ _ I)) as E. exists s. cbn in E; subst s. eexists. split; [exact I|]. repeat split; reflexivity.
Qed.
Example C123_case : exists s s', init EPortfolio (typical "dedicated") = Ok s /\ fit no_float EPortfolio (diverged 3 2) s = (s', Raise ValueError) /\
  forall a, In a (signature EPortfolio) -> look s' a = look s a.
Proof.
  destruct (typical_init EPortfolio "dedicated") as [s I]. pose proof (proj2 (init_ok _ _ _ I)) as E. exists s. cbn in E; subst s. eexists. split; [exact I|]. split; [reflexivity|].
  intros a H. cbn [signature List.In] in H. repeat (destruct H as [<-|H]; [reflexivity|]). destruct H.
Qed.
(* C124 fails: eval before fit, and predict after a first fit that failed, raise AttributeError instead of NotFittedError *)
Theorem C124_eval_not_fitted_error_refuted : exists e s, init e (typical "dedicated") = Ok s /\ answer e true (Ok tt) s = (s, Raise AttributeError).
Proof.
  exists EPortfolio. destruct (typical_init EPortfolio "dedicated") as [s I]. exists s. split; [exact I|]. apply C124_eval_before_fit; try discriminate. exact (C124_new_is_unfitted _ _ _ I).
Qed.
Theorem C124_failed_first_fit_refuted : exists s s', init ELinear (typical "dedicated") = Ok s /\ fit no_float ELinear (diverged 1 2) s = (s', Raise ValueError) /\
  answer ELinear true (Ok tt) s' = (s', Raise AttributeError).
Proof.
  destruct (typical_init ELinear "dedicated") as [s I]. pose proof (proj2 (init_ok _ _ _ I)) as E. exists s. cbn in E; subst s. eexists. split; [exact I|]. split; reflexivity.
Qed.
(* ... a second fit that failed leaves the old coefficients beside the new data: predict answers with the first call's results *)
Theorem C124_stale_answer_refuted : exists s s1 s2 u, init ELogistic (typical "dedicated") = Ok s /\ fit no_float ELogistic (good 1 2) s = (s1, Ok tt) /\
  fit no_float ELogistic (diverged 2 2) s1 = (s2, Raise ValueError) /\
  answer ELogistic true (Ok tt) s2 = (s2, Ok u) /\ In ("coef_", PObj "result" 1) u /\ In ("le_", PObj "LabelEncoder" 2) u.
Proof.
  destruct (typical_init ELogistic "dedicated") as [s I]. pose proof (proj2 (init_ok _ _ _ I)) as E. exists s. cbn in E; subst s. eexists _, _, _. split; [exact I|]. split; [reflexivity|].
  split; [reflexivity|]. split; [reflexivity|]. cbn. tauto.
Qed.
(* ... a first multi-class fit whose solver failed: predict answers with the untrained model *)
Theorem C124_untrained_answer_refuted : exists s s1 u, init ELogistic (typical "entropic_torch") = Ok s /\
  fit no_float ELogistic (diverged 1 3) s = (s1, Raise ValueError) /\ ~ defined s1 "coef_" /\ ~ defined s1 "is_fitted_" /\
  answer ELogistic false (Ok tt) s1 = (s1, Ok u) /\ In ("wdro_loss_", PObj "loss" 1) u.
Proof.
  destruct (typical_init ELogistic "entropic_torch") as [s I]. pose proof (proj2 (init_ok _ _ _ I)) as E. exists s. cbn in E; subst s. eexists _, _. split; [exact I|]. split; [reflexivity|].
  split; [intros [v V]; discriminate|]. split; [intros [v V]; discriminate|]. split; [reflexivity|]. cbn. tauto.
Qed.
(* ... and changing the solver's name after a successful fit makes eval read an attribute that fit did not make, or refuse *)
Theorem C124_renamed_solver_refuted : exists s s1 s2, init ENewsVendor (typical "dedicated") = Ok s /\ fit no_float ENewsVendor (good 1 2) s = (s1, Ok tt) /\
  set_param ENewsVendor "solver" (PStr "entropic_torch") s1 = (s2, Ok tt) /\ answer ENewsVendor true (Ok tt) s2 = (s2, Raise AttributeError).
Proof.
  destruct (typical_init ENewsVendor "dedicated") as [s I]. pose proof (proj2 (init_ok _ _ _ I)) as E. exists s. cbn in E; subst s. eexists _, _. split; [exact I|]. split; [reflexivity|]. split; reflexivity.
Qed.
(* a solver name that fit accepts and eval refuses *)
Theorem C124_solver_name_refuted : exists s s1, init EWeber (typical "torch") = Ok s /\ fit no_float EWeber (good 1 2) s = (s1, Ok tt) /\
  answer EWeber true (Ok tt) s1 = (s1, Raise ValueError).
Proof.
  destruct (typical_init EWeber "torch") as [s I]. pose proof (proj2 (init_ok _ _ _ I)) as E. exists s. cbn in E; subst s. eexists. split; [exact I|]. split; reflexivity.
Qed.

Print Assumptions C91_attributes.
Print Assumptions C122_documented_attributes.
Print Assumptions C122_weber_position_never.
Print Assumptions C122_weber_position_refuted.
Print Assumptions C123_constructor.
Print Assumptions C123_clone.
Print Assumptions C123_parameters_kept.
Print Assumptions C123_radius_value.
Print Assumptions C123_unchanged.
Print Assumptions C123_parameters_refuted.
Print Assumptions C123_radius_type_refuted.
Print Assumptions C124_answers_read_only.
Print Assumptions C124_new_is_unfitted.
Print Assumptions C124_set_params_is_unfitted.
Print Assumptions C124_predict_before_fit.
Print Assumptions C124_eval_before_fit.
Print Assumptions C124_eval_after_failed_fit.
Print Assumptions C124_refused_data.
Print Assumptions C124_answers_from_last_fit.
Print Assumptions C124_eval_not_fitted_error_refuted.
Print Assumptions C124_failed_first_fit_refuted.
Print Assumptions C124_stale_answer_refuted.
Print Assumptions C124_untrained_answer_refuted.
Print Assumptions C124_renamed_solver_refuted.
Print Assumptions C124_solver_name_refuted.
