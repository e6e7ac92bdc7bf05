(* C122, C123, C131 and C137 tightened: the names each call takes, the limits of the constructors, what fit does with values that are
   not numbers, and the fitted intercept of the logistic regression. *)
From Coq Require Import Reals List Bool ZArith Arith String Lia Lra.
From Verif Require Import PyBase RList XReal Estim_Model Tuner_Model Lifecycle_Model Lifecycle_Spec Lifecycle_Proofs Props_Lifecycle Call_Model Call_Proofs Props_Call.
From Verif Require Import ExLoss_Model.
From Verif Require Samplers_Model CostDecoder_Model Wrap_Model Wrap_Proofs.
Import ListNotations.
Local Open Scope string_scope.

(* ---------- C137: the keywords of each call ---------- *)
(* specification: with n positional arguments, the names that may be given as one more keyword *)
Definition takes (s : pysig) (n : nat) (names : list string) : Prop :=
  forall A (pos : list A) k v, List.length pos = n -> (accepts s pos [(k, v)] <-> In k names).
Lemma takes_left s n names : In s library -> (forall k, In k (map fst (params s)) -> (forall i, (i < n)%nat -> nth_error (map fst (positional s)) i <> Some k) -> In k names) ->
  (forall A (pos : list A) k v, List.length pos = n -> In k names -> accepts s pos [(k, v)]) -> takes s n names.
Proof.
  intros L F B A pos k v Hn. split; [|apply B, Hn]. intros H. destruct (library_ok s L) as (D & X & _). apply (C137_binding A s pos _ D X) in H.
  destruct H as (_ & _ & H & _). destruct (H k (or_introl eq_refl)) as [H1 H2]. apply F; [exact H1|]. rewrite <- Hn. exact H2.
Qed.
Ltac excluded H2 := first [exfalso; refine (H2 0%nat _ eq_refl); lia|exfalso; refine (H2 1%nat _ eq_refl); lia|exfalso; refine (H2 2%nat _ eq_refl); lia|
  exfalso; refine (H2 3%nat _ eq_refl); lia|exfalso; refine (H2 4%nat _ eq_refl); lia].
Ltac named := cbn; tauto.
Ltac taken := apply takes_left; [unfold library; cbn [app map In]; tauto
  |intros k H1 H2; cbn in H1; repeat destruct H1 as [<-|H1]; [..|destruct H1]; first [named|excluded H2]
  |intros A pos k v Hn Hk; repeat (destruct pos as [|? pos]; try discriminate Hn); cbn in Hk; repeat destruct Hk as [<-|Hk]; [..|destruct Hk]; eexists; reflexivity].

Definition cov_names : list string := ["sigma"; "tril"; "prec"; "cov"].
Theorem C137_keywords :
  takes robustify_sig 5 ["post_sample"; "cost_spec"; "n_samples"; "seed"; "reduction"; "learning_rate"; "epsilon"; "sigma"; "l2reg"; "adapt"; "n_iter"; "imp_samp"; "loss_reduces_spatial_dims"] /\
  takes dual_post_sig 5 ["n_iter"; "reduction"; "gradient_hypertuning"; "learning_rate"; "imp_samp"; "adapt"] /\
  takes dual_pre_sig 5 ["n_iter"; "gradient_hypertuning"; "reduction"; "imp_samp"; "learning_rate"; "adapt"] /\
  takes regloss_sig 1 ["d"; "l2reg"; "fit_intercept"] /\ takes wrapped_sig 4 ["reduce_spatial_dims"; "l2reg"] /\
  takes normcost_sig 0 ["p"; "power"; "name"] /\ takes normlabelcost_sig 0 ["p"; "power"; "kappa"; "name"] /\
  takes nolabels_sampler_sig 3 ["seed"] /\ takes labeled_sampler_sig 4 ["seed"] /\
  takes normal_sig 2 (List.app cov_names ["l_sigma"; "l_tril"; "l_prec"; "l_cov"; "seed"]) /\ takes unlabelled_sig 1 (List.app cov_names ["seed"]) /\
  takes optcond_sig 1 ["tol_theta"; "tol_lambda"; "max_iter"; "monitoring"; "mode"; "metric"; "verbose"].
Proof.
  repeat match goal with |- _ /\ _ => split end; taken.
Qed.
Print Assumptions C137_keywords.
(* with a single keyword argument and nothing else, it must be the one parameter without default, if there is one only *)
Theorem C137_single_keyword : forall A k (v : A),
  (accepts unlabelled_sig [] [(k, v)] <-> k = "xi") /\ (accepts regloss_sig [] [(k, v)] <-> k = "sampler") /\ (accepts optcond_sig [] [(k, v)] <-> k = "order").
Proof.
  assert (G : forall s r, In s library -> In (r, false) (params s) -> forall A k (v : A), accepts s [] [(k, v)] -> k = r).
  { intros s r L P A k v H. destruct (library_ok s L) as (D & X & _). apply (C137_binding A s [] _ D X) in H. destruct H as (_ & _ & _ & H).
    destruct (H r P) as (a & [(i & _ & E)|E]); [destruct i; discriminate E|]. destruct E as [E|[]]. congruence. }
  intros A k v. split; [|split]; (split; [apply G; [unfold library; cbn [app map In]; tauto|cbn; tauto]|intros ->; eexists; reflexivity]).
Qed.
Print Assumptions C137_single_keyword.
Example C137_single_keyword_case : accepts unlabelled_sig [] [("xi", 1%nat)] /\ call unlabelled_sig [] [("sigma", 1%nat)] = Raise TypeError.
Proof. split; [eexists; reflexivity|reflexivity]. Qed.
(* one name of each kind: taken, misspelt, and taken by another class only *)
Example C137_keywords_case : accepts robustify_sig [1; 2; 3; 4; 5]%nat [("imp_samp", 6%nat)] /\ not (accepts robustify_sig [1; 2; 3; 4; 5]%nat [("n_sample", 6%nat)]) /\
  not (accepts unlabelled_sig [1]%nat [("l_sigma", 2%nat)]).
Proof.
  destruct C137_keywords as (T & _ & _ & _ & _ & _ & _ & _ & _ & _ & U & _). split; [apply (T nat [1; 2; 3; 4; 5]%nat "imp_samp" 6%nat eq_refl); cbn; tauto|]. split; intros H.
  - apply (T nat [1; 2; 3; 4; 5]%nat) in H; [|reflexivity]. cbn in H. repeat destruct H as [H|H]; try discriminate H. exact H.
  - apply (U nat [1]%nat) in H; [|reflexivity]. cbn in H. repeat destruct H as [H|H]; try discriminate H. exact H.
Qed.

(* ---------- C15: the limits of the constructors ---------- *)
(* all estimators: the radius is not negative; Portfolio: four more limits. Nothing else is refused, and a refusal is a ValueError *)
Definition within (e : estimator) (rho eta alpha reg n : R) : Prop :=
  (0 <= rho)%R /\ (e = EPortfolio -> (0 <= eta /\ 0 < alpha <= 1 /\ 0 <= reg /\ 0 <= n)%R).
Theorem C15_construction_limits : forall e args rho eta alpha reg n,
  number (args "rho") = Ok rho -> number (args "eta") = Ok eta -> number (args "alpha") = Ok alpha -> number (args "solver_reg") = Ok reg -> number (args "n_zeta_samples") = Ok n ->
  ((exists s, init e args = Ok s) <-> within e rho eta alpha reg n) /\ (~ within e rho eta alpha reg n -> init e args = Raise ValueError).
Proof.
  intros e args rho eta alpha reg n H1 H2 H3 H4 H5.
  assert (D : (within e rho eta alpha reg n /\ init_checks e args = Ok tt) \/ (~ within e rho eta alpha reg n /\ init_checks e args = Raise ValueError)).
  { unfold init_checks, within. rewrite H1. cbn [bind]. unfold refuse at 1.
    destruct (Rltb rho 0) eqn:B1; [apply Rltb_true in B1; right; split; [lra|reflexivity]|]. apply Rltb_false in B1. cbn [bind].
    destruct e; try (left; split; [split; [lra|discriminate]|reflexivity]).
    rewrite H2. cbn [bind]. unfold refuse at 1. destruct (Rltb eta 0) eqn:B2; [apply Rltb_true in B2; right; split; [intros [_ Q]; specialize (Q eq_refl); lra|reflexivity]|]. apply Rltb_false in B2. cbn [bind].
    rewrite H3. cbn [bind]. unfold refuse at 1.
    destruct (Rleb alpha 0) eqn:B3; [apply Rleb_true in B3; right; split; [intros [_ Q]; specialize (Q eq_refl); lra|reflexivity]|]. apply Rleb_false in B3. cbn [orb].
    destruct (Rltb 1 alpha) eqn:B4; [apply Rltb_true in B4; right; split; [intros [_ Q]; specialize (Q eq_refl); lra|reflexivity]|]. apply Rltb_false in B4. cbn [bind].
    rewrite H4. cbn [bind]. unfold refuse at 1. destruct (Rltb reg 0) eqn:B5; [apply Rltb_true in B5; right; split; [intros [_ Q]; specialize (Q eq_refl); lra|reflexivity]|]. apply Rltb_false in B5. cbn [bind].
    rewrite H5. cbn [bind]. unfold refuse. destruct (Rltb n 0) eqn:B6; [apply Rltb_true in B6; right; split; [intros [_ Q]; specialize (Q eq_refl); lra|reflexivity]|]. apply Rltb_false in B6.
    left. split; [split; [lra|intros _; lra]|reflexivity]. }
  unfold init. destruct D as [[W E]|[W E]]; rewrite E; cbn [bind].
  - split; [split; [intros _; exact W|intros _; eexists; reflexivity]|intros Q; contradiction].
  - split; [split; [intros [s Q]; discriminate Q|intros Q; contradiction]|reflexivity].
Qed.
Print Assumptions C15_construction_limits.
(* a level of 1 is accepted, a level of 0 and a negative number of samples are not *)
Definition with_arg (a : string) (v : pyv) (args : string -> pyv) (b : string) : pyv := if String.eqb b a then v else args b.
Example C15_construction_limits_case : (exists s, init EPortfolio (typical "dedicated") = Ok s) /\
  init EPortfolio (with_arg "alpha" (PFloat 0) (typical "dedicated")) = Raise ValueError /\
  init EPortfolio (with_arg "n_zeta_samples" (PInt (-1)) (typical "dedicated")) = Raise ValueError /\
  (exists s, init EWeber (with_arg "n_zeta_samples" (PInt (-1)) (typical "dedicated")) = Ok s).
Proof.
  split; [apply (C15_construction_limits EPortfolio _ 1 1 1 1 10); try reflexivity; split; [lra|intros _; lra]|].
  split; [apply (C15_construction_limits EPortfolio _ 1 1 0 1 10); try reflexivity; intros [_ Q]; specialize (Q eq_refl); lra|].
  split; [apply (C15_construction_limits EPortfolio _ 1 1 1 1 (-1)); try reflexivity; intros [_ Q]; specialize (Q eq_refl); lra|].
  apply (C15_construction_limits EWeber _ 1 1 1 1 (-1)); try reflexivity. split; [lra|discriminate].
Qed.

Section P.
Variable rf : string -> option R.

(* ---------- C15: at fit ---------- *)
(* set_params can put what the constructor would refuse. A radius that is no number stops fit with a TypeError whatever its kind; in
   Portfolio eta, alpha and solver_reg follow float(): a TypeError for None, a ValueError for a string that is not a number *)
Definition no_number (v : pyv) (ex : exn) : Prop :=
  (v = PNone \/ exists k n, v = PObj k n) /\ ex = TypeError \/ exists t, v = PStr t /\ rf t = None /\ ex = ValueError.
Lemma no_number_raises v ex : no_number v ex -> to_float rf v = Raise ex.
Proof. intros [[[-> | (k & n & ->)] ->]|(t & -> & H & ->)]; cbn; [reflexivity|reflexivity|rewrite H; reflexivity]. Qed.
Theorem C15_fit_not_a_number : forall x s v ex r, v_data x = Ok tt -> no_number v ex ->
  (forall e, look s "rho" = Some v -> fit rf e x s = (s, Raise TypeError)) /\
  (look s "rho" = Some (PFloat r) -> look s "eta" = Some v -> snd (fit rf EPortfolio x s) = Raise ex) /\
  (forall w, look s "rho" = Some (PFloat r) -> look s "eta" = Some (PFloat w) -> look s "alpha" = Some v -> snd (fit rf EPortfolio x s) = Raise ex) /\
  (forall w a, look s "rho" = Some (PFloat r) -> look s "eta" = Some (PFloat w) -> look s "alpha" = Some (PFloat a) -> look s "solver_reg" = Some v -> snd (fit rf EPortfolio x s) = Raise ex).
Proof.
  intros x s v ex r Hd Hv. apply no_number_raises in Hv. split; [|split; [|split]].
  - intros e H. assert (Q : fit_rho rf s = (s, Raise TypeError)) by (unfold fit_rho, bnd, get; rewrite H, Hv; reflexivity).
    destruct e; cbn [fit]; unfold nv_fit, pf_fit, wb_fit, lr_fit, lg_fit; unfold bnd at 1; unfold lift at 1; rewrite Hd; unfold bnd at 1; rewrite Q; reflexivity.
  - intros H1 H2. cbn [fit]. unfold pf_fit, fit_rho, fit_float, bnd, get, lift, set. rewrite Hd, H1. cbn [to_float].
    repeat (rewrite ?look_store; cbn [String.eqb Ascii.eqb Bool.eqb]; cbn [to_float]). rewrite H2, Hv. reflexivity.
  - intros w H1 H2 H3. cbn [fit]. unfold pf_fit, fit_rho, fit_float, bnd, get, lift, set. rewrite Hd, H1. cbn [to_float].
    repeat (rewrite ?look_store; cbn [String.eqb Ascii.eqb Bool.eqb]; cbn [to_float]; rewrite ?H2; cbn [to_float]). rewrite H3, Hv. reflexivity.
  - intros w a H1 H2 H3 H4. cbn [fit]. unfold pf_fit, fit_rho, fit_float, bnd, get, lift, set. rewrite Hd, H1. cbn [to_float].
    repeat (rewrite ?look_store; cbn [String.eqb Ascii.eqb Bool.eqb]; cbn [to_float]; rewrite ?H2, ?H3; cbn [to_float]). rewrite H4, Hv. reflexivity.
Qed.

(* ---------- C122: the fitted intercept of the logistic regression ---------- *)
(* specification: the values Python takes for false in a condition *)
Definition falsy (v : pyv) : Prop := v = PNone \/ v = PBool false \/ v = PInt 0 \/ v = PFloat 0 \/ v = PStr "".
Lemma truthy_falsy v : truthy v = false <-> falsy v.
Proof.
  unfold falsy. split.
  - destruct v as [r|z|t| |b|k n]; cbn; intros H; try discriminate H; try (left; reflexivity).
    + right; right; right; left. destruct (Reqb r 0) eqn:E; [|discriminate H]. apply Reqb_true in E. congruence.
    + right; right; left. destruct (Z.eqb_spec z 0); [congruence|discriminate H].
    + right; right; right; right. destruct (String.eqb_spec t ""); [congruence|discriminate H].
    + right; left. congruence.
  - intros [-> | [-> | [-> | [-> | ->]]]]; cbn; try reflexivity. replace (Reqb 0 0) with true by (symmetry; apply Reqb_true; reflexivity). reflexivity.
Qed.
(* after a successful fit intercept_ is an object of this fit, or None: None exactly when a torch solver was asked to fit no intercept *)
Theorem C122_intercept : forall x s s', fit rf ELogistic x s = (s', Ok tt) ->
  exists v n, look s' "fit_intercept" = Some v /\ look s' "solver" = Some (PStr n) /\
  (look s' "intercept_" = Some PNone <-> falsy v /\ n <> "dedicated") /\
  (look s' "intercept_" <> Some PNone -> exists k, look s' "intercept_" = Some (PObj k (v_call x))).
Proof.
  intros x s s' H. cbn [fit] in H. unfold lg_fit in H. runs H; settle.
  - match goal with F : Forall _ ["rho"; "fit_intercept"] |- _ => apply Forall_inv_tail, Forall_inv in F; destruct F as [v Ev]; rewrite ?look_store in Ev; cbn [String.eqb Ascii.eqb Bool.eqb] in Ev end.
    exists v, "dedicated". cbn [puts]. rewrite !look_store. cbn [String.eqb Ascii.eqb Bool.eqb].
    split; [exact Ev|]. split; [assumption|]. split; [split; [discriminate|intros [_ Q]; congruence]|]. intros _. eexists. reflexivity.
  - match goal with G : look _ "fit_intercept" = Some _ |- _ => cbn [puts] in G; rewrite ?look_store in G; cbn [String.eqb Ascii.eqb Bool.eqb] in G end.
    exists y15, st. cbn [puts]. rewrite !look_store. cbn [String.eqb Ascii.eqb Bool.eqb].
    split; [assumption|]. split; [assumption|]. split.
    + destruct (truthy y15) eqn:T.
      * split; [discriminate|]. intros [Q _]. apply truthy_falsy in Q. congruence.
      * split; [|reflexivity]. intros _. split; [apply truthy_falsy, T|assumption].
    + destruct (truthy y15); [intros _; eexists; reflexivity|intros Q; exfalso; apply Q; reflexivity].
Qed.
End P.
Print Assumptions C15_fit_not_a_number.
Print Assumptions C122_intercept.

(* an estimator fitted without intercept: both answers occur *)
Example C122_intercept_case : exists s s1 s2, fit no_float ELogistic (good 1 2) (store s "solver" (PStr "entropic_torch")) = (s1, Ok tt) /\ look s1 "intercept_" = Some PNone /\
  fit no_float ELogistic (good 1 2) (store s "solver" (PStr "dedicated")) = (s2, Ok tt) /\ look s2 "intercept_" = Some (PObj "result" 1) /\ look s "fit_intercept" = Some PNone.
Proof.
  exists (fold_left (fun t a => store t a (with_arg "fit_intercept" PNone (typical "dedicated") a)) (init_attrs ELogistic) []).
  eexists _, _. split; [reflexivity|]. split; [reflexivity|]. split; [reflexivity|]. split; reflexivity.
Qed.
Example C15_fit_not_a_number_case : no_number no_float PNone TypeError /\ no_number no_float (PStr "a lot") ValueError /\
  (forall s, look s "rho" = Some (PFloat 1) -> look s "eta" = Some (PStr "a lot") -> snd (fit no_float EPortfolio (good 1 2) s) = Raise ValueError).
Proof.
  assert (N : no_number no_float (PStr "a lot") ValueError) by (right; eexists; split; [reflexivity|split; reflexivity]).
  split; [left; split; [left|]; reflexivity|]. split; [exact N|]. intros s H1 H2. exact (proj1 (proj2 (C15_fit_not_a_number no_float (good 1 2) s _ _ 1 eq_refl N)) H1 H2).
Qed.

(* ---------- C46: the other defaults of robustify ---------- *)
Import Samplers_Model CostDecoder_Model Wrap_Model.
(* with the default arguments the robust loss has no ridge, the mean for reduction, no given rate, and prodigy for optimiser *)
Theorem C46_optimiser_defaults : forall pyfloat rho xi y d, dualize pyfloat (default_args rho xi y) = Ok d ->
  a_adapt d = Some "prodigy" /\ a_lr d = None /\ a_l2reg d = None /\ a_reduction d = None /\ a_reduce_spatial d = true /\ a_rho d = rho.
Proof.
  intros pyfloat rho xi y d H. unfold dualize in H. cbn [default_args u_labels u_cost u_rho] in H. destruct (parse_code_torch _ _ _ _ _ _) as [pc|ex]; [|discriminate H]. cbn [bind] in H.
  destruct (expert_hyperparams _ _ _ _ _ _) as [sg ep]. destruct (cost_from_parse_torch _ _ _) as [c|ex]; [|discriminate H]. cbn [bind] in H.
  destruct y; cbn [default_args u_labels] in H; destruct (_ _ _) as [t|ex] in H; try discriminate H; injection H as <-; repeat split; reflexivity.
Qed.
Print Assumptions C46_optimiser_defaults.
Example C46_optimiser_defaults_case : exists d, dualize (fun _ => None) (default_args 1 [[1]]%R None) = Ok d.
Proof. destruct (Wrap_Proofs.dualize_default (fun _ => None) 1 [[1]]%R None) as (d & H & _). exists d. exact H. Qed.

(* ---------- C139: the quadratic loss of the example ---------- *)
(* its slope is the residual, the scale at which it is compared with the other losses *)
Theorem C139_quadratic_slope : forall x y, derivable_pt_lim (fun x => ex_quadratic x y) x (x - y)%R.
Proof.
  intros x y. unfold ex_quadratic.
  assert (H : derivable_pt_lim (fun x => 1 / 2 * (y - x) ^ 2)%R x (1 / 2 * (INR 2 * (y - x) ^ 1 * (0 - 1)))%R).
  { apply (derivable_pt_lim_scal (fun x => (y - x) ^ 2)%R). apply (derivable_pt_lim_comp (fun x => y - x)%R (fun z => z ^ 2)%R).
    - apply derivable_pt_lim_minus; [apply derivable_pt_lim_const|apply derivable_pt_lim_id].
    - apply derivable_pt_lim_pow. }
  replace (x - y)%R with (1 / 2 * (INR 2 * (y - x) ^ 1 * (0 - 1)))%R by (cbn [INR pow]; lra). exact H.
Qed.
Print Assumptions C139_quadratic_slope.
Example C139_quadratic_slope_case : ex_quadratic 3 1 = 2%R.
Proof. unfold ex_quadratic. lra. Qed.
