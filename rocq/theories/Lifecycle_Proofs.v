From Coq Require Import Reals List Bool ZArith Arith String Lia.
From Verif Require Import PyBase RList Estim_Model Tuner_Model Lifecycle_Model Lifecycle_Spec.
Import ListNotations.
Local Open Scope string_scope.

(* ---------- the dictionary ---------- *)
Lemma look_store s a v b : look (store s a v) b = if String.eqb a b then Some v else look s b.
Proof.
  induction s as [|[c w] s IH]; cbn; [reflexivity|]. destruct (String.eqb_spec c a) as [->|N]; cbn.
  - destruct (String.eqb a b); reflexivity.
  - rewrite IH. destruct (String.eqb_spec c b) as [->|]; [|reflexivity]. destruct (String.eqb_spec a b) as [->|]; [contradiction|reflexivity].
Qed.
Lemma defined_store s a v b : defined (store s a v) b <-> a = b \/ defined s b.
Proof.
  unfold defined. rewrite look_store. destruct (String.eqb_spec a b) as [E|N]; split; eauto; intros [Q|Q]; auto; contradiction.
Qed.

Lemma store_same s a v : look s a = Some v -> store s a v = s.
Proof.
  induction s as [|[c w] s IH]; cbn; intros H; [discriminate|]. destruct (String.eqb_spec c a) as [->|N]; [injection H as ->; reflexivity|]. rewrite (IH H). reflexivity.
Qed.
(* several assignments *)
Fixpoint puts (s : attrs) (l : list (string * pyv)) : attrs := match l with [] => s | (a, v) :: r => puts (store s a v) r end.
Lemma puts_app s l m : puts s (List.app l m) = puts (puts s l) m.
Proof. revert s. induction l as [|[a v] l IH]; intros s; [reflexivity|]. exact (IH _). Qed.
Lemma look_app l m a : look (List.app l m) a = match look l a with Some v => Some v | None => look m a end.
Proof. induction l as [|[b v] l IH]; cbn; [reflexivity|]. destruct (String.eqb b a); [reflexivity|exact IH]. Qed.
(* the last assignment counts *)
Lemma look_puts l : forall s a, look (puts s l) a = match look (rev l) a with Some v => Some v | None => look s a end.
Proof.
  induction l as [|[b v] l IH]; intros s a; [reflexivity|]. cbn [puts rev]. rewrite IH, look_app, look_store. cbn [look].
  destruct (look (rev l) a); [reflexivity|]. destruct (String.eqb b a); reflexivity.
Qed.
Lemma defined_puts l : forall s a, defined (puts s l) a <-> defined s a \/ In a (map fst l).
Proof.
  induction l as [|[b v] l IH]; intros s a; cbn [puts map fst List.In]; [tauto|]. rewrite IH, defined_store. tauto.
Qed.
(* the same names, decided *)
Definition same_names (l m : list string) : bool := forallb (fun a => existsb (String.eqb a) m) l && forallb (fun a => existsb (String.eqb a) l) m.
Lemma existsb_eqb a l : existsb (String.eqb a) l = true <-> In a l.
Proof.
  rewrite existsb_exists. split; [intros (b & I & E); apply String.eqb_eq in E as ->; exact I|intros I; exists a; split; [exact I|apply String.eqb_refl]].
Qed.
Lemma same_names_ok l m a : same_names l m = true -> In a l <-> In a m.
Proof.
  unfold same_names. rewrite andb_true_iff, !forallb_forall. intros [H K].
  split; intros I; apply existsb_eqb; [apply H|apply K]; exact I.
Qed.

(* ---------- runs ---------- *)
Lemma bnd_ok {A B} (m : M A) (k : A -> M B) s s' x : bnd m k s = (s', Ok x) -> exists y s1, m s = (s1, Ok y) /\ k y s1 = (s', Ok x).
Proof. unfold bnd. destruct (m s) as [s1 [y|e]]; intros H; [eauto|discriminate]. Qed.
Lemma get_ok a s s' v : get a s = (s', Ok v) -> s' = s /\ look s a = Some v.
Proof. unfold get. destruct (look s a); intros H; [injection H as <- <-; auto|discriminate]. Qed.
Lemma set_ok a v s s' x : set a v s = (s', Ok x) -> s' = store s a v.
Proof. intros H. injection H as <- _. reflexivity. Qed.
Lemma lift_ok {A} (r : Result A) s s' x : lift r s = (s', Ok x) -> s' = s /\ r = Ok x.
Proof. intros H. injection H as <- <-. auto. Qed.
Lemma ret_ok {A} (y : A) s s' x : ret y s = (s', Ok x) -> s' = s /\ x = y.
Proof. intros H. injection H as <- <-. auto. Qed.
Lemma get_all_ok l : forall s s' x, get_all l s = (s', Ok x) -> s' = s /\ Forall (defined s) l.
Proof.
  induction l as [|a l IH]; intros s s' x H; cbn [get_all] in H; [apply ret_ok in H as [-> _]; auto|].
  apply bnd_ok in H as (v & s1 & H1 & H2). apply get_ok in H1 as [-> E]. apply IH in H2 as [-> F]. split; [reflexivity|]. constructor; [exists v; exact E|exact F].
Qed.
Lemma solver_is_ok n s s' b : solver_is n s = (s', Ok b) -> s' = s /\ exists v, look s "solver" = Some v /\ b = match v with PStr t => String.eqb t n | _ => false end.
Proof. intros H. apply bnd_ok in H as (v & s1 & H1 & H2). apply get_ok in H1 as [-> E]. apply ret_ok in H2 as [-> ->]. eauto. Qed.
Lemma in_solver_ok n s s' b : in_solver n s = (s', Ok b) -> s' = s /\ exists t, look s "solver" = Some (PStr t) /\ b = contains n t.
Proof.
  intros H. apply bnd_ok in H as (v & s1 & H1 & H2). apply get_ok in H1 as [-> E]. destruct v; try discriminate. apply ret_ok in H2 as [-> ->]. eauto.
Qed.
Lemma fit_rho_ok rf s s' x : fit_rho rf s = (s', Ok x) -> exists v r, look s "rho" = Some v /\ to_float rf v = Ok r /\ s' = store s "rho" (PFloat r).
Proof.
  intros H. apply bnd_ok in H as (v & s1 & H1 & H2). apply get_ok in H1 as [-> E]. destruct (to_float rf v) as [r|] eqn:F; [|discriminate]. apply set_ok in H2 as ->. exists v, r. repeat split; assumption.
Qed.
Lemma fit_float_ok rf a b s s' x : fit_float rf a b s = (s', Ok x) -> exists v r, look s b = Some v /\ to_float rf v = Ok r /\ s' = store s a (PFloat r).
Proof.
  intros H. apply bnd_ok in H as (v & s1 & H1 & H2). apply get_ok in H1 as [-> E]. apply bnd_ok in H2 as (r & s1 & H1 & H2). apply lift_ok in H1 as [-> F]. apply set_ok in H2 as ->. exists v, r. repeat split; assumption.
Qed.
Lemma fit_cost_ok e s s' x : fit_cost e s = (s', Ok x) -> s' = store s "cost_" (PObj "cost" (v_call e)) /\ defined s "cost".
Proof.
  intros H. apply bnd_ok in H as (v & s1 & H1 & H2). apply get_ok in H1 as [-> E]. apply bnd_ok in H2 as (r & s1 & H1 & H2). apply lift_ok in H1 as [-> F]. apply set_ok in H2 as ->. split; [reflexivity|exists v; exact E].
Qed.
Lemma fit_cond_ok e s s' x : fit_cond e s = (s', Ok x) ->
  exists v, look s "opt_cond" = Some v /\ s' = store s "opt_cond" (if is_none v then PObj "condition" (v_call e) else v).
Proof.
  intros H. apply bnd_ok in H as (v & s1 & H1 & H2). apply get_ok in H1 as [-> E]. exists v. split; [exact E|].
  destruct (is_none v); [apply set_ok in H2 as ->; reflexivity|]. apply ret_ok in H2 as [-> _]. symmetry. apply store_same. exact E.
Qed.
Lemma nv_dual_var_ok e s s' x : nv_dual_var e s = (s', Ok x) -> exists v, s' = store s "dual_var_" v /\ (if v_zero e then v = PFloat 0 else look s "u" = Some v).
Proof.
  unfold nv_dual_var. intros H. destruct (v_zero e); [apply set_ok in H as ->; eauto|].
  apply bnd_ok in H as (v & s1 & H1 & H2). apply get_ok in H1 as [-> E]. apply set_ok in H2 as ->. eauto.
Qed.
Lemma pf_constraints_ok e s s' x : pf_constraints e s = (s', Ok x) -> exists c d, s' = puts s [("C_", c); ("d_", d)].
Proof.
  intros H. unfold pf_constraints in H. apply bnd_ok in H as (c & s1 & H1 & H). apply get_ok in H1 as [-> E]. apply bnd_ok in H as (d & s1 & H1 & H). apply get_ok in H1 as [-> F].
  apply bnd_ok in H as (? & s1 & H1 & H). apply set_ok in H1 as ->. apply set_ok in H as ->. eexists _, _. reflexivity.
Qed.
Lemma lg_encoder_ok e s s' x : lg_encoder e s = (s', Ok x) ->
  (2 <= v_classes e)%nat /\ s' = store s "le_" (PObj (if (v_classes e =? 2)%nat then "LabelEncoder" else "OneHotEncoder") (v_call e)).
Proof.
  unfold lg_encoder. intros H. destruct (Nat.ltb_spec (v_classes e) 2); [discriminate|]. apply set_ok in H as ->. auto.
Qed.
Lemma fit_results_ok e s s' x : fit_results e s = (s', Ok x) -> s' = puts s [("coef_", PObj "result" (v_call e)); ("intercept_", PObj "result" (v_call e)); ("dual_var_", PObj "result" (v_call e));
  ("robust_loss_", PObj "result" (v_call e)); ("coef_", PObj "parameters" (v_call e))] /\ v_solve e = Ok tt.
Proof.
  intros H. unfold fit_results in H. apply bnd_ok in H as ([] & ? & H1 & H). apply lift_ok in H1 as [-> F].
  repeat (apply bnd_ok in H as (? & ? & H1 & H); apply set_ok in H1 as ->). apply set_ok in H as ->. auto.
Qed.
Lemma fitted_ok_ok s s' x : fitted_ok s = (s', Ok x) -> s' = store s "is_fitted_" (PBool true).
Proof. apply set_ok. Qed.


(* one statement of a successful run *)
Ltac one H :=
  lazymatch type of H with
  | bnd _ _ _ = (_, Ok _) => let y := fresh "y" in let H1 := fresh "H" in apply bnd_ok in H as (y & ? & H1 & H); cbv beta in H; one H1
  | lift _ _ = (_, Ok _) => let E := fresh "E" in apply lift_ok in H as [-> E]
  | ret _ _ = (_, Ok _) => let E := fresh "E" in apply ret_ok in H as [-> E]
  | get_all _ _ = (_, Ok _) => let E := fresh "Rd" in apply get_all_ok in H as [-> E]
  | get _ _ = (_, Ok _) => let E := fresh "Gt" in apply get_ok in H as [-> E]
  | fitted_ok _ = (_, Ok _) => apply fitted_ok_ok in H as ->
  | set _ _ _ = (_, Ok _) => apply set_ok in H as ->
  | fit_rho _ _ = (_, Ok _) => let v := fresh "rv" in let r := fresh "r" in let E := fresh "Rho" in let F := fresh "Flt" in apply fit_rho_ok in H as (v & r & E & F & ->)
  | fit_float _ _ _ _ = (_, Ok _) => let v := fresh "v" in let r := fresh "r" in let E := fresh "E" in let F := fresh "F" in apply fit_float_ok in H as (v & r & E & F & ->)
  | fit_cost _ _ = (_, Ok _) => let E := fresh "E" in apply fit_cost_ok in H as [-> E]
  | fit_cond _ _ = (_, Ok _) => let v := fresh "cv" in let E := fresh "Cnd" in apply fit_cond_ok in H as (v & E & ->)
  | nv_dual_var _ _ = (_, Ok _) => let v := fresh "dv" in let E := fresh "Dv" in apply nv_dual_var_ok in H as (v & -> & E)
  | pf_constraints _ _ = (_, Ok _) => let c := fresh "c" in let d := fresh "d" in apply pf_constraints_ok in H as (c & d & ->)
  | lg_encoder _ _ = (_, Ok _) => let E := fresh "Cls" in apply lg_encoder_ok in H as [E ->]
  | fit_results _ _ = (_, Ok _) => let E := fresh "Slv" in apply fit_results_ok in H as [-> E]
  | solver_is _ _ = (_, Ok _) => let v := fresh "sv" in let E := fresh "Sv" in let F := fresh "Si" in apply solver_is_ok in H as [-> (v & E & F)]
  | in_solver _ _ = (_, Ok _) => let v := fresh "st" in let E := fresh "St" in let F := fresh "Tor" in apply in_solver_ok in H as [-> (v & E & F)]
  | fail _ _ = (_, Ok _) => discriminate H
  | (if ?b then _ else _) _ = (_, Ok _) => let B := fresh "Br" in destruct b eqn:B
  end.
Ltac runs H := repeat one H.

(* which branch a successful fit took *)
Definition branch (s : attrs) (dedicated : bool) : Prop :=
  exists n, look s "solver" = Some (PStr n) /\ n <> "entropic" /\ (if dedicated then n = "dedicated" else contains "torch" n = true).

Ltac solver_names := repeat match goal with
  | H : look _ "solver" = _ |- _ => progress (cbn [puts] in H; rewrite ?look_store in H; cbn [String.eqb Ascii.eqb Bool.eqb] in H)
  end;
  repeat match goal with H : look ?s "solver" = Some ?v, K : look ?s "solver" = Some ?w |- _ => rewrite H in K; injection K as K; subst end.
Ltac names := repeat match goal with
  | H : true = match ?v with _ => _ end |- _ => destruct v; try discriminate H
  | H : true = String.eqb _ _ |- _ => symmetry in H; apply String.eqb_eq in H; subst
  | H : false = String.eqb _ _ |- _ => symmetry in H; apply String.eqb_neq in H
  | H : true = contains _ _ |- _ => symmetry in H
  end.
Ltac settle := subst; solver_names; cbv beta iota in *; try discriminate; names; try discriminate.

(* what a successful fit leaves: the assignments, in order *)
Definition results (n : nat) : list (string * pyv) :=
  [("coef_", PObj "result" n); ("intercept_", PObj "result" n); ("dual_var_", PObj "result" n); ("robust_loss_", PObj "result" n); ("coef_", PObj "parameters" n)].
Definition written (e : estimator) (x : env) (dedicated : bool) (rho : R) (r1 r2 r3 r4 : R) (c d dv cond : pyv) (icpt : bool) : list (string * pyv) :=
  let n := v_call x in
  let data := PObj "data" n in
  match e, dedicated with
  | ENewsVendor, true => [("rho", PFloat rho); ("n_features_in_", data); ("cost_", PObj "cost" n); ("coef_", PObj "result" n); ("dual_var_", PObj "result" n); ("dual_var_", dv); ("is_fitted_", PBool true)]
  | ENewsVendor, false => List.app [("rho", PFloat rho); ("n_features_in_", data); ("cost_", PObj "cost" n); ("opt_cond", cond); ("_wdro_loss", PObj "loss" n)] (List.app (results n) [("is_fitted_", PBool true)])
  | EPortfolio, b =>
      List.app [("rho", PFloat rho); ("rho_", PFloat r1); ("eta_", PFloat r2); ("alpha_", PFloat r3); ("solver_reg_", PFloat r4); ("X_", data); ("n_features_in_", data); ("cost_", PObj "cost" n); ("C_", c); ("d_", d)]
        (if b then [("coef_", PObj "result" n); ("tau_", PObj "result" n); ("dual_var_", PObj "result" n); ("result_", PObj "result" n); ("is_fitted_", PBool true)]
         else List.app [("opt_cond", cond); ("_wdro_loss", PObj "loss" n)] (List.app (results n) [("is_fitted_", PBool true)]))
  | EWeber, _ => List.app [("rho", PFloat rho); ("opt_cond", cond); ("_wdro_loss", PObj "loss" n)] (List.app (results n) [("is_fitted_", PBool true)])
  | ELinear, b =>
      List.app [("rho", PFloat rho); ("X_", data); ("y_", data); ("n_features_in_", data); ("cost_", PObj "cost" n)]
        (if b then [("coef_", PObj "result" n); ("intercept_", PObj "result" n); ("dual_var_", PObj "result" n); ("is_fitted_", PBool true)]
         else List.app [("opt_cond", cond)] (List.app (results n) [("intercept_", PObj "parameters" n); ("is_fitted_", PBool true)]))
  | ELogistic, b =>
      List.app [("rho", PFloat rho); ("classes_", PObj "labels" n); ("le_", PObj (if (v_classes x =? 2)%nat then "LabelEncoder" else "OneHotEncoder") n); ("X_", data); ("y_", data); ("n_features_in_", data); ("cost_", PObj "cost" n)]
        (if b then [("coef_", PObj "result" n); ("intercept_", PObj "result" n); ("dual_var_", PObj "result" n); ("result_", PObj "result" n); ("is_fitted_", PBool true)]
         else List.app [("opt_cond", cond); ("wdro_loss_", PObj "loss" n)] (List.app (results n) [("intercept_", if icpt then PObj "parameters" n else PNone); ("is_fitted_", PBool true)]))
  end.

Section F.
Variable rf : string -> option R.

Definition fit_facts (e : estimator) (x : env) (s : attrs) (ded icpt : bool) : Prop :=
  branch s ded /\ (e = EWeber -> ded = false) /\ (e = ELogistic -> (2 <= v_classes x)%nat /\ (ded = true -> v_classes x = 2%nat)) /\
  (e = ELogistic -> ded = false -> exists v, look s "fit_intercept" = Some v /\ icpt = truthy v) /\
  (e = ENewsVendor -> ded = true -> defined s "k" /\ defined s "u").
Ltac facts := split; [eexists; split; [eassumption|split; [try discriminate; try assumption|try reflexivity; try assumption]]|split; [try discriminate; try reflexivity|split; [try discriminate|split; [try discriminate|try discriminate]]]].
Lemma fit_writes e x s s' : fit rf e x s = (s', Ok tt) ->
  exists ded rho r1 r2 r3 r4 c d dv cond icpt, s' = puts s (written e x ded rho r1 r2 r3 r4 c d dv cond icpt) /\ fit_facts e x s ded icpt.
Proof.
  intros H. destruct e; cbn [fit] in H; unfold nv_fit, pf_fit, wb_fit, lr_fit, lg_fit in H.
  - runs H; settle; [exists false|exists true]; eexists r, 0%R, 0%R, 0%R, 0%R, PNone, PNone, _, _, false; (split; [reflexivity|facts]).
    { intros _ _. pose proof (Forall_inv Rd) as K1. pose proof (Forall_inv (Forall_inv_tail Rd)) as K2. cbn beta in K1, K2. rewrite !defined_store in K1, K2.
      split; [repeat (destruct K1 as [K1|K1]; [discriminate K1|])|repeat (destruct K2 as [K2|K2]; [discriminate K2|])]; assumption. }
    Unshelve. all: exact PNone.
  - runs H; settle; [exists true|exists false]; eexists _, _, _, _, _, _, _, _, _, false; (split; [reflexivity|facts]).
    Unshelve. all: exact PNone.
  - runs H; settle. exists false. eexists r, 0%R, 0%R, 0%R, 0%R, PNone, PNone, PNone, _, false; (split; [reflexivity|facts]).
  - runs H; settle; [exists false|exists true]; eexists r, 0%R, 0%R, 0%R, 0%R, PNone, PNone, PNone, _, false; (split; [reflexivity|facts]).
    Unshelve. all: exact PNone.
  - runs H; settle.
    + exists true. eexists r, 0%R, 0%R, 0%R, 0%R, PNone, PNone, PNone, PNone, false. split; [reflexivity|facts]. intros _. apply Nat.ltb_ge in Br1. split; [exact Cls|lia].
    + exists false. eexists r, 0%R, 0%R, 0%R, 0%R, PNone, PNone, PNone, _, _. split; [reflexivity|facts].
      * intros _. split; [exact Cls|discriminate].
      * intros _ _. cbn [puts] in Gt. rewrite !look_store in Gt. cbn in Gt. eexists. split; [exact Gt|reflexivity].
Qed.
End F.

(* ---------- constructors ---------- *)
Section I.
Variable args : string -> pyv.
Lemma look_fold l : forall s a, look (fold_left (fun s a => store s a (args a)) l s) a = if existsb (String.eqb a) l then Some (args a) else look s a.
Proof.
  induction l as [|b l IH]; intros s a; [reflexivity|]. cbn [fold_left existsb]. rewrite IH, look_store. rewrite (String.eqb_sym a b).
  destruct (String.eqb_spec b a) as [->|]; cbn [orb]; [destruct (existsb _ l); reflexivity|reflexivity].
Qed.
Lemma init_ok e s : init e args = Ok s -> init_checks e args = Ok tt /\ s = fold_left (fun s a => store s a (args a)) (init_attrs e) [].
Proof. unfold init. destruct (init_checks e args) as [[]|]; cbn; intros H; [injection H as <-; auto|discriminate]. Qed.
Lemma same_names_existsb l m a : same_names l m = true -> existsb (String.eqb a) l = existsb (String.eqb a) m.
Proof. intros H. apply eq_true_iff_eq. rewrite !existsb_eqb. apply same_names_ok. exact H. Qed.
Lemma init_signature e : same_names (init_attrs e) (signature e) = true.
Proof. destruct e; reflexivity. Qed.
Lemma look_init e s a : init e args = Ok s -> look s a = if existsb (String.eqb a) (signature e) then Some (args a) else None.
Proof. intros H. apply init_ok in H as [_ ->]. rewrite look_fold, (same_names_existsb _ _ a (init_signature e)). reflexivity. Qed.
End I.
Lemma init_checks_ext e f g : (forall a, In a (signature e) -> f a = g a) -> init_checks e f = init_checks e g.
Proof.
  intros H. unfold init_checks. rewrite (H "rho") by (destruct e; cbn; tauto). destruct e; try reflexivity.
  rewrite (H "eta"), (H "alpha"), (H "solver_reg"), (H "n_zeta_samples") by (cbn; tauto). reflexivity.
Qed.
Lemma fold_ext f g l : (forall a, In a l -> f a = g a) -> forall s, fold_left (fun s a => store s a (f a)) l s = fold_left (fun s a => store s a (g a)) l s.
Proof.
  induction l as [|a l IH]; intros H s; [reflexivity|]. cbn [fold_left]. rewrite (H a (or_introl eq_refl)). apply IH. intros b I. apply H. right. exact I.
Qed.
Lemma init_ext e f g : (forall a, In a (signature e) -> f a = g a) -> init e f = init e g.
Proof.
  intros H. unfold init. rewrite (init_checks_ext e f g H). rewrite (fold_ext f g); [reflexivity|]. intros a I. apply H. apply (same_names_ok _ _ a (init_signature e)). exact I.
Qed.

(* ---------- what any call leaves untouched ---------- *)
Section K.
Variable rf : string -> option R.
Definition kept_rho (s s' : attrs) : Prop :=
  look s' "rho" = look s "rho" \/ exists v r, look s "rho" = Some v /\ to_float rf v = Ok r /\ look s' "rho" = Some (PFloat r).
Definition kept_cond (n : nat) (s s' : attrs) : Prop :=
  look s' "opt_cond" = look s "opt_cond" \/ (look s "opt_cond" = Some PNone /\ look s' "opt_cond" = Some (PObj "condition" n)).
Definition kept (e : estimator) (n : nat) (s s' : attrs) : Prop :=
  (forall a, In a (signature e) -> a <> "rho" -> a <> "opt_cond" -> look s' a = look s a) /\ kept_rho s s' /\ kept_cond n s s'.
Lemma kept_refl e n s : kept e n s s.
Proof. repeat split; auto; left; reflexivity. Qed.
Lemma kept_trans e n s t u : kept e n s t -> kept e n t u -> kept e n s u.
Proof.
  intros (A & B & C) (A' & B' & C'). split; [|split].
  - intros a I N1 N2. rewrite (A' a I N1 N2). exact (A a I N1 N2).
  - destruct B' as [B'|(v' & r' & L' & F' & B')].
    + destruct B as [B|(v & r & L & F & B)]; [left; congruence|right; exists v, r; repeat split; congruence].
    + destruct B as [B|(v & r & L & F & B)]; [right; exists v', r'; repeat split; congruence|]. right. exists v, r. repeat split; [exact L|exact F|].
      rewrite B in L'. injection L' as <-. injection F' as <-. exact B'.
  - destruct C' as [C'|[L' C']]; destruct C as [C|[L C]]; unfold kept_cond; [left|right|right|]; try split; congruence.
Qed.
Definition frame {A} (e : estimator) (n : nat) (m : M A) : Prop := forall s, kept e n s (fst (m s)).
Lemma frame_bnd {A B} e n (m : M A) (k : A -> M B) : frame e n m -> (forall y, frame e n (k y)) -> frame e n (bnd m k).
Proof. intros H K s. unfold bnd. specialize (H s). destruct (m s) as [s1 [y|ex]]; [|exact H]. exact (kept_trans _ _ _ _ _ H (K y s1)). Qed.
Lemma frame_same {A} e n (m : M A) : (forall s, fst (m s) = s) -> frame e n m.
Proof. intros H s. rewrite H. apply kept_refl. Qed.
Lemma frame_set e n a v : existsb (String.eqb a) (signature e) = false -> frame e n (set a v).
Proof.
  intros H s. cbn [set fst].
  assert (N : forall b, In b (signature e) -> look (store s a v) b = look s b).
  { intros b I. rewrite look_store. destruct (String.eqb_spec a b) as [->|]; [|reflexivity]. apply existsb_eqb in I. congruence. }
  split; [intros b I _ _; exact (N b I)|]. split; left; apply N; destruct e; cbn; tauto.
Qed.
Lemma get_state a s : fst (get a s) = s.
Proof. reflexivity. Qed.
Lemma get_all_state l : forall s, fst (get_all l s) = s.
Proof.
  induction l as [|a l IH]; intros s; [reflexivity|]. cbn [get_all]. unfold bnd, get. destruct (look s a); [apply IH|reflexivity].
Qed.
Lemma frame_rho e n : frame e n (fit_rho rf).
Proof.
  intros s. unfold fit_rho, bnd, get. destruct (look s "rho") as [v|] eqn:L; [|apply kept_refl]. destruct (to_float rf v) as [r|] eqn:F; [|apply kept_refl].
  cbn [set fst]. split; [|split].
  - intros a I N1 N2. rewrite look_store. destruct (String.eqb_spec "rho" a) as [E|]; [congruence|reflexivity].
  - right. exists v, r. rewrite look_store. auto.
  - left. rewrite look_store. reflexivity.
Qed.
Lemma frame_cond e x : frame e (v_call x) (fit_cond x).
Proof.
  intros s. unfold fit_cond, bnd, get. destruct (look s "opt_cond") as [v|] eqn:L; [|apply kept_refl]. destruct v; try apply kept_refl.
  cbn [is_none set fst]. split; [|split].
  - intros a I N1 N2. rewrite look_store. destruct (String.eqb_spec "opt_cond" a) as [E|]; [congruence|reflexivity].
  - left. rewrite look_store. reflexivity.
  - right. rewrite look_store. auto.
Qed.
Ltac framing := repeat first
  [ apply frame_rho | apply frame_cond | apply frame_set; reflexivity
  | apply frame_same; intros ?; first [reflexivity | apply get_all_state]
  | apply frame_bnd; [|intros ?]
  | match goal with |- frame _ _ (if ?b then _ else _) => destruct b end ].
Lemma frame_fit e x : frame e (v_call x) (fit rf e x).
Proof.
  destruct e; cbn [fit]; unfold nv_fit, pf_fit, wb_fit, lr_fit, lg_fit, fit_cost, fit_float, nv_dual_var, pf_constraints, lg_encoder, fit_results, fitted_ok, solver_is, in_solver;
  framing.
  all: match goal with |- frame _ _ (match ?v with _ => _ end) => destruct v end; framing.
Qed.

(* is_fitted_ is written last *)
Definition quiet {A} (m : M A) : Prop := forall s, look (fst (m s)) "is_fitted_" = look s "is_fitted_".
Definition onraise {A} (m : M A) : Prop := forall s s' ex, m s = (s', Raise ex) -> look s' "is_fitted_" = look s "is_fitted_".
Lemma quiet_bnd {A B} (m : M A) (k : A -> M B) : quiet m -> (forall y, quiet (k y)) -> quiet (bnd m k).
Proof. intros H K s. unfold bnd. specialize (H s). destruct (m s) as [s1 [y|ex]]; [|exact H]. rewrite (K y s1). exact H. Qed.
Lemma quiet_same {A} (m : M A) : (forall s, fst (m s) = s) -> quiet m.
Proof. intros H s. rewrite H. reflexivity. Qed.
Lemma quiet_set a v : String.eqb a "is_fitted_" = false -> quiet (set a v).
Proof. intros H s. cbn [set fst]. rewrite look_store, H. reflexivity. Qed.
Lemma onraise_bnd {A B} (m : M A) (k : A -> M B) : quiet m -> (forall y, onraise (k y)) -> onraise (bnd m k).
Proof.
  intros H K s s' ex E. unfold bnd in E. specialize (H s). destruct (m s) as [s1 [y|ex1]]; [|injection E as <- _; exact H]. rewrite (K y s1 s' ex E). exact H.
Qed.
Lemma onraise_fitted : onraise fitted_ok.
Proof. intros s s' ex E. discriminate. Qed.
Lemma onraise_fail {A} ex : onraise (@fail A ex).
Proof. intros s s' ex' E. injection E as <- _. reflexivity. Qed.
Ltac quieting := repeat first
  [ apply quiet_set; reflexivity
  | apply quiet_same; intros ?; first [reflexivity | apply get_all_state]
  | apply quiet_bnd; [|intros ?]
  | match goal with |- quiet (if ?b then _ else _) => destruct b end
  | match goal with |- quiet (match ?v with _ => _ end) => destruct v end ].
Lemma onraise_fit e x : onraise (fit rf e x).
Proof.
  destruct e; cbn [fit]; unfold nv_fit, pf_fit, wb_fit, lr_fit, lg_fit, fit_rho, fit_cond, fit_cost, fit_float, nv_dual_var, pf_constraints, lg_encoder, fit_results, solver_is, in_solver.
  all: repeat first
  [ apply onraise_fitted | apply onraise_fail
  | apply onraise_bnd; [solve [quieting]|intros ?]
  | match goal with |- onraise (if ?b then _ else _) => destruct b end ].
Qed.
End K.

(* ---------- answers ---------- *)
Lemma bnd_state {A B} (m : M A) (k : A -> M B) : (forall s, fst (m s) = s) -> (forall y s, fst (k y s) = s) -> forall s, fst (bnd m k s) = s.
Proof. intros H K s. unfold bnd. specialize (H s). destruct (m s) as [s1 [y|ex]]; [|exact H]. cbn in H. subst. apply K. Qed.
Lemma reading_state l : forall s, fst (reading l s) = s.
Proof.
  induction l as [|a l IH]; intros s; [reflexivity|]. cbn [reading fold_right]. apply bnd_state; [reflexivity|]. intros v s1. apply bnd_state; [exact IH|reflexivity].
Qed.
Lemma answer_state e two data : forall s, fst (answer e two data s) = s.
Proof.
  destruct e; cbn [answer]; unfold or_eval_attrs, lr_predict_attrs, lg_predict_attrs, lg_proba2_attrs, lg_proba_attrs, in_solver, solver_is;
  repeat first [ apply reading_state | apply get_all_state | apply bnd_state; [|intros ?] | reflexivity
               | match goal with |- forall s, fst ((if ?b then _ else _) s) = s => destruct b end
               | match goal with |- forall s, fst ((match ?v with _ => _ end) s) = s => destruct v end ].
Qed.
