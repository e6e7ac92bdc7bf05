From Coq Require Import Reals List Bool String Lra Lia.
From Verif Require Import PyBase RList XReal HybridOpt_Model HybridOpt_Spec.
Import ListNotations.
Open Scope R_scope.

(* ---- lists ---- *)
Lemma F2_nth {A B} (R : A -> B -> Prop) l m i a : Forall2 R l m -> nth_error l i = Some a -> exists b, nth_error m i = Some b /\ R a b.
Proof.
  intros H. revert i. induction H as [|x y l m Hxy H IH]; intros i Hi; [destruct i; discriminate|].
  destruct i; simpl in *; [injection Hi as <-; eauto|apply IH, Hi].
Qed.
Lemma F2_comp {A B C} (P : A -> B -> Prop) (Q : B -> C -> Prop) l m n :
  Forall2 P l m -> Forall2 Q m n -> Forall2 (fun a c => exists b, P a b /\ Q b c) l n.
Proof. intros H. revert n. induction H; intros n H'; inversion H'; subst; constructor; eauto. Qed.
Lemma F2_impl {A B} (P Q : A -> B -> Prop) l m : (forall a b, P a b -> Q a b) -> Forall2 P l m -> Forall2 Q l m.
Proof. intros H K. induction K; constructor; auto. Qed.
Lemma F2_map_r {A B} (f : A -> B) l : Forall2 (fun a b => b = f a) l (map f l).
Proof. induction l; constructor; auto. Qed.
Lemma F2_and_l {A B} (P : A -> Prop) (Q : A -> B -> Prop) l m : Forall P l -> Forall2 Q l m -> Forall2 (fun a b => P a /\ Q a b) l m.
Proof. intros H K. induction K; inversion H; subst; constructor; auto. Qed.
Lemma F2_right {A B} (P : B -> Prop) (Q : A -> B -> Prop) l m : (forall a b, Q a b -> P b) -> Forall2 Q l m -> Forall P m.
Proof. intros H K. induction K; constructor; eauto. Qed.
Lemma F2_map_eq {A B C} (f : A -> C) (g : B -> C) l m : Forall2 (fun a b => g b = f a) l m -> map g m = map f l.
Proof. intros H. induction H; simpl; congruence. Qed.

(* ---- rules ---- *)
Lemma mem_In k l : existsb (String.eqb k) l = true <-> In k l.
Proof.
  rewrite existsb_exists. split; [intros (x & H & E); apply String.eqb_eq in E as ->; exact H|]. intros H. exists k. split; [exact H|apply String.eqb_refl].
Qed.
Lemma mem_only k k' g : only k g -> In k' rule_names -> existsb (String.eqb k') (g_keys g) = String.eqb k' k.
Proof.
  intros (H1 & H2 & H3) H. destruct (String.eqb_spec k' k) as [->|Hn]; [apply mem_In; exact H2|].
  destruct (existsb (String.eqb k') (g_keys g)) eqn:E; [|reflexivity]. apply mem_In in E. exfalso. apply Hn, H3; assumption.
Qed.
Lemma mem_none k g : no_rule g -> In k rule_names -> existsb (String.eqb k) (g_keys g) = false.
Proof.
  intros H Hk. destruct (existsb (String.eqb k) (g_keys g)) eqn:E; [|reflexivity]. apply mem_In in E. exfalso. exact (H k Hk E).
Qed.
Ltac in_names := simpl; tauto.

Lemma inter_none g : no_rule g -> intersection PRERULES g = [] /\ intersection POSTRULES g = [].
Proof.
  intros H. unfold intersection, PRERULES, POSTRULES. cbn [filter fst].
  rewrite !(mem_none _ g H) by in_names. auto.
Qed.
Lemma inter_only k g : only k g ->
  intersection PRERULES g = filter (fun kr => String.eqb (fst kr) k) PRERULES /\
  intersection POSTRULES g = filter (fun kr => String.eqb (fst kr) k) POSTRULES.
Proof.
  intros H. unfold intersection, PRERULES, POSTRULES. cbn [filter fst].
  rewrite !(mem_only k _ g H) by in_names. auto.
Qed.

Lemma apply_params_ok r ps ps' : apply_params r ps = (ps', None) -> Forall2 (fun p p' => r p = (p', None)) ps ps'.
Proof.
  revert ps'. induction ps as [|p ps IH]; intros ps' H; simpl in H.
  - injection H as <-. constructor.
  - destruct (r p) as [p' [e|]] eqn:E; [discriminate|]. destruct (apply_params r ps) as [rest x]. injection H as <- ->. constructor; auto.
Qed.
Lemma apply_params_conv r ps ps' : Forall2 (fun p p' => r p = (p', None)) ps ps' -> apply_params r ps = (ps', None).
Proof. intros H. induction H as [|p p' ps ps' H1 H2 IH]; simpl; [reflexivity|]. rewrite H1, IH. reflexivity. Qed.

Definition rules_ok (rules : list (string * rule)) (g g' : group) : Prop :=
  (intersection rules g = [] /\ g' = g) \/
  exists k r ps, intersection rules g = [(k, r)] /\ Forall2 (fun p p' => r p = (p', None)) (g_params g) ps /\ g' = with_params g ps.

Lemma apply_rules_ok rules gs gs' : apply_rules rules gs = (gs', None) <-> Forall2 (rules_ok rules) gs gs'.
Proof.
  split.
  - revert gs'. induction gs as [|g gs IH]; intros gs' H; simpl in H.
    + injection H as <-. constructor.
    + destruct (intersection rules g) as [|[k r] [|? ?]] eqn:Ei.
      * destruct (apply_rules rules gs) as [rest x]. injection H as <- ->. constructor; [left; auto|auto].
      * destruct (apply_params r (g_params g)) as [ps [e|]] eqn:Ep; [discriminate|]. destruct (apply_rules rules gs) as [rest x].
        injection H as <- ->. constructor; [|auto]. right. exists k, r, ps. split; [exact Ei|]. split; [apply apply_params_ok, Ep|reflexivity].
      * discriminate.
  - intros H. induction H as [|g g' gs gs' Hg H IH]; simpl; [reflexivity|].
    destruct Hg as [[Ei ->]|(k & r & ps & Ei & Hp & ->)]; rewrite Ei, IH; [reflexivity|]. rewrite (apply_params_conv _ _ _ Hp). reflexivity.
Qed.

Lemma rules_ok_keys rules g g' : rules_ok rules g g' -> g_keys g' = g_keys g /\ g_lr g' = g_lr g.
Proof. intros [[_ ->]|(k & r & ps & _ & _ & ->)]; auto. Qed.

(* a successful step, group by group *)
Lemma hstep_ok inner gs gs' : hstep inner gs = (gs', None) ->
  exists g1 g2, Forall2 (rules_ok PRERULES) gs g1 /\ inner g1 = (g2, None) /\ Forall2 (rules_ok POSTRULES) g2 gs'.
Proof.
  unfold hstep. destruct (apply_rules PRERULES gs) as [g1 [e|]] eqn:E1; [discriminate|].
  destruct (inner g1) as [g2 [e|]] eqn:E2; [discriminate|]. intros E3. exists g1, g2.
  split; [apply apply_rules_ok, E1|]. split; [exact E2|apply apply_rules_ok, E3].
Qed.

Lemma only_keys k g g' : only k g -> g_keys g' = g_keys g -> only k g'.
Proof. unfold only. intros H E. rewrite E. exact H. Qed.
Lemma no_rule_keys g g' : no_rule g -> g_keys g' = g_keys g -> no_rule g'.
Proof. unfold no_rule. intros H E. rewrite E. exact H. Qed.

(* with plain gradient descent inside *)
Definition sgd_group (g : group) : group := with_params g (map (sgd_par (g_lr g)) (g_params g)).
Lemma hstep_sgd gs gs' : hstep sgd gs = (gs', None) ->
  Forall2 (fun g g' => exists g1, rules_ok PRERULES g g1 /\ rules_ok POSTRULES (sgd_group g1) g') gs gs'.
Proof.
  intros H. apply hstep_ok in H as (g1 & g2 & H1 & H2 & H3). unfold sgd in H2. injection H2 as <-.
  eapply F2_impl; [|exact (F2_comp _ _ _ _ _ (F2_comp _ _ _ _ _ H1 (F2_map_r sgd_group g1)) H3)].
  intros a c (b & (b1 & K1 & ->) & K2). eauto.
Qed.

Lemma val_sgd lr p : val (sgd_par lr p) = descent lr p.
Proof. unfold sgd_par, descent. destruct (grad p); reflexivity. Qed.

Lemma F2_map_l {A B C} (f : A -> B) (P : B -> C -> Prop) l m : Forall2 P (map f l) m <-> Forall2 (fun a c => P (f a) c) l m.
Proof.
  split; revert m; induction l as [|a l IH]; intros m H; simpl in *; inversion H; subst; constructor; auto.
Qed.

(* the pre and post rules of a group with one rule, and gradient descent between them *)
Lemma group_step k pre post g g' :
  only k g -> filter (fun kr => String.eqb (fst kr) k) PRERULES = [(k, pre)] -> filter (fun kr => String.eqb (fst kr) k) POSTRULES = [(k, post)] ->
  (exists g1, rules_ok PRERULES g g1 /\ rules_ok POSTRULES (sgd_group g1) g') ->
  Forall2 (fun p p' => exists q, pre p = (q, None) /\ post (sgd_par (g_lr g) q) = (p', None)) (g_params g) (g_params g').
Proof.
  intros Ho E1 E2 (g1 & H1 & H2). destruct (inter_only k g Ho) as [I1 _].
  destruct (rules_ok_keys _ _ _ H1) as [K1 K2].
  destruct (inter_only k (sgd_group g1)) as [_ I2]; [apply (only_keys k g); [exact Ho|exact K1]|].
  destruct H1 as [[H1 _]|(k1 & r1 & ps & H1 & F1 & ->)]; [congruence|].
  destruct H2 as [[H2 _]|(k2 & r2 & ps2 & H2 & F2 & ->)]; [congruence|].
  rewrite I1, E1 in H1. injection H1 as <- <-. rewrite I2, E2 in H2. injection H2 as <- <-. simpl in *.
  apply F2_map_l in F2. exact (F2_comp _ _ _ _ _ F1 F2).
Qed.

Lemma Rltb_all v : forallb (fun x => Rltb 0 x) v = true <-> Forall (fun x => 0 < x) v.
Proof.
  induction v as [|x v IH]; simpl; [split; auto|]. rewrite andb_true_iff, IH. split.
  - intros [H1 H2]. constructor; [apply Rltb_true; exact H1|exact H2].
  - intros H. inversion H; subst. split; [apply Rltb_true; assumption|assumption].
Qed.
Lemma pre_mwu_ok p q : pre_mwu p = (q, None) -> positive p /\ val q = map ln (val p) /\ grad q = grad p.
Proof.
  unfold pre_mwu. destruct (forallb _ (val p)) eqn:E; [|discriminate]. intros H. injection H as <-. apply Rltb_all in E. auto.
Qed.

Lemma exp_descent lr p q : positive p -> val q = map ln (val p) -> grad q = grad p -> map exp (descent lr q) = mw lr p.
Proof.
  intros Hp Hv Hg. unfold descent, mw. rewrite Hg, Hv. destruct (grad p) as [d|].
  - rewrite map2_map_l, map_map2. unfold positive in Hp. clear Hg Hv. revert d. induction (val p) as [|x v IH]; intros d; [reflexivity|].
    inversion Hp; subst. destruct d as [|y d]; simpl; [reflexivity|]. rewrite IH by assumption. f_equal.
    unfold Rminus. rewrite exp_plus, exp_ln by assumption. f_equal. f_equal. ring.
  - unfold positive in Hp. clear Hg Hv. induction Hp; simpl; [reflexivity|]. rewrite exp_ln by assumption. f_equal. assumption.
Qed.
Lemma mw_positive lr p : positive p -> Forall (fun x => 0 < x) (mw lr p).
Proof.
  unfold mw, positive. intros H. destruct (grad p) as [d|]; [|exact H]. revert d. induction H; intros d; [constructor|].
  destruct d; simpl; constructor; auto. apply Rmult_lt_0_compat; [assumption|apply exp_pos].
Qed.
Lemma exp_positive v : Forall (fun x => 0 < x) (map exp v).
Proof. induction v; constructor; auto. apply exp_pos. Qed.

Lemma mwu_step gs gs' i g : hstep sgd gs = (gs', None) -> nth_error gs i = Some g -> only "mwu" g ->
  exists g', nth_error gs' i = Some g' /\ Forall2 (fun p p' => positive p /\ val p' = mw (g_lr g) p /\ positive p') (g_params g) (g_params g').
Proof.
  intros H Hi Ho. apply hstep_sgd in H. destruct (F2_nth _ _ _ _ _ H Hi) as (g' & H1 & H2). exists g'. split; [exact H1|].
  apply (group_step "mwu" pre_mwu post_mwu) in H2; [|exact Ho|reflexivity|reflexivity]. eapply F2_impl; [|exact H2].
  intros p p' (q & Hq & Hp). apply pre_mwu_ok in Hq as (K1 & K2 & K3). unfold post_mwu in Hp. injection Hp as <-. cbn [upd val].
  rewrite val_sgd, (exp_descent _ p) by assumption. split; [exact K1|]. split; [reflexivity|]. unfold positive. cbn [upd val].
  rewrite val_sgd, (exp_descent _ p) by assumption. apply mw_positive, K1.
Qed.

Lemma normalised_spec v : Forall (fun x => 0 < x) v -> v <> [] -> Forall (fun x => 0 < x) (normalised v) /\ rsum (normalised v) = 1.
Proof.
  intros H Hn. pose proof (rsum_pos v Hn H) as Hs. split.
  - unfold normalised. apply Forall_forall. intros y Hy. apply in_map_iff in Hy as (x & <- & Hx). rewrite Forall_forall in H. apply Rdiv_lt_0_compat; auto.
  - unfold normalised. rewrite (map_ext _ (fun x => / rsum v * x)) by (intros; unfold Rdiv; ring). rewrite rsum_scal. field. lra.
Qed.

Lemma simplex_step gs gs' i g : hstep sgd gs = (gs', None) -> nth_error gs i = Some g -> only "mwu_simplex" g ->
  exists g', nth_error gs' i = Some g' /\ Forall2 (fun p p' => positive p /\ val p' = normalised (mw (g_lr g) p)) (g_params g) (g_params g').
Proof.
  intros H Hi Ho. apply hstep_sgd in H. destruct (F2_nth _ _ _ _ _ H Hi) as (g' & H1 & H2). exists g'. split; [exact H1|].
  apply (group_step "mwu_simplex" pre_mwu post_simplex) in H2; [|exact Ho|reflexivity|reflexivity]. eapply F2_impl; [|exact H2].
  intros p p' (q & Hq & Hp). apply pre_mwu_ok in Hq as (K1 & K2 & K3). unfold post_simplex in Hp. injection Hp as <-. cbn [upd val].
  cbv zeta. rewrite val_sgd, (exp_descent _ p) by assumption. auto.
Qed.

Lemma max_step gs gs' i g : hstep sgd gs = (gs', None) -> nth_error gs i = Some g -> only "max" g ->
  exists g', nth_error gs' i = Some g' /\ Forall2 (fun p p' => val p' = ascent (g_lr g) p) (g_params g) (g_params g').
Proof.
  intros H Hi Ho. apply hstep_sgd in H. destruct (F2_nth _ _ _ _ _ H Hi) as (g' & H1 & H2). exists g'. split; [exact H1|].
  apply (group_step "max" rule_max rule_max) in H2; [|exact Ho|reflexivity|reflexivity]. eapply F2_impl; [|exact H2].
  intros p p' (q & Hq & Hp). unfold rule_max in *. injection Hq as <-. injection Hp as <-. cbn [upd val]. rewrite val_sgd.
  unfold descent, ascent. cbn [upd val grad]. destruct (grad p) as [d|].
  - rewrite map2_map_l, map_map2. apply map2_ext. intros; ring.
  - rewrite map_map. rewrite <- (map_id (val p)) at 2. apply map_ext. intros; ring.
Qed.

Lemma clip_bounds x : - BOUND <= clip x <= BOUND /\ (- BOUND <= x <= BOUND -> clip x = x).
Proof.
  unfold clip, BOUND. split.
  - split; [apply Rmin_glb; [lra|apply Rmax_l]|apply Rmin_l].
  - intros H. rewrite Rmax_right by lra. apply Rmin_right. lra.
Qed.

Lemma bound_step gs gs' i g : hstep sgd gs = (gs', None) -> nth_error gs i = Some g -> only "bound" g ->
  exists g', nth_error gs' i = Some g' /\
    Forall2 (fun p p' => exists d, grad p = Some d /\ val p' = map2 (fun x y => x - g_lr g * clip y) (val p) d) (g_params g) (g_params g').
Proof.
  intros H Hi Ho. apply hstep_sgd in H. destruct (F2_nth _ _ _ _ _ H Hi) as (g' & H1 & (g1 & H2 & H3)). exists g'. split; [exact H1|].
  destruct (inter_only _ g Ho) as [I1 _]. destruct (rules_ok_keys _ _ _ H2) as [K1 K2].
  destruct (inter_only "bound" (sgd_group g1)) as [_ I2]; [apply (only_keys _ g); [exact Ho|exact K1]|].
  destruct H2 as [[H2 _]|(k1 & r1 & ps & H2 & F1 & ->)]; [rewrite I1 in H2; discriminate|].
  destruct H3 as [[_ ->]|(k2 & r2 & ps2 & H3 & _)]; [|rewrite I2 in H3; discriminate].
  rewrite I1 in H2. injection H2 as <- <-. simpl. rewrite <- (map_id (g_params g)) at 1.
  clear -F1. rewrite map_id. induction F1 as [|p q l m Hp F IH]; simpl; constructor; auto.
  unfold pre_bound in Hp. destruct (grad p) as [d|]; [|discriminate]. injection Hp as <-. exists d. split; [reflexivity|].
  unfold sgd_par. simpl. rewrite map2_map_r. reflexivity.
Qed.

Lemma free_step gs gs' i g : hstep sgd gs = (gs', None) -> nth_error gs i = Some g -> no_rule g ->
  nth_error gs' i = Some (sgd_group g).
Proof.
  intros H Hi Ho. apply hstep_sgd in H. destruct (F2_nth _ _ _ _ _ H Hi) as (g' & H1 & (g1 & H2 & H3)).
  destruct (inter_none g Ho) as [I1 _]. 
  destruct H2 as [[_ ->]|(k1 & r1 & ps & H2 & _)]; [|rewrite I1 in H2; discriminate].
  destruct (inter_none (sgd_group g)) as [_ I2]; [apply (no_rule_keys g); [exact Ho|reflexivity]|].
  destruct H3 as [[_ ->]|(k2 & r2 & ps2 & H3 & _)]; [|rewrite I2 in H3; discriminate]. exact H1.
Qed.

(* ---- any inner optimiser ---- *)
Lemma hstep_keys inner gs gs' : keeps_groups inner -> hstep inner gs = (gs', None) ->
  exists g2, Forall2 (fun g g' => g_keys g' = g_keys g) gs g2 /\ Forall2 (rules_ok POSTRULES) g2 gs'.
Proof.
  intros Hi H. apply hstep_ok in H as (g1 & g2 & H1 & H2 & H3). exists g2. split; [|exact H3].
  specialize (Hi g1). rewrite H2 in Hi. simpl in Hi. eapply F2_impl; [|exact (F2_comp _ _ _ _ _ H1 Hi)].
  intros a c (b & K1 & K2 & _). apply rules_ok_keys in K1 as [K1 _]. congruence.
Qed.

Lemma post_group inner k post gs gs' i g :
  filter (fun kr => String.eqb (fst kr) k) POSTRULES = [(k, post)] ->
  keeps_groups inner -> hstep inner gs = (gs', None) -> nth_error gs i = Some g -> only k g ->
  exists g', nth_error gs' i = Some g' /\ Forall (fun p' => exists q, post q = (p', None)) (g_params g').
Proof.
  intros E Hk H Hi Ho. apply hstep_keys in H as (g2 & H1 & H2); [|exact Hk].
  destruct (F2_nth _ _ _ _ _ (F2_comp _ _ _ _ _ H1 H2) Hi) as (g' & Hi' & (b & K1 & K2)). exists g'. split; [exact Hi'|].
  destruct (inter_only k b) as [_ I2]; [apply (only_keys k g); assumption|]. rewrite E in I2.
  destruct K2 as [[K2 _]|(k2 & r & ps & K2 & F & ->)]; [congruence|]. rewrite I2 in K2. injection K2 as <- <-. simpl.
  eapply F2_right; [|exact F]. intros a b' Hab. exists a. exact Hab.
Qed.

Lemma mwu_positive inner gs gs' i g : keeps_groups inner -> hstep inner gs = (gs', None) -> nth_error gs i = Some g -> only "mwu" g ->
  exists g', nth_error gs' i = Some g' /\ Forall positive (g_params g').
Proof.
  intros. destruct (post_group inner "mwu" post_mwu gs gs' i g) as (g' & H3 & H4); try assumption; [reflexivity|]. exists g'. split; [exact H3|].
  eapply Forall_impl; [|exact H4]. intros p (q & Hq). unfold post_mwu in Hq. injection Hq as <-. apply exp_positive.
Qed.
Lemma simplex_spec inner gs gs' i g : keeps_groups inner -> hstep inner gs = (gs', None) -> nth_error gs i = Some g -> only "mwu_simplex" g ->
  exists g', nth_error gs' i = Some g' /\ Forall (fun p => positive p /\ (val p <> [] -> rsum (val p) = 1)) (g_params g').
Proof.
  intros. destruct (post_group inner "mwu_simplex" post_simplex gs gs' i g) as (g' & H3 & H4); try assumption; [reflexivity|]. exists g'. split; [exact H3|].
  eapply Forall_impl; [|exact H4]. intros p (q & Hq). unfold post_simplex in Hq. injection Hq as <-. unfold positive. cbn [upd val]. cbv zeta.
  change (map (fun x => x / rsum (map exp (val q))) (map exp (val q))) with (normalised (map exp (val q))).
  destruct (val q) as [|x v]; [split; [constructor|contradiction]|].
  destruct (normalised_spec (map exp (x :: v))) as [K1 K2]; [apply exp_positive|discriminate|]. auto.
Qed.
Lemma non_neg_spec inner gs gs' i g : keeps_groups inner -> hstep inner gs = (gs', None) -> nth_error gs i = Some g -> only "non_neg" g ->
  exists g', nth_error gs' i = Some g' /\ Forall (fun p => Forall (fun x => 0 <= x) (val p)) (g_params g').
Proof.
  intros. destruct (post_group inner "non_neg" post_non_neg gs gs' i g) as (g' & H3 & H4); try assumption; [reflexivity|]. exists g'. split; [exact H3|].
  eapply Forall_impl; [|exact H4]. intros p (q & Hq). unfold post_non_neg in Hq. injection Hq as <-. cbn [upd val].
  apply Forall_forall. intros y Hy. apply in_map_iff in Hy as (x & <- & _). apply Rmax_l.
Qed.
Lemma rules_ok_id rules gs : Forall (fun g => intersection rules g = []) gs -> apply_rules rules gs = (gs, None).
Proof. intros H. apply apply_rules_ok. induction H; constructor; auto. left. auto. Qed.
Lemma rules_free inner gs : keeps_groups inner -> Forall no_rule gs -> hstep inner gs = inner gs.
Proof.
  intros Hk H. unfold hstep. rewrite rules_ok_id by (eapply Forall_impl; [|exact H]; intros g Hg; apply (inter_none g Hg)).
  specialize (Hk gs). destruct (inner gs) as [g2 [e|]]; [reflexivity|]. apply rules_ok_id. simpl in Hk.
  eapply F2_right; [|exact (F2_and_l _ _ _ _ H Hk)]. intros a b (K1 & K2 & _). apply (inter_none b). apply (no_rule_keys a); assumption.
Qed.

(* non_neg: gradient descent then projection *)
Lemma non_neg_step gs gs' i g : hstep sgd gs = (gs', None) -> nth_error gs i = Some g -> only "non_neg" g ->
  exists g', nth_error gs' i = Some g' /\ Forall2 (fun p p' => val p' = map (Rmax 0) (descent (g_lr g) p)) (g_params g) (g_params g').
Proof.
  intros H Hi Ho. apply hstep_sgd in H. destruct (F2_nth _ _ _ _ _ H Hi) as (g' & H1 & (g1 & H2 & H3)). exists g'. split; [exact H1|].
  destruct (inter_only _ g Ho) as [I1 _].
  destruct H2 as [[_ ->]|(k1 & r1 & ps & H2 & _)]; [|rewrite I1 in H2; discriminate].
  destruct (inter_only "non_neg" (sgd_group g)) as [_ I2]; [apply (only_keys _ g); [exact Ho|reflexivity]|].
  destruct H3 as [[H3 _]|(k2 & r2 & ps2 & H3 & F & ->)]; [rewrite I2 in H3; discriminate|]. rewrite I2 in H3. injection H3 as <- <-. simpl in *.
  apply F2_map_l in F. eapply F2_impl; [|exact F]. intros p p' Hp. unfold post_non_neg in Hp. injection Hp as <-. cbn [upd val]. rewrite val_sgd. reflexivity.
Qed.

(* ---- histories ---- *)
Lemma map2_keys (gs : list group) new : List.length new = List.length gs -> map g_keys (set_grads new gs) = map g_keys gs.
Proof. unfold set_grads. revert new. induction gs as [|g gs IH]; intros [|d new] H; simpl in *; try discriminate; [reflexivity|]. f_equal. apply IH. lia. Qed.

Definition weights (g : group) : Prop := only "mwu" g \/ only "mwu_simplex" g.
Definition good (g : group) : Prop :=
  (weights g /\ Forall positive (g_params g)) \/ no_rule g \/ only "max" g \/ only "non_neg" g.

Lemma good_set d g : good g -> good (with_params g (map2 (fun p d => {| val := val p; grad := d |}) (g_params g) d)).
Proof.
  intros [[H1 H2]|[H|[H|H]]]; [left|right; left|right; right; left|right; right; right]; try exact H. split; [exact H1|]. simpl.
  clear H1. revert d. induction H2; intros d; [constructor|]. destruct d; simpl; constructor; auto.
Qed.
Lemma good_set_all gs new : Forall good gs -> Forall good (set_grads new gs).
Proof. unfold set_grads. intros H. revert new. induction H; intros new; [constructor|]. destruct new; simpl; constructor; auto. apply good_set. assumption. Qed.

Lemma total_rule (r : rule) (f : par -> par) ps : (forall p, r p = (f p, None)) -> Forall2 (fun p p' => r p = (p', None)) ps (map f ps).
Proof. intros H. induction ps; constructor; auto. Qed.

Lemma pos_set ps : Forall positive ps -> exists qs, Forall2 (fun p p' => pre_mwu p = (p', None)) ps qs.
Proof.
  intros H. induction H as [|p ps Hp H (qs & IH)]; [exists []; constructor|]. exists (upd (map ln) p :: qs). constructor; [|exact IH].
  unfold pre_mwu. apply Rltb_all in Hp. rewrite Hp. reflexivity.
Qed.

Lemma good_step g : good g -> exists g1 g', rules_ok PRERULES g g1 /\ rules_ok POSTRULES (sgd_group g1) g' /\ good g' /\ g_keys g' = g_keys g.
Proof.
  assert (K : forall k pre post, only k g -> (exists ps, Forall2 (fun p p' => pre p = (p', None)) (g_params g) ps) ->
    filter (fun kr => String.eqb (fst kr) k) PRERULES = [(k, pre)] -> filter (fun kr => String.eqb (fst kr) k) POSTRULES = [(k, post)] ->
    forall f, (forall p, post p = (f p, None)) ->
    exists g1, rules_ok PRERULES g g1 /\ rules_ok POSTRULES (sgd_group g1) (with_params (sgd_group g1) (map f (g_params (sgd_group g1)))) /\ g_keys g1 = g_keys g).
  { intros k pre post Ho (ps & Hps) E1 E2 f Hf. exists (with_params g ps). destruct (inter_only k g Ho) as [I1 I2].
    split; [right; exists k, pre, ps; rewrite I1; auto|]. split; [|reflexivity].
    right. exists k, post, (map f (g_params (sgd_group (with_params g ps)))). split; [|split; [apply total_rule; exact Hf|reflexivity]].
    destruct (inter_only k (sgd_group (with_params g ps)) Ho) as [_ ->]. exact E2. }
  intros [[Hw Hp]|[H|[H|H]]].
  - pose proof (pos_set _ Hp) as (qs & Hqs). destruct Hw as [Ho|Ho].
    + destruct (K "mwu"%string pre_mwu post_mwu Ho (ex_intro _ qs Hqs) eq_refl eq_refl _ (fun p => eq_refl)) as (g1 & K1 & K2 & K3).
      eexists g1, _. split; [exact K1|]. split; [exact K2|]. split; [|exact K3]. left. split; [left; apply (only_keys _ g); assumption|]. cbn [with_params g_params].
      apply Forall_forall. intros p' Hin. apply in_map_iff in Hin as (q & <- & _). apply exp_positive.
    + destruct (K "mwu_simplex"%string pre_mwu post_simplex Ho (ex_intro _ qs Hqs) eq_refl eq_refl _ (fun p => eq_refl)) as (g1 & K1 & K2 & K3).
      eexists g1, _. split; [exact K1|]. split; [exact K2|]. split; [|exact K3]. left. split; [right; apply (only_keys _ g); assumption|]. cbn [with_params g_params].
      apply Forall_forall. intros p' Hin. apply in_map_iff in Hin as (q & <- & _). unfold positive. cbn [upd val]. cbv zeta.
      destruct (val q) as [|x v]; [constructor|]. apply (normalised_spec (map exp (x :: v))); [apply exp_positive|discriminate].
  - exists g, (sgd_group g). destruct (inter_none g H) as [I1 I2]. split; [left; auto|]. split; [|split; [right; left; exact H|reflexivity]].
    left. split; [exact I2|reflexivity].
  - destruct (K "max"%string rule_max rule_max H (ex_intro _ _ (total_rule rule_max _ (g_params g) (fun p => eq_refl))) eq_refl eq_refl _ (fun p => eq_refl)) as (g1 & K1 & K2 & K3).
    eexists g1, _. split; [exact K1|]. split; [exact K2|]. split; [|exact K3]. right. right. left. apply (only_keys _ g); assumption.
  - destruct (inter_only _ g H) as [I1 _]. destruct (inter_only "non_neg" (sgd_group g) H) as [_ I2].
    eexists g, (with_params (sgd_group g) (map (upd (map (Rmax 0))) (g_params (sgd_group g)))).
    split; [left; auto|]. split; [|split; [right; right; right; exact H|reflexivity]].
    right. exists "non_neg"%string, post_non_neg. eexists. split; [rewrite I2; reflexivity|]. split; [apply total_rule; reflexivity|reflexivity].
Qed.

Lemma good_hstep gs : Forall good gs -> exists gs', hstep sgd gs = (gs', None) /\ Forall good gs' /\ map g_keys gs' = map g_keys gs.
Proof.
  intros H. assert (E : exists g1 gs', Forall2 (rules_ok PRERULES) gs g1 /\ Forall2 (rules_ok POSTRULES) (map sgd_group g1) gs' /\ Forall good gs' /\ map g_keys gs' = map g_keys gs).
  { induction H as [|g gs Hg H (g1 & gs' & K1 & K2 & K3 & K4)]; [exists [], []; simpl; auto|].
    destruct (good_step g Hg) as (a & b & L1 & L2 & L3 & L4). exists (a :: g1), (b :: gs'). simpl. repeat split; try constructor; auto. congruence. }
  destruct E as (g1 & gs' & K1 & K2 & K3 & K4). exists gs'. split; [|auto]. unfold hstep. apply apply_rules_ok in K1. rewrite K1.
  unfold sgd. apply apply_rules_ok in K2. exact K2.
Qed.

Lemma train_good hist : forall gs, Forall good gs -> Forall (fun ds => List.length ds = List.length gs) hist ->
  exists gs', train sgd hist gs = (gs', None) /\ Forall good gs' /\ map g_keys gs' = map g_keys gs.
Proof.
  induction hist as [|ds hist IH]; intros gs H Hl; [exists gs; auto|]. cbn [train]. inversion Hl as [|? ? L1 L2]; subst.
  destruct (good_hstep (set_grads ds gs) (good_set_all gs ds H)) as (g1 & E & K1 & K2). rewrite E. rewrite map2_keys in K2 by exact L1.
  assert (E2 : List.length g1 = List.length gs) by (apply (f_equal (@List.length _)) in K2; rewrite !map_length in K2; exact K2).
  destruct (IH g1 K1) as (gs' & E' & K3 & K4); [rewrite E2; exact L2|]. exists gs'. split; [exact E'|]. split; [exact K3|congruence].
Qed.

Lemma good_positive g : good g -> weights g -> Forall positive (g_params g).
Proof.
  assert (X : forall a b, only a g -> only b g -> a = b) by (intros a b (A1 & A2 & A3) (B1 & B2 & B3); apply B3; assumption).
  intros [[_ H]|[H|[H|H]]] Hw; [exact H| | |]; exfalso; destruct Hw as [Ho|Ho].
  1,2: destruct Ho as (H1 & H2 & _); exact (H _ H1 H2).
  all: specialize (X _ _ Ho H); discriminate.
Qed.

Lemma train_positive hist gs :
  Forall (fun g => weights g /\ Forall positive (g_params g) \/ no_rule g \/ only "max" g \/ only "non_neg" g) gs ->
  Forall (fun ds => List.length ds = List.length gs) hist ->
  exists gs', train sgd hist gs = (gs', None) /\ map g_keys gs' = map g_keys gs /\
    Forall (fun g => weights g -> Forall positive (g_params g)) gs'.
Proof.
  intros H Hl. destruct (train_good hist gs H Hl) as (gs' & E & K1 & K2). exists gs'. split; [exact E|]. split; [exact K2|].
  eapply Forall_impl; [|exact K1]. apply good_positive.
Qed.

(* ---- failing steps ---- *)
Lemma fail_keeps e gs inner : (forall g, inner g = (g, Some e)) ->
  Forall (fun g => ~ In "mwu"%string (g_keys g) /\ ~ In "mwu_simplex"%string (g_keys g) /\ ~ In "max"%string (g_keys g)) gs ->
  exists x, snd (hstep inner gs) = Some x /\ map (fun g => map val (g_params g)) (fst (hstep inner gs)) = map (fun g => map val (g_params g)) gs.
Proof.
  intros Hi H. 
  assert (E : map (fun g => map val (g_params g)) (fst (apply_rules PRERULES gs)) = map (fun g => map val (g_params g)) gs).
  { induction H as [|g gs (H1 & H2 & H3) H IH]; [reflexivity|]. cbn [apply_rules].
    assert (M : forall k, ~ In k (g_keys g) -> existsb (String.eqb k) (g_keys g) = false).
    { intros k Hk. destruct (existsb _ _) eqn:E; [|reflexivity]. apply mem_In in E. contradiction. }
    assert (B : forall ps, map val (fst (apply_params pre_bound ps)) = map val ps).
    { induction ps as [|p ps IHp]; [reflexivity|]. simpl. unfold pre_bound at 1. destruct (grad p); [|reflexivity].
      destruct (apply_params pre_bound ps). simpl in *. f_equal. exact IHp. }
    unfold intersection, PRERULES. cbn [filter fst]. rewrite (M _ H1), (M _ H2), (M _ H3).
    destruct (existsb (String.eqb "bound") (g_keys g)); cbn [filter].
    - specialize (B (g_params g)). destruct (apply_params pre_bound (g_params g)) as [ps [x|]]; [simpl in *; congruence|].
      fold PRERULES. destruct (apply_rules PRERULES gs) as [rest x]. simpl in *. f_equal; [exact B|exact IH].
    - fold PRERULES. destruct (apply_rules PRERULES gs) as [rest x]. simpl in *. f_equal. exact IH. }
  unfold hstep. destruct (apply_rules PRERULES gs) as [g1 [x|]]; [exists x; auto|]. rewrite Hi. exists e. auto.
Qed.

Lemma fail_log e gs inner : (forall g, inner g = (g, Some e)) -> Forall (fun g => weights g /\ Forall positive (g_params g)) gs ->
  snd (hstep inner gs) = Some e /\
  map (fun g => map val (g_params g)) (fst (hstep inner gs)) = map (fun g => map (fun p => map ln (val p)) (g_params g)) gs.
Proof.
  intros Hi H.
  assert (E : exists g1, apply_rules PRERULES gs = (g1, None) /\
     map (fun g => map val (g_params g)) g1 = map (fun g => map (fun p => map ln (val p)) (g_params g)) gs).
  { induction H as [|g gs [Hw Hp] H (g1 & E1 & E2)]; [exists []; auto|].
    exists (with_params g (map (upd (map ln)) (g_params g)) :: g1). split.
    - apply apply_rules_ok. constructor; [|apply apply_rules_ok, E1]. right.
      assert (F : Forall2 (fun p p' => pre_mwu p = (p', None)) (g_params g) (map (upd (map ln)) (g_params g))).
      { clear -Hp. induction Hp as [|p ps Hp H IH]; constructor; auto. unfold pre_mwu. apply Rltb_all in Hp. rewrite Hp. reflexivity. }
      destruct Hw as [Ho|Ho]; destruct (inter_only _ g Ho) as [I1 _]; rewrite I1; eexists _, pre_mwu, _; (split; [reflexivity|split; [exact F|reflexivity]]).
    - simpl. rewrite map_map. simpl. f_equal. exact E2. }
  destruct E as (g1 & E1 & E2). unfold hstep. rewrite E1, Hi. auto.
Qed.

(* a group with both 'mwu' and 'non_neg': the step cannot succeed, and leaves logarithms behind *)
Lemma mwu_non_neg ps lr :
  Forall positive ps ->
  hstep sgd [{| g_keys := ["params"; "lr"; "mwu"; "non_neg"]%string; g_lr := lr; g_params := ps |}] =
    ([{| g_keys := ["params"; "lr"; "mwu"; "non_neg"]%string; g_lr := lr; g_params := map (fun p => sgd_par lr (upd (map ln) p)) ps |}], Some AssertionError).
Proof.
  intros Hp. unfold hstep. cbn [apply_rules intersection PRERULES filter fst g_keys existsb String.eqb Ascii.eqb Bool.eqb orb g_params].
  assert (E : apply_params pre_mwu ps = (map (upd (map ln)) ps, None)).
  { apply apply_params_conv. clear -Hp. induction Hp as [|p ps Hp H IH]; constructor; auto. unfold pre_mwu. apply Rltb_all in Hp. rewrite Hp. reflexivity. }
  rewrite E. unfold sgd, with_params. cbn [map g_keys g_lr g_params]. rewrite map_map. reflexivity.
Qed.
