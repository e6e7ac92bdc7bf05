(* C147: what the unit tests assert on the inputs they try holds for all inputs. *)
From Coq Require Import Reals List Bool String ZArith Lra Lia.
From Verif Require Import PyBase RList XReal Tensor Loss_Model OptCond_Model OptCond_Spec HybridOpt_Model Costs_Model Dtype_Model Samplers_Model Samplers_Spec Samplers_Proofs Tests_Model.
Import ListNotations.
Local Open Scope R_scope.
Notation length := List.length.

(* what the documentation of OptCondTorch allows *)
Definition known_names : list string := L_AND_T ++ L_OR_T ++ JUST_T ++ JUST_L.
Definition known_modes : list string := ["rel"; "abs"]%string.
Definition known_metrics : list string := ["grad"; "param"]%string.
(* a robust loss whose backward pass has been run: gradients everywhere *)
Definition has_grads (o : obs) : Prop := o_lgrad o <> None /\ o_tgrad o <> [] /\ ~ In None (o_tgrad o).
(* one that has not: none *)
Definition no_grads (o : obs) : Prop := o_lgrad o = None /\ o_tgrad o <> [] /\ Forall (fun g => g = None) (o_tgrad o).
(* a model with parameters, [n] numbers in all *)
Definition sized (n : nat) (o : obs) : Prop := o_theta o <> [] /\ length (List.concat (o_theta o)) = n.

Record good (n : nat) (c : oc) : Prop := {
  g_tt : tol_theta c <> NaN; g_tl : tol_lambda c <> NaN;
  g_mon : In (monitoring c) known_names; g_mode : In (mode c) known_modes; g_metric : In (metric c) known_metrics;
  g_l : delta_l_1 c <> None -> l_mem c <> None; g_t : delta_t_1 c <> None -> t_mem c <> None;
  g_len : forall v, t_0 c = Some v \/ t_mem c = Some v -> length v = n }.
Definition usable (n : nat) (c : oc) (o : obs) : Prop := sized n o /\ (metric c = "grad"%string -> has_grads o).
Definition fresh_l (c : oc) : Prop := l_0 c = None /\ l_grad_0 c = None.
Definition fresh_t (c : oc) : Prop := t_0 c = None /\ t_grad_0 c = None.

Lemma not_le_pos x : x <> NaN -> xle x (Fin 0) = false -> xlt (Fin 0) x = true.
Proof.
  intros N H. unfold xle in H. destruct x as [r| | |]; simpl in *; try congruence. apply orb_false_iff in H. destruct H as [H1 H2].
  apply Rltb_false in H1. apply Reqb_false in H2. apply Rltb_true. lra.
Qed.

Lemma metric_two c n : good n c -> metric c = "grad"%string \/ metric c = "param"%string.
Proof. intros [_ _ _ _ M _ _ _]. destruct M as [<-|[<-|[]]]; auto. Qed.

Lemma check_metric_ok c n a b t : good n c -> xlt (Fin 0) t = true -> exists x, check_metric c a b t = Ok x.
Proof. intros [_ _ _ M _ _ _ _] H. unfold check_metric. rewrite H. destruct M as [<-|[<-|[]]]; simpl; eauto. Qed.

Ltac done_good G := destruct G; constructor; simpl; auto; try congruence; try (intros v [E|E]; try congruence; eauto).

Lemma check_l_ok n c o : good n c -> usable n c o ->
  exists c' b, check_l c o = (c', Ok b) /\ good n c' /\ (fresh_l c -> b = false) /\ metric c' = metric c /\ monitoring c' = monitoring c /\
    tol_theta c' = tol_theta c /\ max_iter c' = max_iter c /\
    t_0 c' = t_0 c /\ t_grad_0 c' = t_grad_0 c.
Proof.
  intros G [S U]. unfold check_l. destruct (xle (tol_lambda c) (Fin 0)) eqn:L.
  { exists c, false. repeat split; auto; destruct G; auto. }
  pose proof (not_le_pos _ (g_tl n c G) L) as P. destruct (metric_two c n G) as [M|M]; rewrite M; simpl.
  - destruct (U M) as (L1 & _ & _). unfold lam_grad. destruct (o_lgrad o) as [g|]; [|congruence]. destruct (l_grad_0 c) as [m|] eqn:E.
    + destruct (check_metric_ok c n (xabs g) m _ G P) as [x Hx]. exists c, x. rewrite Hx. repeat split; auto; try (destruct G; assumption).
      intros [_ F]. congruence.
    + eexists _, false. split; [reflexivity|]. split; [done_good G|]. simpl. repeat split; auto.
  - destruct (l_0 c) as [z|] eqn:E0.
    + destruct (delta_l_1 c) as [m1|] eqn:E1.
      * destruct (l_mem c) as [m|] eqn:E2; [|exfalso; apply (g_l n c G); congruence].
        destruct (check_metric_ok c n (xabs (xsub (o_mem o (o_lam o)) (o_mem o m))) m1 _ G P) as [x Hx]. rewrite Hx.
        eexists _, x. split; [reflexivity|]. split; [done_good G|]. simpl. repeat split; auto. intros [F _]. congruence.
      * eexists _, false. split; [reflexivity|]. split; [done_good G|]. simpl. repeat split; auto.
    + eexists _, false. split; [reflexivity|]. split; [done_good G|]. simpl. repeat split; auto.
Qed.

Lemma all_grads_ok l : ~ In None l -> exists gs, all_grads l = Ok gs /\ length gs = length l.
Proof.
  induction l as [|[g|] l IH]; intros N; simpl.
  - exists []. auto.
  - destruct IH as (gs & E & L); [intros H; apply N; right; exact H|]. rewrite E. simpl. eexists. split; [reflexivity|]. simpl. congruence.
  - exfalso. apply N. left. reflexivity.
Qed.

Lemma flat_grad_ok o : has_grads o -> exists g, get_flat_grad o = Ok g.
Proof.
  intros (_ & N & A). destruct (all_grads_ok _ A) as (gs & E & L). unfold get_flat_grad. rewrite E. simpl.
  destruct gs as [|a gs]; [destruct (o_tgrad o); [congruence|discriminate]|]. eauto.
Qed.

Lemma flat_param_ok n o : sized n o -> exists th, get_flat_param o = Ok th /\ length th = n.
Proof. intros [N L]. unfold get_flat_param. destruct (o_theta o) as [|a l]; [congruence|]. eauto. Qed.

Lemma tsub_ok n a b : length a = n -> length b = n -> exists d, tsub a b = Ok d.
Proof. intros A B. unfold tsub. rewrite A, B, Nat.eqb_refl. eauto. Qed.

Lemma check_t_ok vnorm n c o : good n c -> usable n c o ->
  exists c' b, check_t vnorm c o = (c', Ok b) /\ good n c' /\ (fresh_t c -> b = false) /\ metric c' = metric c /\ monitoring c' = monitoring c /\
    max_iter c' = max_iter c.
Proof.
  intros G [S U]. unfold check_t. destruct (xle (tol_theta c) (Fin 0)) eqn:L.
  { exists c, false. repeat split; auto; destruct G; auto. }
  pose proof (not_le_pos _ (g_tt n c G) L) as P. destruct (metric_two c n G) as [M|M]; rewrite M; simpl.
  - destruct (flat_grad_ok o (U M)) as [g Eg]. rewrite Eg. destruct (t_grad_0 c) as [m|] eqn:E.
    + destruct (check_metric_ok c n (vnorm g) m _ G P) as [x Hx]. exists c, x. rewrite Hx. repeat split; auto; try (destruct G; assumption).
      intros [_ F]. congruence.
    + eexists _, false. split; [reflexivity|]. split; [done_good G|]. simpl. repeat split; auto.
  - destruct (flat_param_ok n o S) as (th & Et & Lt). rewrite Et. destruct (t_0 c) as [z|] eqn:E0.
    + assert (Lz : length z = n) by (apply (g_len n c G); auto). destruct (delta_t_1 c) as [m1|] eqn:E1.
      * destruct (t_mem c) as [m|] eqn:E2; [|exfalso; apply (g_t n c G); congruence].
        assert (Lm : length m = n) by (apply (g_len n c G); auto). destruct (tsub_ok n th m Lt Lm) as [d Ed]. rewrite Ed.
        destruct (check_metric_ok c n (vnorm d) m1 _ G P) as [x Hx]. rewrite Hx. eexists _, x. split; [reflexivity|]. split; [done_good G|].
        simpl. repeat split; auto. intros [F _]. congruence.
      * destruct (tsub_ok n th z Lt Lz) as [d Ed]. rewrite Ed. eexists _, false. split; [reflexivity|]. split; [done_good G|]. simpl. repeat split; auto.
    + eexists _, false. split; [reflexivity|]. split; [done_good G|]. simpl. repeat split; auto.
Qed.

Lemma mem_in s l : mem s l = true <-> In s l.
Proof.
  unfold mem. rewrite existsb_exists. split.
  - intros (x & I & E). apply String.eqb_eq in E. subst. exact I.
  - intros I. exists s. split; [exact I|]. apply String.eqb_refl.
Qed.

Lemma all_ok vnorm n c o : good n c -> usable n c o ->
  exists c' b, check_all_params vnorm c o = (c', Ok b) /\ good n c' /\ (fresh_l c -> fresh_t c -> b = false) /\ metric c' = metric c.
Proof.
  intros G U. unfold check_all_params.
  assert (B : forall f, f false false = false -> exists c' b, combine vnorm f c o = (c', Ok b) /\ good n c' /\ (fresh_l c -> fresh_t c -> b = false) /\ metric c' = metric c).
  { intros f F. unfold combine. destruct (check_l_ok n c o G U) as (c1 & b1 & E1 & G1 & F1 & M1 & _ & _ & _ & T1 & T2). rewrite E1.
    assert (U1 : usable n c1 o) by (destruct U as [S U]; split; [exact S|]; rewrite M1; exact U).
    destruct (check_t_ok vnorm n c1 o G1 U1) as (c2 & b2 & E2 & G2 & F2 & M2 & _). rewrite E2. exists c2, (f b1 b2).
    split; [reflexivity|]. split; [exact G2|]. split; [|congruence]. intros Fl Ft. rewrite F1 by exact Fl. rewrite F2; [exact F|].
    destruct Ft as [Fa Fb]. split; congruence. }
  destruct (mem (monitoring c) L_AND_T) eqn:E1; [apply (B andb); reflexivity|].
  destruct (mem (monitoring c) L_OR_T) eqn:E2; [apply (B orb); reflexivity|].
  destruct (mem (monitoring c) JUST_L) eqn:E3.
  { destruct (check_l_ok n c o G U) as (c1 & b1 & H1 & G1 & F1 & M1 & _). exists c1, b1. repeat split; auto; destruct G1; auto. }
  destruct (mem (monitoring c) JUST_T) eqn:E4.
  { destruct (check_t_ok vnorm n c o G U) as (c1 & b1 & H1 & G1 & F1 & M1 & _). exists c1, b1. repeat split; auto; destruct G1; auto. }
  exfalso. pose proof (g_mon n c G) as I. unfold known_names in I. rewrite !in_app_iff in I.
  rewrite <- !mem_in, E1, E2, E3, E4 in I. intuition discriminate.
Qed.

Lemma good_max n c m : good n c -> good n (set_max_iter m c).
Proof. intros G. done_good G. Qed.

Lemma call_ok vnorm n c o it : good n c -> usable n c o ->
  exists c' b, oc_call vnorm c o it = (c', Ok (check_iter (set_max_iter (train_steps (o_niter o)) c) it || b)%bool) /\ good n c' /\
    (fresh_l c -> fresh_t c -> b = false) /\ metric c' = metric c.
Proof.
  intros G U. unfold oc_call. cbv zeta.
  destruct (all_ok vnorm n (set_max_iter (train_steps (o_niter o)) c) o (good_max n c _ G) U) as (c' & b & E & G' & F & M). rewrite E.
  exists c', b. repeat split; auto; destruct G'; auto.
Qed.

(* the budget of a model, as set by the test: the limit, or the default of the library, which allows a second iteration *)
Definition budget (it : option Z) (o : obs) : Prop :=
  match it with Some n => (1 < n <= 1000)%Z /\ o_niter o = SInt n | None => (train_steps (o_niter o) <> 1)%Z end.

Lemma iter1 it o c : budget it o -> check_iter (set_max_iter (train_steps (o_niter o)) c) 1 = false.
Proof.
  unfold budget, check_iter. intros B. simpl.
  assert (N : (train_steps (o_niter o) <> 1)%Z) by (destruct it as [n|]; [destruct B as [B ->]; simpl; lia|exact B]).
  destruct (train_steps (o_niter o) <=? 0)%Z eqn:E; [reflexivity|]. apply Z.leb_gt in E. apply Z.leb_gt. lia.
Qed.
Lemma iter1000 n o c : budget (Some n) o -> check_iter (set_max_iter (train_steps (o_niter o)) c) 1000 = true.
Proof.
  intros [B ->]. unfold check_iter. simpl. destruct (n <=? 0)%Z eqn:E; [apply Z.leb_le in E; lia|]. apply Z.leb_le. lia.
Qed.

Lemma checks_ok vnorm n c m1 m2 tt it : good n c -> fresh_l c -> fresh_t c -> usable n c m1 -> usable n c m2 -> budget it m1 -> budget it m2 ->
  snd (make_checks vnorm c m1 m2 tt it) = Ok Datatypes.tt.
Proof.
  intros G Fl Ft U1 U2 B1 B2. unfold make_checks. destruct (call_ok vnorm n c m1 1 G U1) as (c1 & b1 & E1 & G1 & F1 & M1). rewrite E1.
  rewrite (F1 Fl Ft), (iter1 it m1 c B1). simpl. destruct it as [k|]; [|reflexivity].
  assert (W : forall o, usable n c o -> usable n c1 o) by (intros o [S U]; split; [exact S|]; rewrite M1; exact U).
  destruct (call_ok vnorm n c1 m2 1000 G1 (W m2 U2)) as (c2 & b2 & E2 & G2 & _ & M2). rewrite E2, (iter1000 k m2 c1 B2). simpl.
  assert (U3 : usable n c2 m1) by (destruct (W m1 U1) as [S U]; split; [exact S|]; rewrite M2; exact U).
  destruct (call_ok vnorm n c2 m1 2 G2 U3) as (c3 & b3 & E3 & _). rewrite E3. reflexivity.
Qed.

(* the first call raises a ValueError and leaves the condition as it was when 'both' are watched and no backward pass has been run *)
Lemma no_grad_raises vnorm c o it : metric c = "grad"%string -> In (monitoring c) L_AND_T -> tol_lambda c <> NaN -> xle (tol_theta c) (Fin 0) = false ->
  no_grads o -> exists e, oc_call vnorm c o it = (set_max_iter (train_steps (o_niter o)) c, Raise e) /\ is_value_error e = true.
Proof.
  intros M A Nl T (L & N & F). unfold oc_call, check_all_params. cbv zeta. simpl monitoring. apply mem_in in A. rewrite A. unfold combine, check_l.
  simpl metric. simpl tol_lambda. rewrite M. destruct (xle (tol_lambda c) (Fin 0)).
  - unfold check_t. simpl tol_theta. simpl metric. rewrite T, M. simpl. unfold get_flat_grad.
    destruct (o_tgrad o) as [|g l]; [congruence|]. inversion F; subst. simpl. eexists. split; reflexivity.
  - simpl. unfold lam_grad. rewrite L. eexists. split; reflexivity.
Qed.

(* the model of the test suite's setups: any norm order the constructor accepts *)
Definition accepted_order (p : order) : Prop := match p with OrdInt n => (0 < n)%Z | OrdStr s => s = "inf"%string end.
Lemma init_ok p tt tl it mon mo me : accepted_order p ->
  oc_init p tt tl it mon mo me = Ok {| tol_theta := tt; tol_lambda := tl; monitoring := mon; mode := mo; metric := me;
        max_iter := match it with None => 0%Z | Some n => n end; l_mem := None; t_mem := None; l_0 := None; t_0 := None;
        l_grad_0 := None; t_grad_0 := None; delta_l_1 := None; delta_t_1 := None |}.
Proof. intros A. unfold oc_init. destruct p as [n|s]; simpl in A; [apply Z.ltb_lt in A; rewrite A|subst s]; reflexivity. Qed.

Lemma not_wrong s l : In s l -> is_wrong "wrong" = true -> ~ In "wrong"%string l -> is_wrong s = false.
Proof. intros I _ N. unfold is_wrong. destruct (String.eqb s "wrong") eqn:E; [|reflexivity]. apply String.eqb_eq in E. subst. contradiction. Qed.

(* Every documented setting of the stopping condition passes the test, whatever the models, their gradients and the norm. *)
Theorem C147_opt_cond :
  forall vnorm p tt tl it mon mo me m1 m2 g1 g2 n,
    accepted_order p -> tt <> NaN -> tl <> NaN -> In mon known_names -> In mo known_modes -> In me known_metrics ->
    sized n m1 -> sized n m2 -> sized n g1 -> sized n g2 -> no_grads m1 -> has_grads g1 -> has_grads g2 ->
    budget it m1 -> budget it m2 -> budget it g1 -> budget it g2 ->
    test_opt_cond vnorm p tt tl it mon mo me m1 m2 g1 g2 = Ok Datatypes.tt.
Proof.
  intros vnorm p tt tl it mon mo me m1 m2 g1 g2 n A Ntt Ntl Imon Imo Ime S1 S2 T1 T2 N1 H1 H2 B1 B2 D1 D2.
  unfold test_opt_cond. rewrite (not_wrong mon known_names Imon eq_refl) by (simpl; intuition discriminate).
  rewrite (not_wrong mo known_modes Imo eq_refl) by (simpl; intuition discriminate).
  rewrite (not_wrong me known_metrics Ime eq_refl) by (simpl; intuition discriminate). cbn [orb]. rewrite (init_ok p tt tl it mon mo me A). cbn [bind].
  set (c := {| tol_theta := tt |}).
  assert (G : good n c) by (constructor; simpl; auto; try congruence; intros v [E|E]; discriminate).
  assert (Fl : fresh_l c) by (split; reflexivity). assert (Ft : fresh_t c) by (split; reflexivity).
  destruct Ime as [<-|[<-|[]]]; cbn [String.eqb Ascii.eqb Bool.eqb].
  - replace (String.eqb "grad" "grad") with true by reflexivity.
    assert (U1 : usable n c g1) by (split; auto). assert (U2 : usable n c g2) by (split; auto).
    destruct (xlt (Fin 0) tt && mem mon L_AND_T && negb (mem mon JUST_L))%bool eqn:E; [|apply (checks_ok vnorm n c g1 g2 tt it G Fl Ft U1 U2 D1 D2)].
    apply andb_true_iff in E. destruct E as [E _]. apply andb_true_iff in E. destruct E as [E1 E2].
    assert (L : xle tt (Fin 0) = false).
    { unfold xle. destruct tt as [r| | |]; simpl in *; try discriminate; auto. apply Rltb_true in E1. apply orb_false_iff. split; [apply Rltb_false; lra|apply Reqb_false; lra]. }
    destruct (no_grad_raises vnorm c m1 1 eq_refl (proj1 (mem_in _ _) E2) Ntl L N1) as (e & Ee & V).
    unfold make_checks at 1. rewrite Ee. cbn [raises_value_error]. rewrite V. cbn [bind].
    apply (checks_ok vnorm n (set_max_iter (train_steps (o_niter m1)) c) g1 g2 tt it); auto; [apply good_max; exact G].
  - replace (String.eqb "param" "grad") with false by reflexivity. apply (checks_ok vnorm n c m1 m2 tt it G Fl Ft); auto; split; auto; simpl; discriminate.
Qed.

(* ---- misspelt settings ---- *)
Lemma is_wrong_refl : is_wrong "wrong" = true. Proof. reflexivity. Qed.
Lemma pos_not_le x : xlt (Fin 0) x = true -> xle x (Fin 0) = false.
Proof.
  unfold xle. destruct x as [r| | |]; simpl; intros H; try discriminate; auto. apply Rltb_true in H. apply orb_false_iff.
  split; [apply Rltb_false; lra|apply Reqb_false; lra].
Qed.


Record watch (c : oc) (mon mo me : string) (tt tl : xr) : Prop := {
  w_mon : monitoring c = mon; w_mo : mode c = mo; w_me : metric c = me; w_tt : tol_theta c = tt; w_tl : tol_lambda c = tl }.

Lemma wrong_metric_raises vnorm c o mon mo tt tl it : watch c mon mo "wrong" tt tl ->
  xle tt (Fin 0) = false -> xle tl (Fin 0) = false -> snd (oc_call vnorm c o it) = Raise ValueError.
Proof.
  intros [M _ E T L] Ht Hl. unfold oc_call. cbv zeta. set (c0 := set_max_iter _ c).
  assert (Cl : check_l c0 o = (c0, Raise ValueError)) by (unfold check_l; unfold c0; cbn [tol_lambda metric set_max_iter]; rewrite L, E, Hl; reflexivity).
  assert (Ct : check_t vnorm c0 o = (c0, Raise ValueError)) by (unfold check_t; unfold c0; cbn [tol_theta metric set_max_iter]; rewrite T, E, Ht; reflexivity).
  unfold check_all_params, combine. rewrite Cl, Ct. repeat match goal with |- context [if ?b then _ else _] => destruct b end; reflexivity.
Qed.
Lemma wrong_name_raises vnorm c o mo me tt tl it : watch c "wrong" mo me tt tl -> snd (oc_call vnorm c o it) = Raise ValueError.
Proof. intros [M _ _ _ _]. unfold oc_call, check_all_params. cbv zeta. cbn [monitoring set_max_iter]. rewrite M. reflexivity. Qed.

(* what the condition holds after [k] evaluations with the parameter metric *)
Definition stage_l (k : nat) (c : oc) : Prop :=
  match k with
  | 0%nat => l_0 c = None /\ delta_l_1 c = None
  | 1%nat => l_0 c <> None /\ delta_l_1 c = None
  | _ => l_0 c <> None /\ delta_l_1 c <> None /\ l_mem c <> None
  end.
Definition stage_t (n k : nat) (c : oc) : Prop :=
  match k with
  | 0%nat => t_0 c = None /\ delta_t_1 c = None
  | 1%nat => (exists v, t_0 c = Some v /\ length v = n) /\ delta_t_1 c = None
  | _ => t_0 c <> None /\ delta_t_1 c <> None /\ (exists v, t_mem c = Some v /\ length v = n)
  end.

Lemma l_step c o mon mo tt tl k : watch c mon mo "param" tt tl -> xle tl (Fin 0) = false -> stage_l k c -> (k < 2)%nat ->
  exists c', check_l c o = (c', Ok false) /\ stage_l (S k) c' /\ watch c' mon mo "param" tt tl /\ forall n, stage_t n k c -> stage_t n k c'.
Proof.
  intros [M O E T L] Hl S K. unfold check_l. rewrite L, Hl, E. cbn [String.eqb Ascii.eqb Bool.eqb].
  destruct k as [|[|k]]; [| |lia]; destruct S as [S1 S2].
  - rewrite S1. eexists. split; [reflexivity|]. split; [|split; [constructor; assumption|intros n X; exact X]]. simpl. split; [discriminate|exact S2].
  - destruct (l_0 c) as [z|] eqn:Z; [|congruence]. rewrite S2. eexists. split; [reflexivity|]. split; [|split; [constructor; assumption|intros n X; exact X]].
    simpl. repeat split; discriminate.
Qed.
Lemma l_third c o mon tt tl : watch c mon "wrong" "param" tt tl -> xlt (Fin 0) tl = true -> stage_l 2 c -> exists c', check_l c o = (c', Raise ValueError).
Proof.
  intros [M O E T L] Hl (S1 & S2 & S3). unfold check_l. rewrite L, (pos_not_le _ Hl), E. cbn [String.eqb Ascii.eqb Bool.eqb].
  destruct (l_0 c); [|congruence]. destruct (delta_l_1 c); [|congruence]. destruct (l_mem c); [|congruence].
  eexists. f_equal. unfold check_metric. rewrite Hl, O. reflexivity.
Qed.
Lemma t_step vnorm n c o mon mo tt tl k : watch c mon mo "param" tt tl -> xle tt (Fin 0) = false -> sized n o -> stage_t n k c -> (k < 2)%nat ->
  exists c', check_t vnorm c o = (c', Ok false) /\ stage_t n (S k) c' /\ watch c' mon mo "param" tt tl /\ forall j, stage_l j c -> stage_l j c'.
Proof.
  intros [M O E T L] Ht Sz S K. unfold check_t. rewrite T, Ht, E. cbn [String.eqb Ascii.eqb Bool.eqb].
  destruct (flat_param_ok n o Sz) as (th & Et & Lt). rewrite Et.
  destruct k as [|[|k]]; [| |lia]; destruct S as [S1 S2].
  - rewrite S1. eexists. split; [reflexivity|]. split; [|split; [constructor; assumption|intros j X; exact X]]. simpl. split; [exists th; auto|exact S2].
  - destruct S1 as (z & Z & Lz). rewrite Z, S2. destruct (tsub_ok n th z Lt Lz) as [d Ed]. rewrite Ed.
    eexists. split; [reflexivity|]. split; [|split; [constructor; assumption|intros j X; exact X]].
    simpl. repeat split; [congruence|discriminate|exists th; auto].
Qed.
Lemma t_third vnorm n c o mon tt tl : watch c mon "wrong" "param" tt tl -> xlt (Fin 0) tt = true -> sized n o -> stage_t n 2 c ->
  exists c', check_t vnorm c o = (c', Raise ValueError).
Proof.
  intros [M O E T L] Ht Sz (S1 & S2 & (v & S3 & Lv)). unfold check_t. rewrite T, (pos_not_le _ Ht), E. cbn [String.eqb Ascii.eqb Bool.eqb].
  destruct (flat_param_ok n o Sz) as (th & Et & Lt). rewrite Et.
  destruct (t_0 c); [|congruence]. destruct (delta_t_1 c); [|congruence]. rewrite S3. destruct (tsub_ok n th v Lt Lv) as [d Ed]. rewrite Ed.
  eexists. f_equal. unfold check_metric. rewrite Ht, O. reflexivity.
Qed.

(* the parts of the condition in use, by its name *)
Definition inv (n k : nat) (c : oc) (mon : string) : Prop :=
  ((mem mon L_AND_T || mem mon L_OR_T || mem mon JUST_L)%bool = true -> stage_l k c) /\
  ((mem mon L_AND_T || mem mon L_OR_T || negb (mem mon JUST_L))%bool = true -> stage_t n k c).

Lemma call_step vnorm n c o it mon mo tt tl k : watch c mon mo "param" tt tl -> In mon known_names -> xle tt (Fin 0) = false -> xle tl (Fin 0) = false ->
  sized n o -> inv n k c mon -> (k < 2)%nat ->
  exists c', oc_call vnorm c o it = (c', Ok (check_iter (set_max_iter (train_steps (o_niter o)) c) it)) /\ inv n (S k) c' mon /\ watch c' mon mo "param" tt tl.
Proof.
  intros W I Ht Hl Sz [Il It] K. unfold oc_call. cbv zeta. set (c0 := set_max_iter _ c).
  assert (W0 : watch c0 mon mo "param" tt tl) by (destruct W; constructor; assumption).
  assert (Jl : (mem mon L_AND_T || mem mon L_OR_T || mem mon JUST_L)%bool = true -> stage_l k c0) by (intros H; exact (Il H)).
  assert (Jt : (mem mon L_AND_T || mem mon L_OR_T || negb (mem mon JUST_L))%bool = true -> stage_t n k c0) by (intros H; exact (It H)).
  unfold check_all_params. replace (monitoring c0) with mon by (destruct W; symmetry; assumption). unfold inv.
  assert (B : forall f, f false false = false -> stage_l k c0 -> stage_t n k c0 -> exists c', combine vnorm f c0 o = (c', Ok false) /\ stage_l (S k) c' /\ stage_t n (S k) c' /\ watch c' mon mo "param" tt tl).
  { intros f F A1 A2. unfold combine. destruct (l_step c0 o mon mo tt tl k W0 Hl A1 K) as (c1 & E1 & S1 & W1 & T1). rewrite E1.
    destruct (t_step vnorm n c1 o mon mo tt tl k W1 Ht Sz (T1 n A2) K) as (c2 & E2 & S2 & W2 & L2). rewrite E2, F. exists c2. auto. }
  destruct (mem mon L_AND_T) eqn:E1.
  { destruct (B andb eq_refl (Jl eq_refl) (Jt eq_refl)) as (c' & E & A1 & A2 & W'). rewrite E, orb_false_r. exists c'. auto. }
  destruct (mem mon L_OR_T) eqn:E2.
  { destruct (B orb eq_refl (Jl eq_refl) (Jt eq_refl)) as (c' & E & A1 & A2 & W'). rewrite E, orb_false_r. exists c'. auto. }
  destruct (mem mon JUST_L) eqn:E3.
  { destruct (l_step c0 o mon mo tt tl k W0 Hl (Jl eq_refl) K) as (c1 & H1 & S1 & W1 & _). rewrite H1, orb_false_r. exists c1. repeat split; auto; [discriminate|apply W1..]. }
  destruct (mem mon JUST_T) eqn:E4.
  { destruct (t_step vnorm n c0 o mon mo tt tl k W0 Ht Sz (Jt eq_refl) K) as (c1 & H1 & S1 & W1 & _). rewrite H1, orb_false_r. exists c1. repeat split; auto; [discriminate|apply W1..]. }
  exfalso. unfold known_names in I. rewrite !in_app_iff in I. rewrite <- !mem_in, E1, E2, E3, E4 in I. intuition discriminate.
Qed.
Lemma call_third vnorm n c o it mon tt tl : watch c mon "wrong" "param" tt tl -> In mon known_names -> xlt (Fin 0) tt = true -> xlt (Fin 0) tl = true ->
  sized n o -> inv n 2 c mon -> snd (oc_call vnorm c o it) = Raise ValueError.
Proof.
  intros W I Ht Hl Sz [Il It]. unfold oc_call. cbv zeta. set (c0 := set_max_iter _ c).
  assert (W0 : watch c0 mon "wrong" "param" tt tl) by (destruct W; constructor; assumption).
  assert (Jl : (mem mon L_AND_T || mem mon L_OR_T || mem mon JUST_L)%bool = true -> stage_l 2 c0) by (intros H; exact (Il H)).
  assert (Jt : (mem mon L_AND_T || mem mon L_OR_T || negb (mem mon JUST_L))%bool = true -> stage_t n 2 c0) by (intros H; exact (It H)).
  unfold check_all_params, combine. replace (monitoring c0) with mon by (destruct W; symmetry; assumption).
  destruct (mem mon L_AND_T) eqn:E1; [destruct (l_third c0 o mon tt tl W0 Hl (Jl eq_refl)) as [c' ->]; reflexivity|].
  destruct (mem mon L_OR_T) eqn:E2; [destruct (l_third c0 o mon tt tl W0 Hl (Jl eq_refl)) as [c' ->]; reflexivity|].
  destruct (mem mon JUST_L) eqn:E3; [destruct (l_third c0 o mon tt tl W0 Hl (Jl eq_refl)) as [c' ->]; reflexivity|].
  destruct (mem mon JUST_T) eqn:E4; [destruct (t_third vnorm n c0 o mon tt tl W0 Ht Sz (Jt eq_refl)) as [c' ->]; reflexivity|].
  exfalso. unfold known_names in I. rewrite !in_app_iff in I. rewrite <- !mem_in, E1, E2, E3, E4 in I. intuition discriminate.
Qed.

Print Assumptions C147_opt_cond.
Definition bare : obs := {| o_mem := fun _ => Fin 1; o_lam := 0%nat; o_lgrad := None; o_theta := [[Fin 1; Fin 2]]; o_tgrad := [None]; o_niter := SInt 100 |}.
Definition backed : obs := {| o_mem := fun _ => Fin 1; o_lam := 0%nat; o_lgrad := Some (Fin 3); o_theta := [[Fin 1; Fin 2]]; o_tgrad := [Some [Fin 0; Fin 4]]; o_niter := SInt 100 |}.
Example C147_opt_cond_case :
  sized 2 bare /\ sized 2 backed /\ no_grads bare /\ has_grads backed /\ budget (Some 100%Z) bare /\ budget (Some 100%Z) backed /\ In "theta"%string known_names.
Proof.
  split; [split; [discriminate|reflexivity]|]. split; [split; [discriminate|reflexivity]|].
  split; [split; [reflexivity|split; [discriminate|repeat constructor]]|].
  split; [split; [discriminate|split; [discriminate|simpl; intuition discriminate]]|].
  split; [split; [lia|reflexivity]|]. split; [split; [lia|reflexivity]|]. simpl. tauto.
Qed.

(* A misspelt name is reported whatever the other settings; a misspelt metric when both tolerances are in use; a misspelt mode too, by the
   third evaluation, when parameters are watched. *)
Theorem C147_opt_cond_wrong :
  forall vnorm p tt tl k mon mo me m1 m2 g1 g2 n,
    accepted_order p -> sized n m1 -> sized n m2 -> budget (Some k) m1 -> budget (Some k) m2 ->
    (mon = "wrong"%string
     \/ me = "wrong"%string /\ xlt (Fin 0) tt = true /\ xlt (Fin 0) tl = true
     \/ mo = "wrong"%string /\ me = "param"%string /\ In mon known_names /\ xlt (Fin 0) tt = true /\ xlt (Fin 0) tl = true) ->
    test_opt_cond vnorm p tt tl (Some k) mon mo me m1 m2 g1 g2 = Ok Datatypes.tt.
Proof.
  intros vnorm p tt tl k mon mo me m1 m2 g1 g2 n A S1 S2 B1 B2 H. unfold test_opt_cond.
  replace (is_wrong mon || is_wrong mo || is_wrong me)%bool with true
    by (destruct H as [->|[(-> & _)|(-> & _)]]; rewrite is_wrong_refl, ?orb_true_r; reflexivity).
  cbn [assert_ bind]. rewrite (init_ok p tt tl (Some k) mon mo me A). cbn [bind]. set (c := {| tol_theta := tt |}).
  assert (W : watch c mon mo me tt tl) by (constructor; reflexivity).
  enough (E : snd (make_checks vnorm c m1 m2 tt (Some k)) = Raise ValueError) by (rewrite E; reflexivity).
  unfold make_checks. destruct H as [->|[(-> & Pt & Pl)|(-> & -> & I & Pt & Pl)]].
  - pose proof (wrong_name_raises vnorm c m1 mo me tt tl 1 W) as F. destruct (oc_call vnorm c m1 1) as [c1 r]. simpl in F. subst r. reflexivity.
  - pose proof (wrong_metric_raises vnorm c m1 mon mo tt tl 1 W (pos_not_le _ Pt) (pos_not_le _ Pl)) as F.
    destruct (oc_call vnorm c m1 1) as [c1 r]. simpl in F. subst r. reflexivity.
  - assert (I0 : inv n 0 c mon) by (split; intros _; split; reflexivity).
    destruct (call_step vnorm n c m1 1 mon "wrong" tt tl 0 W I (pos_not_le _ Pt) (pos_not_le _ Pl) S1 I0) as (c1 & E1 & I1 & W1); [lia|].
    rewrite E1, (iter1 (Some k) m1 c B1).
    destruct (call_step vnorm n c1 m2 1000 mon "wrong" tt tl 1 W1 I (pos_not_le _ Pt) (pos_not_le _ Pl) S2 I1) as (c2 & E2 & I2 & W2); [lia|].
    rewrite E2, (iter1000 k m2 c1 B2). cbn [assert_ negb orb].
    pose proof (call_third vnorm n c2 m1 2 mon tt tl W2 I Pt Pl S1 I2) as F. destruct (oc_call vnorm c2 m1 2) as [c3 r]. simpl in F. subst r. reflexivity.
Qed.

Print Assumptions C147_opt_cond_wrong.
Example C147_opt_cond_wrong_case : accepted_order (OrdStr "inf") /\ sized 2 bare /\ budget (Some 100%Z) bare /\ xlt (Fin 0) (Fin (1 / 10)) = true.
Proof. split; [reflexivity|]. split; [split; [discriminate|reflexivity]|]. split; [split; [lia|reflexivity]|]. simpl. apply Rltb_true. lra. Qed.

(* Outside of the values the test uses (1e-5 for both tolerances) it is not so: with a tolerance of zero nothing is compared, and a misspelt
   mode or metric is never looked at. *)
Theorem C147_opt_cond_wrong_refuted :
  exists vnorm tt tl mo me m1 m2, ~ In mo known_modes /\ ~ In me known_metrics /\ sized 2 m1 /\ sized 2 m2 /\ budget (Some 100%Z) m1 /\ budget (Some 100%Z) m2 /\
    test_opt_cond vnorm (OrdInt 2) tt tl (Some 100%Z) "both" mo me m1 m2 m1 m2 = Raise AssertionError.
Proof.
  exists (fun _ => Fin 0), (Fin 0), (Fin 0), "wrong"%string, "wrong"%string, bare, bare.
  split; [simpl; intuition discriminate|]. split; [simpl; intuition discriminate|].
  assert (S : sized 2 bare) by (split; [discriminate|reflexivity]). split; [exact S|]. split; [exact S|].
  assert (B : budget (Some 100%Z) bare) by (split; [lia|reflexivity]). split; [exact B|]. split; [exact B|].
  assert (Z : xle (Fin 0) (Fin 0) = true) by (unfold xle; simpl; apply orb_true_iff; right; apply Reqb_true; reflexivity).
  unfold test_opt_cond. rewrite is_wrong_refl, orb_true_r. cbn [orb assert_ bind]. rewrite init_ok by (simpl; lia). cbn [bind].
  assert (Q : forall c o it, watch c "both" "wrong" "wrong" (Fin 0) (Fin 0) ->
    exists c', oc_call (fun _ => Fin 0) c o it = (c', Ok (check_iter (set_max_iter (train_steps (o_niter o)) c) it)) /\ watch c' "both" "wrong" "wrong" (Fin 0) (Fin 0)).
  { intros c o it [M Mo Me T L]. unfold oc_call. cbv zeta. set (c0 := set_max_iter _ c).
    assert (Cl : check_l c0 o = (c0, Ok false)) by (unfold check_l, c0; cbn [tol_lambda set_max_iter]; rewrite L, Z; reflexivity).
    assert (Ct : check_t (fun _ => Fin 0) c0 o = (c0, Ok false)) by (unfold check_t, c0; cbn [tol_theta set_max_iter]; rewrite T, Z; reflexivity).
    unfold check_all_params, combine. rewrite Cl, Ct. unfold c0 at 1. cbn [monitoring set_max_iter]. rewrite M. cbn [mem]. exists c0. split; [|constructor; assumption].
    change (mem "both" L_AND_T) with true. cbn [andb]. rewrite orb_false_r. reflexivity. }
  set (c := {| tol_theta := Fin 0 |}). assert (W : watch c "both" "wrong" "wrong" (Fin 0) (Fin 0)) by (constructor; reflexivity).
  unfold make_checks. destruct (Q c bare 1%Z W) as (c1 & E1 & W1). rewrite E1, (iter1 (Some 100%Z) bare c B).
  destruct (Q c1 bare 1000%Z W1) as (c2 & E2 & W2). rewrite E2, (iter1000 100 bare c1 B). cbn [assert_ negb orb].
  destruct (Q c2 bare 2%Z W2) as (c3 & E3 & W3). rewrite E3. reflexivity.
Qed.

Print Assumptions C147_opt_cond_wrong_refuted.

(* ---- test_hybrid_sgd ---- *)
Lemma eq_list_refl u : eq_list u u = true.
Proof. induction u as [|x u IH]; simpl; [reflexivity|]. rewrite IH. replace (Reqb x x) with true by (symmetry; apply Reqb_true; reflexivity). reflexivity. Qed.
Lemma eq_list_eq u v : u = v -> eq_list u v = true.
Proof. intros ->. apply eq_list_refl. Qed.

(* The step of the test does what its two formulas say for all parameters and rates: the multiplicative one starting anywhere positive. *)
Theorem C147_hybrid_sgd :
  forall a b lr_a lr_b, Forall (fun x => 0 < x) a -> test_hybrid_sgd a b lr_a lr_b = Ok Datatypes.tt.
Proof.
  intros a b lr_a lr_b P. unfold test_hybrid_sgd, hybrid_groups, hstep, apply_rules, PRERULES, POSTRULES, intersection.
  cbn -[pre_mwu post_mwu post_non_neg post_simplex rule_max pre_bound].
  assert (F : forallb (fun x => Rltb 0 x) a = true) by (apply forallb_forall; intros x I; apply Rltb_true; exact (proj1 (Forall_forall _ _) P x I)).
  unfold pre_mwu at 1. cbn [val]. rewrite F. cbn -[eq_list].
  rewrite (eq_list_eq (map (fun x => x * exp (- lr_a * (2 * x))) a)).
  - cbn [assert_ bind]. rewrite eq_list_eq; [reflexivity|]. clear. induction b as [|x b IH]; [reflexivity|]. cbn. f_equal; [apply Rmax_comm|exact IH].
  - clear F. induction P as [|x a Hx Pa IH]; [reflexivity|]. cbn. f_equal; [|exact IH].
    unfold Rminus. rewrite exp_plus, exp_ln by exact Hx. f_equal. f_equal. lra.
Qed.
Print Assumptions C147_hybrid_sgd.
Example C147_hybrid_sgd_case : Forall (fun x => 0 < x) [1 / 2; 3].
Proof. repeat constructor; lra. Qed.

(* The parameter is drawn by torch.rand, that is in [0, 1): at the end 0 the step refuses it and the test fails. *)
Theorem C147_hybrid_sgd_refuted :
  exists a b, Forall (fun x => 0 <= x < 1) (a ++ b) /\ forall lr_a lr_b, test_hybrid_sgd a b lr_a lr_b = Raise AssertionError.
Proof.
  exists [0], [1 / 2]. split; [constructor; [lra|constructor; [lra|constructor]]|]. intros lr_a lr_b.
  unfold test_hybrid_sgd, hybrid_groups, hstep, apply_rules, PRERULES, POSTRULES, intersection.
  cbn -[pre_mwu post_mwu post_non_neg post_simplex rule_max pre_bound]. unfold pre_mwu at 1. cbn [val forallb].
  replace (Rltb 0 0) with false by (symmetry; apply Rltb_false; lra). reflexivity.
Qed.
Print Assumptions C147_hybrid_sgd_refuted.

(* ---- test_costs ---- *)
(* a sampler of the data exists for every norm and power the tests list, and is refused for the supremum norm with power two *)
Theorem C147_sampler_data :
  forall p power xi eps, 0 < eps ->
    (test_sampler_data_p_power p power xi eps = Ok Datatypes.tt <-> supported p power \/ p = PInf /\ power = Fin 2).
Proof.
  intros p power xi eps He. unfold test_sampler_data_p_power.
  destruct (sampler_data_ok (SNC p power) xi (Some eps) He) as [A B]. simpl sc_p in *. simpl sc_power in *.
  destruct (xeq p PInf && xeq power (Fin 2))%bool eqn:E.
  - apply andb_true_iff in E. destruct E as [E1 E2]. assert (Ep : p = PInf) by (destruct p; simpl in E1; try discriminate; reflexivity).
    assert (Ew : power = Fin 2) by (destruct power as [r| | |]; simpl in E2; try discriminate; apply Reqb_true in E2; congruence). subst.
    assert (N : ~ supported PInf (Fin 2)) by (unfold supported; intuition (try discriminate); match goal with H : Fin _ = Fin _ |- _ => injection H; intros; lra end).
    rewrite (B N). simpl. tauto.
  - assert (Q : ~ (p = PInf /\ power = Fin 2)).
    { intros [-> ->]. simpl in E. replace (Reqb 2 2) with true in E by (symmetry; apply Reqb_true; reflexivity). discriminate. }
    split.
    + intros H. left. destruct (sampler_data (SNC p power) xi (Some eps)) as [d|e] eqn:S; [|simpl in H; discriminate].
      destruct (Classical_Prop.classic (supported p power)) as [Y|N]; [exact Y|]. specialize (B N). congruence.
    + intros [H|H]; [|contradiction]. destruct (A H) as [d ->]. reflexivity.
Qed.
Print Assumptions C147_sampler_data.
Example C147_sampler_data_case : supported (Fin 1) (Fin 1).
Proof. unfold supported. auto. Qed.

Lemma map2_half_ext (u v : vec) : map2 (fun x r => x + 5 / 10 * r) u v = vadd u (vscal (/ 2) v).
Proof.
  revert v. induction u as [|x u IH]; intros [|r v]; try reflexivity. cbn. f_equal; [lra|]. exact (IH v).
Qed.
Lemma xeq_refl_fin r : xeq (Fin r) (Fin r) = true. Proof. simpl. apply Reqb_true. reflexivity. Qed.
Lemma xlist_eq_map2 k (y r : vec) : 0 < k -> xlist_eq (map2 (label_shift (KFin k)) y r) (map2 (fun v r => Fin (v + 5 / 10 * r / k)) y r) = true.
Proof.
  intros K. unfold xlist_eq. revert r. induction y as [|a y IH]; intros [|b r]; try reflexivity. cbn [map2 List.length List.combine forallb fst snd].
  specialize (IH r). apply andb_true_iff in IH. destruct IH as [I1 I2]. simpl Nat.eqb. rewrite I1, I2. rewrite andb_true_r. cbn [andb].
  unfold label_shift. simpl xdiv. destruct (Reqb k 0) eqn:E; [apply Reqb_true in E; lra|]. simpl. apply Reqb_true. field. lra.
Qed.

(* The closed forms the tests compare the solution with are right for all points and right-hand sides. *)
Theorem C147_solve :
  (forall xi y rhs rhs_y, test_nc_solve (PFin 2) 2 xi y rhs rhs_y = Ok Datatypes.tt) /\
  (forall p power k xi y rhs rhs_y, 0 < k -> test_nlc_solve p power k xi y rhs rhs_y = Ok Datatypes.tt).
Proof.
  assert (T : Reqb 2 2 = true) by (apply Reqb_true; reflexivity). split.
  - intros xi y rhs rhs_y. unfold test_nc_solve, nc_solve_max. replace (nexp_is_2 (PFin 2)) with true by (symmetry; simpl; exact T). rewrite T. cbn [andb bind].
    rewrite eq_list_eq by (symmetry; apply map2_half_ext). cbn [assert_ bind]. rewrite eq_list_refl. reflexivity.
  - intros p power k xi y rhs rhs_y K. unfold test_nlc_solve, nlc_solve_max.
    replace (Reqb 2 power) with (Reqb power 2).
    + destruct (nexp_is_2 p && Reqb power 2)%bool; [|reflexivity]. cbn [bind].
      rewrite eq_list_eq by (symmetry; apply map2_half_ext). cbn [assert_ bind]. rewrite xlist_eq_map2 by exact K. reflexivity.
    + destruct (Reqb power 2) eqn:E; symmetry; [apply Reqb_true in E; apply Reqb_true; lra|apply Reqb_false in E; apply Reqb_false; lra].
Qed.
Print Assumptions C147_solve.

(* ---- dirac_test ---- *)
(* The log-probability is 0 at the location and -inf after adding any number but 0 to its entries, for every finite location with entries. *)
Theorem C147_dirac :
  forall loc n d, well_shaped loc -> finite_list (t_data loc) ->
    test_log_prob_at_loc loc n = Ok Datatypes.tt /\
    (t_data loc <> [] -> d <> 0 -> test_log_prob_away loc n d = Ok Datatypes.tt).
Proof.
  intros loc n d Ws F. assert (Lp : forall v : list xr, length v = length (t_data loc) -> length v = prod ([] ++ t_shape loc)) by (intros v E; rewrite E; exact Ws).
  assert (Rs : t_data (dirac_rsample (Dirac loc n) []) = t_data loc) by (simpl; apply app_nil_r). split.
  - unfold test_log_prob_at_loc. destruct (log_prob_finite loc n [] (t_data loc) Ws F F (Lp _ eq_refl)) as [A _]. rewrite A by (symmetry; exact Rs).
    rewrite xeq_refl_fin. reflexivity.
  - intros Ne Hd. unfold test_log_prob_away. set (v := map _ _).
    assert (Fv : finite_list v).
    { unfold v, finite_list in *. rewrite Forall_map. eapply Forall_impl; [|exact F]. intros x Hx. cbv beta in *. destruct x as [r| | |]; simpl in *; try contradiction; try (destruct Hx; discriminate); eauto. }
    destruct (log_prob_finite loc n [] v Ws F Fv) as [_ B]; [apply Lp; unfold v; apply map_length|].
    rewrite B; [reflexivity|]. rewrite Rs. unfold v. intros E. destruct (t_data loc) as [|x l]; [congruence|]. injection E as E _.
    inversion F; subst. destruct x as [r| | |]; simpl in *; try contradiction; try (match goal with H : exists _, _ |- _ => destruct H; discriminate end).
    injection E as E. lra.
Qed.
Print Assumptions C147_dirac.
Example C147_dirac_case : well_shaped {| t_shape := [3]%nat; t_data := [Fin 1; Fin 2; Fin 3] |} /\ finite_list [Fin 1; Fin 2; Fin 3].
Proof. split; [reflexivity|]. repeat constructor; eauto. Qed.

(* In the numbers of the test, float32, the smallest change it tries, 1e-7, is seen at the location [1; 2; 3]. *)
Definition e_minus_7 : dyadic := Dy 14073749 (-47).     (* float32(1e-7) *)

Lemma d2r_int x : d2r (Dy x 0) = IZR x.
Proof. unfold d2r, two_pow. simpl. lra. Qed.
Theorem C147_small_difference : test_log_prob_small [Dy 1 0; Dy 2 0; Dy 3 0] e_minus_7 = Ok Datatypes.tt.
Proof.
  unfold test_log_prob_small. set (t := {| t_shape := _ |}). set (v := map _ _).
  assert (Ws : well_shaped t) by reflexivity.
  assert (F : finite_list (t_data t)) by (simpl; repeat constructor; eauto).
  assert (Fv : finite_list v) by (unfold v; simpl; repeat constructor; eauto).
  destruct (log_prob_finite t 0 [] v Ws F Fv eq_refl) as [_ B]. rewrite B; [reflexivity|].
  change (t_data (dirac_rsample (Dirac t 0) [])) with [Fin (d2r (Dy 1 0)); Fin (d2r (Dy 2 0)); Fin (d2r (Dy 3 0))].
  unfold v. cbn [map]. change (add32 (Dy 1 0) e_minus_7) with (Dy 8388609 (-23)). intros E. injection E as E _ _. rewrite d2r_int in E.
  unfold d2r, two_pow in E. cbn [dm de] in E. change (powerRZ 2 (-23)) with (/ (2 ^ 23)) in E. 
  assert (P : 2 ^ 23 = 8388608) by (simpl; lra). rewrite P in E. lra.
Qed.
Print Assumptions C147_small_difference.

Lemma log2_lift x c s : (0 < x)%Z -> (0 <= s)%Z -> (0 <= c < 2 ^ s)%Z -> Z.log2 (x * 2 ^ s + c) = (Z.log2 x + s)%Z.
Proof.
  intros X S C. apply Z.log2_unique; [pose proof (Z.log2_nonneg x); lia|]. destruct (Z.log2_spec x X) as [A B].
  assert (P : (0 < 2 ^ s)%Z) by (apply Z.pow_pos_nonneg; lia). pose proof (Z.log2_nonneg x) as N.
  replace (Z.succ (Z.log2 x + s)) with (Z.succ (Z.log2 x) + s)%Z by lia. rewrite !Z.pow_add_r by lia. split; nia.
Qed.

(* the sum rounds back to the integer, from 2 on *)
Lemma add32_lost x : (2 <= x < 2 ^ 24)%Z -> d2r (add32 (Dy x 0) e_minus_7) = IZR x.
Proof.
  intros X. unfold add32, dy_add, e_minus_7. cbn [dm de]. change (Z.min 0 (-47)) with (-47)%Z. change (0 - -47)%Z with 47%Z.
  change (-47 - -47)%Z with 0%Z. change (2 ^ 0)%Z with 1%Z. change (14073749 * 1)%Z with 14073749%Z. set (m := (x * 2 ^ 47 + 14073749)%Z).
  assert (Lm : Z.log2 m = (Z.log2 x + 47)%Z) by (apply log2_lift; [lia|lia|split; [lia|reflexivity]]).
  assert (Am : Z.abs m = m) by (apply Z.abs_eq; unfold m; lia).
  assert (L1 : (1 <= Z.log2 x)%Z) by (change 1%Z with (Z.log2 2); apply Z.log2_le_mono; lia).
  assert (L2 : (Z.log2 x <= 23)%Z) by (assert (Z.log2 x < 24)%Z by (apply Z.log2_lt_pow2; lia); lia).
  unfold round_to, last_place. cbn [dm de]. rewrite Am, Lm. cbn [prec emin float32].
  replace (Z.max (Z.log2 x + 47 + -47 - (24 - 1)) (-149)) with (Z.log2 x - 23)%Z by lia.
  replace (Z.log2 x - 23 <=? -47)%Z with false by (symmetry; apply Z.leb_gt; lia).
  replace (Z.log2 x - 23 - -47)%Z with (Z.log2 x + 24)%Z by lia. set (s := (Z.log2 x + 24)%Z).
  assert (S : (25 <= s <= 47)%Z) by (unfold s; lia). assert (P : (2 ^ 25 <= 2 ^ s)%Z) by (apply Z.pow_le_mono_r; lia).
  assert (M : m = (x * 2 ^ (47 - s) * 2 ^ s + 14073749)%Z).
  { unfold m. rewrite <- Z.mul_assoc, <- Z.pow_add_r by lia. replace (47 - s + s)%Z with 47%Z by lia. reflexivity. }
  assert (C25 : (2 ^ 25 = 33554432)%Z) by reflexivity.
  assert (Q : (m / 2 ^ s = x * 2 ^ (47 - s))%Z) by (symmetry; apply (Z.div_unique_pos m (2 ^ s) _ 14073749); lia).
  assert (Rm : (m mod 2 ^ s = 14073749)%Z) by (symmetry; apply (Z.mod_unique_pos m (2 ^ s) (x * 2 ^ (47 - s))); lia).
  unfold div_even. rewrite Q, Rm. replace (2 * 14073749 ?= 2 ^ s)%Z with Lt by (symmetry; apply Z.compare_lt_iff; lia).
  unfold d2r, two_pow. cbn [dm de]. rewrite mult_IZR. replace (Z.log2 x - 23)%Z with (- (47 - s))%Z by (unfold s; lia).
  assert (T : IZR (2 ^ (47 - s)) = powerRZ 2 (47 - s)).
  { rewrite <- (Z2Nat.id (47 - s)) by lia. rewrite <- pow_IZR. rewrite <- pow_powerRZ. reflexivity. }
  rewrite T, Rmult_assoc, <- powerRZ_add by lra. replace (47 - s + - (47 - s))%Z with 0%Z by lia. simpl. lra.
Qed.

(* The other entries of that location do not see it: at every location of whole numbers from 2 on, the test fails. *)
Theorem C147_small_difference_lost :
  forall zs, Forall (fun z => (2 <= z < 2 ^ 24)%Z) zs -> test_log_prob_small (map (fun z => Dy z 0) zs) e_minus_7 = Raise AssertionError.
Proof.
  intros zs H. unfold test_log_prob_small. set (t := {| t_shape := _ |}). set (v := map _ _).
  assert (Ws : well_shaped t) by (unfold well_shaped; simpl; rewrite !map_length; lia).
  assert (F : finite_list (t_data t)) by (simpl; unfold finite_list; rewrite !Forall_map; apply Forall_forall; eauto).
  assert (Ev : v = t_data t).
  { unfold v. simpl. rewrite !map_map. apply map_ext_in. intros z I. rewrite add32_lost by exact (proj1 (Forall_forall _ _) H z I). rewrite d2r_int. reflexivity. }
  destruct (log_prob_finite t 0 [] v Ws F) as [A _].
  - rewrite Ev. exact F.
  - rewrite Ev. exact Ws.
  - rewrite A; [reflexivity|]. rewrite Ev. simpl. symmetry. apply app_nil_r.
Qed.
Print Assumptions C147_small_difference_lost.
Example C147_small_difference_lost_case : Forall (fun z => (2 <= z < 2 ^ 24)%Z) [2; 3; 1000]%Z.
Proof. repeat constructor; lia. Qed.
Theorem C147_small_difference_refuted : exists loc, loc <> [] /\ test_log_prob_small loc e_minus_7 <> Ok Datatypes.tt.
Proof.
  exists [Dy 2 0; Dy 3 0]. split; [discriminate|].
  change [Dy 2 0; Dy 3 0] with (map (fun z => Dy z 0) [2; 3]%Z). rewrite C147_small_difference_lost; [discriminate|]. repeat constructor; lia.
Qed.
Print Assumptions C147_small_difference_refuted.
(* The sum that is rounded is the exact one, whichever of the two numbers is finer. *)
Lemma two_pow_Z k : (0 <= k)%Z -> IZR (2 ^ k) = powerRZ 2 k.
Proof. intros K. rewrite <- (Z2Nat.id k) by lia. rewrite <- pow_IZR, <- pow_powerRZ. reflexivity. Qed.
Theorem C147_exact_sum : forall x y, d2r (dy_add x y) = d2r x + d2r y.
Proof.
  intros [mx ex] [my ey]. unfold d2r, dy_add, two_pow. cbn [dm de]. set (e := Z.min ex ey).
  assert (e <= ex)%Z by (unfold e; lia). assert (e <= ey)%Z by (unfold e; lia).
  rewrite plus_IZR, !mult_IZR, !two_pow_Z by lia. rewrite Rmult_plus_distr_r, !Rmult_assoc, <- !powerRZ_add by lra.
  replace (ex - e + e)%Z with ex by lia. replace (ey - e + e)%Z with ey by lia. reflexivity.
Qed.
Print Assumptions C147_exact_sum.
Example C147_exact_sum_case : d2r (dy_add (Dy 1 (-3)) (Dy 1 2)) = 33 / 8.
Proof. rewrite C147_exact_sum. unfold d2r, two_pow. simpl. lra. Qed.
