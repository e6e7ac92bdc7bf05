(* C128: cloning estimators, and the fits of a search. *)
From Coq Require Import Reals List Bool String ZArith Arith Lia Lra.
From Verif Require Import PyBase XReal OptCond_Model OptCond_Spec OptCond_Proofs EstCond_Model EstCond_Proofs Clone_Model.
Import ListNotations.

(* nothing computed from parameters is remembered *)
Definition plain (c : oc) : Prop := t_0 c = None /\ t_mem c = None /\ delta_t_1 c = None /\ delta_l_1 c = None /\ l_0 c = None /\ l_mem c = None.

Lemma fresh_plain c : fresh c -> plain c.
Proof. intros (H1 & H2 & H3 & H4 & H5 & H6 & H7 & H8). repeat split; assumption. Qed.
Lemma plain_copy b rn c : plain c -> deepcopy b rn c = Ok c.
Proof.
  intros (H1 & H2 & H3 & H4 & H5 & H6). unfold deepcopy. rewrite H1, H2, H3, H4, H5, H6. cbn. rewrite andb_false_r. f_equal.
  rewrite (oc_eta c) at 9. rewrite H1, H2, H3, H4, H5, H6. reflexivity.
Qed.

Section Grad.
Variable vnorm : list xr -> xr.
Lemma check_t_plain c o : metric c = "grad"%string -> plain c -> plain (fst (check_t vnorm c o)) /\ metric (fst (check_t vnorm c o)) = "grad"%string.
Proof.
  intros M P. unfold check_t. destruct (xle (tol_theta c) (Fin 0)); [auto|]. rewrite M, String.eqb_refl. destruct (get_flat_grad o); [|auto].
  destruct (t_grad_0 c); [auto|]. cbn. auto.
Qed.
Lemma check_l_plain c o : metric c = "grad"%string -> plain c -> plain (fst (check_l c o)) /\ metric (fst (check_l c o)) = "grad"%string.
Proof.
  intros M P. unfold check_l. destruct (xle (tol_lambda c) (Fin 0)); [auto|]. rewrite M, String.eqb_refl. destruct (lam_grad o); [|auto].
  destruct (l_grad_0 c); [auto|]. cbn. auto.
Qed.
Lemma combine_plain f c o : metric c = "grad"%string -> plain c -> plain (fst (combine vnorm f c o)) /\ metric (fst (combine vnorm f c o)) = "grad"%string.
Proof.
  intros M P. unfold combine. destruct (check_l_plain c o M P) as [P1 M1]. destruct (check_l c o) as [c1 [a|]]; [|auto].
  destruct (check_t_plain c1 o M1 P1) as [P2 M2]. destruct (check_t vnorm c1 o) as [c2 [b|]]; auto.
Qed.
Lemma call_plain c o it : metric c = "grad"%string -> plain c -> plain (fst (oc_call vnorm c o it)) /\ metric (fst (oc_call vnorm c o it)) = "grad"%string.
Proof.
  intros M P. rewrite call_fst. set (c0 := set_max_iter _ c). assert (M0 : metric c0 = "grad"%string) by exact M. assert (P0 : plain c0) by exact P. clearbody c0.
  unfold check_all_params. repeat match goal with |- context [if ?b then _ else _] => destruct b end; auto using combine_plain, check_t_plain, check_l_plain.
Qed.
Lemma after_plain hs : forall c, metric c = "grad"%string -> plain c -> plain (oc_after vnorm c hs) /\ metric (oc_after vnorm c hs) = "grad"%string.
Proof.
  induction hs as [|[o it] hs IH]; intros c M P; [auto|]. cbn [oc_after]. destruct (call_plain c o it M P) as [P1 M1]. apply IH; assumption.
Qed.
End Grad.

(* A condition on gradients can always be copied, and the copy remembers what the original has seen: it answers the same on every run. *)
Theorem C128_gradient_clones : forall vnorm b rn o tt tl mi mon mo c hs, oc_init o tt tl mi mon mo "grad" = Ok c ->
  exists c', deepcopy b rn (oc_after vnorm c hs) = Ok c' /\ forall run, evals vnorm c' run = evals vnorm (oc_after vnorm c hs) run.
Proof.
  intros vnorm b rn o tt tl mi mon mo c hs H. exists (oc_after vnorm c hs). split; [|reflexivity]. apply plain_copy. apply after_plain.
  - unfold oc_init in H. destruct (match o with OrdInt n => assert_ (0 <? n)%Z | OrdStr s => assert_ (s =? "inf")%string end); cbn in H; [|discriminate]. injection H as <-. reflexivity.
  - apply fresh_plain. unfold oc_init in H. destruct (match o with OrdInt n => assert_ (0 <? n)%Z | OrdStr s => assert_ (s =? "inf")%string end); cbn in H; [|discriminate]. injection H as <-. repeat split.
Qed.
Print Assumptions C128_gradient_clones.

(* A condition on the parameters cannot be copied once it has been used: from its first evaluation on, cloning the estimator raises. *)
Theorem C128_parameter_clone_raises : forall vnorm b rn o tt tl mi mon mo c h hs,
  oc_init o tt tl mi mon mo "param" = Ok c -> In mon (JUST_T ++ L_AND_T ++ L_OR_T) -> xlt (Fin 0) tt = true -> Forall (fun k => o_theta (fst k) <> []) (h :: hs) ->
  deepcopy b rn c = Ok c /\ deepcopy b rn (oc_after vnorm c (h :: hs)) = Raise RuntimeError.
Proof.
  intros vnorm b rn o tt tl mi mon mo c h hs H Hm Ht F.
  assert (I : fresh c /\ tol_theta c = tt /\ monitoring c = mon /\ metric c = "param"%string).
  { unfold oc_init in H. destruct (match o with OrdInt n => assert_ (0 <? n)%Z | OrdStr s => assert_ (s =? "inf")%string end); cbn in H; [|discriminate]. injection H as <-. repeat split. }
  destruct I as (Fr & T & Mo & Me). split; [apply plain_copy, fresh_plain, Fr|].
  assert (K : forall hs c, computed (t_0 c) = true -> computed (t_0 (oc_after vnorm c hs)) = true).
  { clear. induction hs as [|[o it] hs IH]; intros c C; [exact C|]. cbn [oc_after]. apply IH. rewrite call_fst. set (c0 := set_max_iter _ c). assert (C0 : computed (t_0 c0) = true) by exact C. clearbody c0.
    assert (KT : forall c, computed (t_0 c) = true -> computed (t_0 (fst (check_t vnorm c o))) = true).
    { intros k Hk. unfold check_t. destruct (t_0 k) as [z|] eqn:Ez; [|discriminate].
      repeat match goal with |- context [match ?x with _ => _ end] => destruct x; cbn; rewrite ?Ez; try reflexivity end. }
    assert (KL : forall c, computed (t_0 c) = true -> computed (t_0 (fst (check_l c o))) = true).
    { intros k Hk. destruct (check_l_frame k o) as [E _]. unfold t_part in E. injection E as E1 E2. congruence. }
    unfold check_all_params. repeat match goal with |- context [if ?b then _ else _] => destruct b end; auto; unfold combine; specialize (KL c0 C0); destruct (check_l c0 o) as [c1 [a|]]; auto; cbn in KL; specialize (KT c1 KL); destruct (check_t vnorm c1 o) as [c2 [d|]]; auto. }
  unfold deepcopy. destruct h as [o1 it1]. cbn [oc_after]. rewrite K; [reflexivity|]. rewrite call_fst.
  inversion F as [|? ? Fh _]; subst. cbn in Fh. destruct Fr as (L2 & _ & L0 & Z0 & _ & _ & L1 & Z1).
  assert (Q : forall k, t_0 k = None -> tol_theta k = tol_theta c -> metric k = "param"%string -> computed (t_0 (fst (check_t vnorm k o1))) = true).
  { intros k K0 K1 K2. unfold check_t. rewrite K1, (xle_pos _ Ht), K2. cbn. unfold get_flat_param. destruct (o_theta o1) as [|t ts]; [contradiction|]. rewrite K0. reflexivity. }
  set (c0 := set_max_iter _ c).
  assert (C : forall f, computed (t_0 (fst (combine vnorm f c0 o1))) = true).
  { intros f. unfold combine, check_l. destruct (xle (tol_lambda c0) (Fin 0)).
    - pose proof (Q c0 Z0 eq_refl Me) as X. destruct (check_t vnorm c0 o1) as [c2 [d|]]; exact X.
    - assert (Mt : metric c0 = "param"%string) by exact Me. rewrite Mt. assert (Lz : l_0 c0 = None) by exact L0. rewrite Lz. cbn [String.eqb Ascii.eqb Bool.eqb fst snd]. cbn.
      match goal with |- context [check_t vnorm ?k o1] => pose proof (Q k Z0 eq_refl Me) as X; destruct (check_t vnorm k o1) as [c2 [d|]]; exact X end. }
  unfold check_all_params. assert (Mc : monitoring c0 = monitoring c) by reflexivity. rewrite Mc. rewrite !in_app_iff in Hm.
  destruct Hm as [Hm|[Hm|Hm]]; cbn in Hm; repeat match goal with H : _ \/ _ |- _ => destruct H as [H|H] end; try contradiction; rewrite <- Hm; cbn; first [apply C|apply (Q c0 Z0 eq_refl Me)].
Qed.
Print Assumptions C128_parameter_clone_raises.

(* ---------- a search over candidates ---------- *)
(* addresses in use are below the next free one *)
Definition allocated (w : world) : Prop := forall e l, opt_cond w e = Some l -> l < next w.
Section Search.
Variable vnorm : list xr -> xr.
Variable b : bool.
Variable rn : nat -> nat.

(* the condition a candidate starts from *)
Definition inherited (w : world) (e : nat) : Result oc := match view w e with None => default_cond | Some c => deepcopy b rn c end.

Lemma clone_fit w e e' hs c : allocated w -> e' <> e -> inherited w e = Ok c -> exists w1, clone b rn w e e' = Ok w1 /\
  snd (fit vnorm w1 e' hs) = answers vnorm c hs /\ allocated (fst (fit vnorm w1 e' hs)) /\ forall a, a <> e' -> view (fst (fit vnorm w1 e' hs)) a = view w a.
Proof.
  intros A Ne I. unfold inherited in I. unfold clone. destruct (opt_cond w e) as [l|] eqn:E.
  - assert (V : view w e = Some (conds w l)) by (unfold view; rewrite E; reflexivity). rewrite V in I. rewrite I. cbn [bind]. eexists. split; [reflexivity|].
    unfold fit, ensure_cond. cbn -[answers cond_after]. unfold upd. rewrite !Nat.eqb_refl. cbn -[answers cond_after]. rewrite !Nat.eqb_refl. split; [reflexivity|]. split.
    + intros a k. cbn. destruct (a =? e') eqn:K; rewrite ?K; intros H; [injection H as <-; lia|]. apply A in H. lia.
    + intros a Na. unfold view. cbn. assert (K : a =? e' = false) by (apply Nat.eqb_neq; exact Na). rewrite K. destruct (opt_cond w a) as [k|] eqn:Ea; [|reflexivity].
      apply A in Ea. assert (L : k =? next w = false) by (apply Nat.eqb_neq; lia). rewrite L. reflexivity.
  - assert (V : view w e = None) by (unfold view; rewrite E; reflexivity). rewrite V in I. eexists. split; [reflexivity|].
    unfold fit, ensure_cond. cbn -[answers cond_after default_cond]. unfold upd. rewrite !Nat.eqb_refl, I. cbn -[answers cond_after]. rewrite !Nat.eqb_refl. split; [reflexivity|]. split.
    + intros a k. cbn. destruct (a =? e') eqn:K; rewrite ?K; intros H; [injection H as <-; lia|]. apply A in H. lia.
    + intros a Na. unfold view. cbn. assert (K : a =? e' = false) by (apply Nat.eqb_neq; exact Na). rewrite !K. destruct (opt_cond w a) as [k|] eqn:Ea; [|reflexivity].
      apply A in Ea. assert (L : k =? next w = false) by (apply Nat.eqb_neq; lia). rewrite !L. reflexivity.
Qed.

Lemma search_spec e c : forall cands w, allocated w -> inherited w e = Ok c -> Forall (fun p => fst p <> e) cands ->
  exists w', search vnorm b rn w e cands = Ok (w', map (fun p => answers vnorm c (snd p)) cands) /\ forall a, ~ In a (map fst cands) -> view w' a = view w a.
Proof.
  induction cands as [|[e' hs] cands IH]; intros w A I F.
  - exists w. split; reflexivity.
  - inversion F as [|? ? F1 F2]; subst. cbn in F1. destruct (clone_fit w e e' hs c A F1 I) as (w1 & E1 & E2 & A2 & V2).
    cbn [search]. rewrite E1. cbn [bind]. destruct (fit vnorm w1 e' hs) as [w2 a]. cbn in E2, A2, V2. subst a.
    assert (I2 : inherited w2 e = Ok c) by (unfold inherited; rewrite V2 by auto; exact I).
    destruct (IH w2 A2 I2 F2) as (w3 & E3 & V3). rewrite E3. cbn [bind]. exists w3. split; [reflexivity|].
    intros x Hx. cbn in Hx. rewrite V3 by tauto. apply V2. intros ->. apply Hx. left. reflexivity.
Qed.
End Search.

(* The fits of a search do not influence each other: each candidate gets the answers of its own copy of the original's condition, whatever
   the number, the order and the runs of the others; the original and all other estimators are as before. *)
Theorem C128_candidates_independent : forall vnorm b rn w e cands c, allocated w -> Forall (fun p => fst p <> e) cands ->
  (view w e = None /\ default_cond = Ok c \/ exists c0, view w e = Some c0 /\ deepcopy b rn c0 = Ok c) ->
  exists w', search vnorm b rn w e cands = Ok (w', map (fun p => answers vnorm c (snd p)) cands) /\ forall a, ~ In a (map fst cands) -> view w' a = view w a.
Proof.
  intros vnorm b rn w e cands c A F H. apply search_spec; [exact A| |exact F]. unfold inherited. destruct H as [[V D]|(c0 & V & D)]; rewrite V; exact D.
Qed.
Print Assumptions C128_candidates_independent.

(* A search over an estimator with a condition on the parameters that was used before raises at the first candidate. *)
Theorem C128_search_raises : forall vnorm b rn w e l e' hs cands, opt_cond w e = Some l -> computed (t_0 (conds w l)) = true ->
  search vnorm b rn w e ((e', hs) :: cands) = Raise RuntimeError.
Proof. intros vnorm b rn w e l e' hs cands E C. cbn [search]. unfold clone. rewrite E. unfold deepcopy. rewrite C. reflexivity. Qed.
Print Assumptions C128_search_raises.

(* But the candidates inherit what other fits have left: with the default condition of a class, one earlier fit of any estimator of the class
   (here 0) makes every candidate of a search over a new estimator (1) stop at its first test. *)
Theorem C128_search_refuted : exists w l c big small, default_cond = Ok c /\ conds w l = c /\ opt_cond w 0 = Some l /\ opt_cond w 1 = Some l /\ Forall in_budget small /\
  (exists w1, search abs1 true S w 1 [(2, small); (3, small)] = Ok (w1, [[Ok false; Ok false]; [Ok false; Ok false]])) /\
  (exists w2, search abs1 true S (fst (fit abs1 w 0 big)) 1 [(2, small); (3, small)] = Ok (w2, [[Ok true]; [Ok true]])).
Proof.
  destruct default_ok as (c & Hc & F). set (w := {| conds := fun _ => c; next := 1; opt_cond := fun _ => Some 0 |}).
  exists w, 0, c, big_run, small_run. do 4 (split; [first [exact Hc|reflexivity]|]). split; [apply small_budget|].
  assert (Fc : Forall (fun p : nat * list (obs * Z) => fst p <> 1) [(2, small_run); (3, small_run)]) by (repeat constructor; cbn; lia). split.
  - destruct (C128_candidates_independent abs1 true S w 1 [(2, small_run); (3, small_run)] c) as (w1 & E & _).
    + intros e k. cbn. intros H. injection H as <-. lia.
    + exact Fc.
    + right. exists c. split; [reflexivity|]. apply plain_copy, fresh_plain, F.
    + exists w1. refine (eq_trans E _). cbn [map snd]. rewrite (small_alone c Hc). reflexivity.
  - destruct (C128_candidates_independent abs1 true S (fst (fit abs1 w 0 big_run)) 1 [(2, small_run); (3, small_run)] (cond_after abs1 c big_run)) as (w2 & E & _).
    + intros e k. cbn. intros H. injection H as <-. lia.
    + exact Fc.
    + right. exists (cond_after abs1 c big_run). split; [reflexivity|]. apply plain_copy. unfold cond_after.
      destruct default_ok as (c1 & Hc1 & _). apply (after_plain abs1 _ c); [|apply fresh_plain, F]. unfold default_cond, oc_init in Hc. cbn in Hc. injection Hc as <-. reflexivity.
    + exists w2. refine (eq_trans E _). cbn [map snd]. rewrite (small_after c Hc). reflexivity.
Qed.
Print Assumptions C128_search_refuted.

(* one use of a condition on the parameters, then a clone *)
Example C128_parameter_case : exists c, oc_init (OrdInt 2) (Fin 1) (Fin 0) None "t" "rel" "param" = Ok c /\
  deepcopy true S c = Ok c /\ deepcopy true S (oc_after abs1 c small_run) = Raise RuntimeError.
Proof.
  eexists. split; [reflexivity|]. apply (C128_parameter_clone_raises abs1 true S (OrdInt 2) (Fin 1) (Fin 0) None "t" "rel"); [reflexivity|right; left; reflexivity|cbn; apply Rltb_true; lra|].
  repeat constructor; discriminate.
Qed.
Example C128_gradient_case : exists c c', oc_init (OrdInt 2) (Fin 1) (Fin 0) None "both" "rel" "grad" = Ok c /\ deepcopy true S (oc_after abs1 c big_run) = Ok c'.
Proof. eexists. destruct (C128_gradient_clones abs1 true S (OrdInt 2) (Fin 1) (Fin 0) None "both" "rel" _ big_run eq_refl) as (c' & E & _). exists c'. split; [reflexivity|exact E]. Qed.
Example C128_search_raises_case : exists w c, oc_init (OrdInt 2) (Fin 1) (Fin 0) None "t" "rel" "param" = Ok c /\ conds w 0 = set_t None (Some [Fin 3]) None None c /\
  search abs1 true S w 0 [(1, small_run)] = Raise RuntimeError.
Proof.
  destruct C128_parameter_case as (c & Hc & _). exists {| conds := fun _ => set_t None (Some [Fin 3]) None None c; next := 1; opt_cond := fun _ => Some 0 |}, c.
  split; [exact Hc|]. split; [reflexivity|]. apply (C128_search_raises abs1 true S _ 0 0); reflexivity.
Qed.
