From Coq Require Import Reals List Bool String ZArith Arith Lra Lia.
From Verif Require Import PyBase XReal OptCond_Model OptCond_Spec OptCond_Proofs EstCond_Model.
Import ListNotations.

Section W.
Variable vnorm : list xr -> xr.
(* no two estimators hold the same condition *)
Definition separate (w : world) : Prop :=
  (forall e l, opt_cond w e = Some l -> l < next w) /\ (forall e e' l, opt_cond w e = Some l -> opt_cond w e' = Some l -> e = e').
(* what estimator e sees: its condition *)
Definition view (w : world) (e : nat) : option oc := match opt_cond w e with None => None | Some l => Some (conds w l) end.
Lemma default_ok : exists c, default_cond = Ok c /\ fresh c.
Proof. eexists. split; [reflexivity|repeat split]. Qed.
Lemma fit_spec w e hs : exists c, (view w e = Some c \/ (view w e = None /\ default_cond = Ok c)) /\
  snd (fit vnorm w e hs) = answers vnorm c hs /\ view (fst (fit vnorm w e hs)) e = Some (cond_after vnorm c hs).
Proof.
  unfold fit, ensure_cond, view. destruct (opt_cond w e) as [l|] eqn:E.
  - exists (conds w l). split; [left; reflexivity|]. cbn. rewrite E. unfold upd. rewrite Nat.eqb_refl. split; reflexivity.
  - destruct default_ok as (c & Hc & _). rewrite Hc. exists c. split; [right; split; reflexivity|]. cbn. unfold upd. rewrite !Nat.eqb_refl. split; reflexivity.
Qed.
Lemma fit_frame w e e' hs : separate w -> e <> e' -> view (fst (fit vnorm w e' hs)) e = view w e.
Proof.
  intros [S1 S2] Hne. unfold fit, ensure_cond, view. destruct (opt_cond w e') as [l'|] eqn:E'.
  - cbn. destruct (opt_cond w e) as [l|] eqn:E; [|reflexivity]. unfold upd. destruct (l =? l') eqn:K; [|reflexivity].
    apply Nat.eqb_eq in K. subst l'. exfalso. apply Hne. eapply S2; eassumption.
  - destruct default_ok as (c & Hc & _). rewrite Hc. cbn. unfold upd at 1 3. assert (K : e =? e' = false) by (apply Nat.eqb_neq; exact Hne). rewrite K.
    destruct (opt_cond w e) as [l|] eqn:E; [|reflexivity]. unfold upd. apply S1 in E. assert (L : l =? next w = false) by (apply Nat.eqb_neq; lia). rewrite L. reflexivity.
Qed.
Lemma fit_separate w e hs : separate w -> separate (fst (fit vnorm w e hs)).
Proof.
  intros [S1 S2]. unfold fit, ensure_cond. destruct (opt_cond w e) as [l|] eqn:E.
  - split; cbn; assumption.
  - destruct default_ok as (c & Hc & _). rewrite Hc. cbn. split; cbn; unfold upd.
    + intros a k. destruct (a =? e); intros H; [injection H as <-; lia|]. apply S1 in H. lia.
    + intros a b k. destruct (a =? e) eqn:A, (b =? e) eqn:B; intros H1 H2; try apply Nat.eqb_eq in A; try apply Nat.eqb_eq in B; try congruence.
      * injection H1 as <-. apply S1 in H2. lia.
      * injection H2 as <-. apply S1 in H1. lia.
      * eapply S2; eassumption.
Qed.
Lemma program_local e evs : forall w w', separate w -> separate w' -> view w e = view w' e ->
  filter (fun p => fst p =? e) (program vnorm w evs) = program vnorm w' (filter (fun p => fst p =? e) evs).
Proof.
  induction evs as [|[a hs] evs IH]; intros w w' Sw Sw' HV; [reflexivity|].
  cbn [program]. destruct (fit vnorm w a hs) as [w1 x] eqn:F. cbn [filter fst]. destruct (a =? e) eqn:K.
  - apply Nat.eqb_eq in K. subst a. cbn [program]. destruct (fit vnorm w' e hs) as [w1' x'] eqn:F'.
    destruct (fit_spec w e hs) as (c & Hc & A & B). destruct (fit_spec w' e hs) as (c' & Hc' & A' & B').
    assert (c' = c) by (rewrite HV in Hc; destruct Hc as [Hc|[Hc ?]], Hc' as [Hc'|[Hc' ?]]; congruence). subst c'.
    rewrite F in A, B. rewrite F' in A', B'. cbn in A, B, A', B'. f_equal; [congruence|].
    apply IH; [pose proof (fit_separate w e hs Sw) as X; rewrite F in X; exact X|pose proof (fit_separate w' e hs Sw') as X; rewrite F' in X; exact X|congruence].
  - apply Nat.eqb_neq in K. apply IH; [pose proof (fit_separate w a hs Sw) as X; rewrite F in X; exact X|exact Sw'|].
    pose proof (fit_frame w e a hs Sw (not_eq_sym K)) as X. rewrite F in X. cbn in X. congruence.
Qed.
End W.

Lemma default_witness (g : R) : exists c, default_cond = Ok c /\ fresh c /\ In (monitoring c) JUST_T /\ metric c = "grad"%string /\ mode c = mode_name Rel /\
  tol_theta c = Fin (/ 100000000) /\ xlt (Fin 0) (tol_theta c) = true.
Proof.
  eexists. split; [reflexivity|]. split; [repeat split|]. split; [left; reflexivity|]. split; [reflexivity|]. split; [reflexivity|]. split; [reflexivity|].
  cbn. apply Rltb_true. lra.
Qed.
Local Open Scope R_scope.
(* a run whose gradient is small from the start *)
Definition small_run : list (obs * Z) := [(shot 1 1 (/ 1000000000) 0 10, 0%Z); (shot 1 1 (/ 1000000000) 0 10, 1%Z)].
Definition big_run : list (obs * Z) := [(shot 0 1 1 0 10, 0%Z)].
Lemma small_budget : Forall in_budget small_run.
Proof. repeat constructor; unfold in_budget; cbn; lia. Qed.
Lemma small_alone c : default_cond = Ok c -> answers abs1 c small_run = [Ok false; Ok false].
Proof.
  intros H. destruct (default_witness 0) as (c' & H' & F & M & Me & Mo & T & P). assert (c' = c) by congruence. subst c'.
  unfold answers. assert (E : evals abs1 c small_run = [Ok false; Ok false]); [|rewrite E; reflexivity].
  unfold small_run. rewrite (grad_theta abs1 c Rel) with (g0 := [Fin (/ 1000000000)]) (gs := [[Fin (/ 1000000000)]]); auto.
  - cbn [map passes]. rewrite T. cbn. do 3 f_equal. apply Rltb_false. rewrite !Rabs_right by lra. lra.
  - repeat constructor; exists [[Fin (/ 1000000000)]]; repeat split; discriminate.
  - apply small_budget.
Qed.
Lemma small_after c : default_cond = Ok c -> answers abs1 (cond_after abs1 c big_run) small_run = [Ok true].
Proof.
  intros H. destruct (default_witness 0) as (c' & H' & F & M & Me & Mo & T & P). assert (c' = c) by congruence. subst c'.
  assert (B : evals abs1 c big_run = [Ok false]).
  { unfold big_run. rewrite (grad_theta abs1 c Rel) with (g0 := [Fin 1]) (gs := []); auto.
    - repeat constructor; exists [[Fin 1]]; repeat split; discriminate.
    - repeat constructor; unfold in_budget; cbn; lia. }
  unfold cond_after. rewrite B. cbn [made firstn big_run].
  unfold answers. assert (E : evals abs1 (oc_after abs1 c [(shot 0 1 1 0 10, 0%Z)]) small_run = [Ok true; Ok true]).
  { rewrite (second_fit abs1 c Rel) with (g0 := [Fin 1]) (gs2 := [[Fin (/ 1000000000)]; [Fin (/ 1000000000)]]); auto.
    - cbn [map passes]. rewrite T. cbn. assert (X : Rltb (Rabs (/ 1000000000)) (/ 100000000 * Rabs 1) = true) by (apply Rltb_true; rewrite !Rabs_right by lra; lra). rewrite X. reflexivity.
    - exists [[Fin 1]]. repeat split; discriminate.
    - repeat constructor; exists [[Fin (/ 1000000000)]]; repeat split; discriminate.
    - apply small_budget. }
  rewrite E. reflexivity.
Qed.
Lemma oc_init_ok o tt tl mi mon mo me : (exists c, oc_init o tt tl mi mon mo me = Ok c) <-> o = OrdStr "inf" \/ exists n, o = OrdInt n /\ (0 < n)%Z.
Proof.
  unfold oc_init, assert_. destruct o as [n|s].
  - destruct (0 <? n)%Z eqn:E; cbn; split; intros H.
    + right. exists n. split; [reflexivity|]. apply Z.ltb_lt. exact E.
    + eauto.
    + destruct H; discriminate.
    + destruct H as [H|(m & H & L)]; [discriminate|]. injection H as <-. apply Z.ltb_lt in L. congruence.
  - destruct (String.eqb s "inf") eqn:E; cbn; split; intros H.
    + left. apply String.eqb_eq in E. subst. reflexivity.
    + eauto.
    + destruct H; discriminate.
    + destruct H as [H|(m & H & L)]; [|discriminate]. injection H as ->. discriminate.
Qed.
