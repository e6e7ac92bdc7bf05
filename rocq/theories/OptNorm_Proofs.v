From Coq Require Import Reals List Bool String ZArith Lra Lia Psatz.
From Verif Require Import PyBase RList XReal Costs_Model Costs_Spec Costs_Proofs OptCond_Model OptCond_Spec OptCond_Proofs EstCond_Model OptNorm_Model.
Import ListNotations.
Local Open Scope R_scope.

Lemma vector_norm_fin o g : vector_norm o (map Fin g) = Fin (pnorm (norm_order o) g).
Proof.
  unfold vector_norm. assert (E1 : existsb isnan (map Fin g) = false) by (induction g; simpl; auto).
  assert (E2 : existsb (fun x => negb (isfinite x)) (map Fin g) = false) by (induction g; simpl; auto).
  rewrite E1, E2, map_map. do 2 f_equal. apply map_id.
Qed.

(* larger exponents give smaller norms *)
Lemma ppow_split x p q : 0 <= x -> ppow x q = ppow x p * ppow x (q - p).
Proof.
  intros H. destruct (Req_dec x 0) as [->|N]; [rewrite !ppow_0; ring|]. rewrite !ppow_pos by lra. rewrite <- Rpower_plus. f_equal. ring.
Qed.
Lemma entry_le_pnorm p x a : valid_exp p -> In a x -> Rabs a <= pnorm p x.
Proof.
  intros V H. destruct p as [q|]; simpl in *.
  - apply (ppow_le_inv _ _ q); [lra|apply ppow_nonneg|]. rewrite ppow_ppow, Rinv_l, ppow_1 by (try apply powsum_nonneg; lra).
    induction x as [|b x IH]; [contradiction|]. simpl. destruct H as [->|H].
    + pose proof (powsum_nonneg q x). lra.
    + pose proof (IH H). pose proof (ppow_nonneg (Rabs b) q). lra.
  - apply rmax0_ge, in_map, H.
Qed.
Lemma pnorm_anti p q x : 1 <= p -> p <= q -> pnorm (PFin q) x <= pnorm (PFin p) x.
Proof.
  intros Hp Hq. set (N := pnorm (PFin p) x). assert (HN : 0 <= N) by apply pnorm_nonneg.
  apply (ppow_le_inv _ _ q); [lra|exact HN|]. rewrite pnorm_finite_pow by lra.
  rewrite (ppow_split N p q HN). unfold N at 1. rewrite pnorm_finite_pow by lra.
  assert (B : forall a, In a x -> Rabs a <= N) by (intros a Ha; apply entry_le_pnorm; [simpl; lra|exact Ha]).
  clearbody N. clear -B HN Hq. induction x as [|a x IH]; simpl; [rewrite Rmult_0_l; lra|].
  assert (E : ppow (Rabs a) q <= ppow (Rabs a) p * ppow N (q - p)).
  { rewrite (ppow_split (Rabs a) p q (Rabs_pos a)). apply Rmult_le_compat_l; [apply ppow_nonneg|]. destruct (Req_dec q p) as [->|Nq].
    - replace (p - p) with 0 by ring. destruct (Req_dec (Rabs a) 0) as [Z|Z].
      + rewrite Z, ppow_0. apply ppow_nonneg.
      + pose proof (Rabs_pos a). assert (0 < N) by (pose proof (B a (or_introl eq_refl)); lra). rewrite !ppow_pos by lra. rewrite !Rpower_O by lra. lra.
    - apply ppow_le; [lra|apply Rabs_pos|apply B; left; reflexivity]. }
  assert (IH' := IH (fun b Hb => B b (or_intror Hb))). lra.
Qed.
Lemma pnorm_inf_le p x : valid_exp p -> pnorm PInfty x <= pnorm p x.
Proof.
  intros V. simpl. apply rmax0_le; [apply pnorm_nonneg|]. intros y Hy. apply in_map_iff in Hy. destruct Hy as (a & <- & Ha). apply entry_le_pnorm; assumption.
Qed.
Lemma pnorm_inf_lt x t : 0 < t -> (pnorm PInfty x < t <-> Forall (fun a => Rabs a < t) x).
Proof.
  intros Ht. simpl. split.
  - intros H. rewrite Forall_forall. intros a Ha. pose proof (rmax0_ge (map Rabs x) (Rabs a) (in_map Rabs x a Ha)). lra.
  - intros H. induction H as [|a x Ha H IH]; simpl; [lra|]. apply Rmax_lub_lt; assumption.
Qed.

Lemma init_order o tt tl mi mo md me c : oc_init o tt tl mi mo md me = Ok c ->
  valid_exp (norm_order o) /\ fresh c /\ tol_theta c = tt /\ monitoring c = mo /\ mode c = md /\ metric c = me.
Proof.
  unfold oc_init. intros H. destruct o as [n|s].
  - unfold assert_ in H. destruct (0 <? n)%Z eqn:E; [|discriminate]. injection H as <-. apply Z.ltb_lt in E. split; [|repeat split]. simpl. apply IZR_le. lia.
  - unfold assert_ in H. destruct (String.eqb s "inf"); [|discriminate]. injection H as <-. split; [exact I|repeat split].
Qed.
(* the answers with finite gradients *)
Lemma evals_real o tol tl mi m c h hs g0 gs : oc_init o (Fin tol) tl mi "theta" (mode_name m) "grad" = Ok c -> 0 < tol ->
  Forall2 shows_grad (h :: hs) (map (map Fin) (g0 :: gs)) -> Forall in_budget (h :: hs) ->
  evals (vector_norm o) c (h :: hs)
  = Ok false :: map (fun g => Ok (Rltb (pnorm (norm_order o) g) (match m with Rel => tol * pnorm (norm_order o) g0 | Abs => tol end))) gs.
Proof.
  intros Hc Ht F B. destruct (init_order _ _ _ _ _ _ _ _ Hc) as (V & Fr & T & Mo & Md & Me).
  rewrite (grad_theta (vector_norm o) c m h hs (map Fin g0) (map (map Fin) gs)); auto.
  - f_equal. rewrite map_map. apply map_ext. intros g. rewrite !vector_norm_fin, T. destruct m; reflexivity.
  - rewrite Mo. left. reflexivity.
  - rewrite T. simpl. apply Rltb_true. exact Ht.
Qed.
