(* C142: the training loops of the documentation and of the examples, and the multiplier. *)
From Coq Require Import Reals List String ZArith Lra Lia Bool.
From Verif Require Import PyBase RList XReal LogMeanExp Costs_Model Dual_Model Dual_Spec Dual_Proofs Dual2_Proofs
  InitGuess_Model InitGuess_Spec InitGuess_Proofs Oracle_Model Oracle_Spec Oracle_Proofs Props_Dual2 TrainLoop_Model.
Import ListNotations.
Local Open Scope R_scope.

(* ---- README.md and doc/user_guide.rst ---- *)
Lemma readme_step_lam B OS obj grad opt s b : t_lam (fst (readme_step B OS obj grad opt s b)) = t_lam s.
Proof. unfold readme_step. destruct (opt _ _ _). reflexivity. Qed.
Lemma readme_batches_lam B OS obj grad opt bs : forall s, t_lam (fst (readme_batches B OS obj grad opt s bs)) = t_lam s.
Proof.
  induction bs as [|b bs IH]; intros s; [reflexivity|]. cbn [readme_batches].
  destruct (readme_step B OS obj grad opt s b) as [s1 v] eqn:E. pose proof (readme_step_lam B OS obj grad opt s b) as H. rewrite E in H. cbn in H.
  specialize (IH s1). destruct (readme_batches B OS obj grad opt s1 bs) as [s2 vs]. cbn in *. congruence.
Qed.

(* after any number of epochs the multiplier is the starting guess of the last epoch, made with the parameters of its beginning *)
Theorem C142_readme_multiplier : forall B OS obj grad guess opt full bs k s s',
  readme_train B OS obj grad guess opt (S k) full bs s = Ok s' ->
  exists s1, readme_train B OS obj grad guess opt k full bs s = Ok s1 /\ guess full (t_theta s1) (t_lam s1) = Ok (t_lam s').
Proof.
  intros B OS obj grad guess opt full bs. induction k as [|k IH]; intros s s' H.
  - cbn in H. unfold readme_epoch in H. destruct (guess full (t_theta s) (t_lam s)) as [l|e] eqn:E; cbn in H; [|discriminate].
    injection H as <-. exists s. split; [reflexivity|]. rewrite readme_batches_lam. cbn. exact E.
  - remember (S k) as k1 eqn:Ek. cbn in H. destruct (readme_epoch B OS obj grad guess opt full bs s) as [r|e] eqn:E; cbn in H; [|discriminate].
    subst k1. destruct (IH _ _ H) as (s1 & H1 & H2). exists s1. split; [|exact H2]. cbn. rewrite E. cbn. exact H1.
Qed.
Print Assumptions C142_readme_multiplier.

(* the derivative of the objective in the multiplier plays no part *)
Theorem C142_readme_derivative_unused : forall B OS obj grad grad' guess opt full bs k s,
  (forall b th l, fst (grad b th l) = fst (grad' b th l)) ->
  readme_train B OS obj grad guess opt k full bs s = readme_train B OS obj grad' guess opt k full bs s.
Proof.
  intros B OS obj grad grad' guess opt full bs k s Hg.
  assert (E : forall l s, readme_batches B OS obj grad opt s l = readme_batches B OS obj grad' opt s l).
  { induction l as [|b l IH]; intros u; [reflexivity|]. cbn [readme_batches]. unfold readme_step. rewrite Hg.
    destruct (opt (t_opt u) (t_theta u) (fst (grad' b (t_theta u) (t_lam u)))) as [o th]. rewrite IH. reflexivity. }
  revert s. induction k as [|k IH]; intros s; [reflexivity|]. cbn. unfold readme_epoch. destruct (guess full (t_theta s) (t_lam s)) as [l|]; [|reflexivity].
  cbn. rewrite E. apply IH.
Qed.
Print Assumptions C142_readme_derivative_unused.

(* the library's guess keeps the multiplier non-negative in that loop, whatever the optimiser does to the model *)
Theorem C142_readme_not_negative : forall B OS obj grad opt full bs rho power (gn : B -> vec -> list R) k s s',
  0 <= power -> not_negative (t_lam s) ->
  readme_train B OS obj grad (fun b th l => initial_guess rho l true power (gn b th)) opt k full bs s = Ok s' ->
  not_negative (t_lam s').
Proof.
  intros B OS obj grad opt full bs rho power gn. induction k as [|k IH]; intros s s' Hp Hs H.
  - cbn in H. injection H as <-. exact Hs.
  - destruct (C142_readme_multiplier _ _ _ _ _ _ _ _ _ _ _ H) as (s1 & H1 & H2).
    exact (nn_guess rho (t_lam s1) power (gn full (t_theta s1)) (t_lam s') (IH _ _ Hp Hs H1) Hp H2).
Qed.
Print Assumptions C142_readme_not_negative.

(* ---- classifiers_comparison.py and regressors_comparison.py ---- *)
Lemma clip_ok l : not_negative (clip_lam l).
Proof.
  unfold clip_lam, xle. destruct l as [r| | |]; cbn; try exact I.
  - destruct (Rltb r 0) eqn:E; cbn; [lra|]. apply Rltb_false in E. destruct (Reqb r 0) eqn:E2; cbn; lra.
  - unfold inf_times. assert (X : Reqb 0 0 = true) by (apply Reqb_true; reflexivity). rewrite X. exact I.
Qed.
Lemma clip_fin r : exists q, clip_lam (Fin r) = Fin q /\ 0 <= q /\ q = Rmax r 0.
Proof.
  unfold clip_lam, xle. cbn. destruct (Rltb r 0) eqn:E; cbn.
  - apply Rltb_true in E. exists (r * 0). split; [reflexivity|]. rewrite Rmax_right by lra. lra.
  - apply Rltb_false in E. destruct (Reqb r 0) eqn:E2; cbn.
    + apply Reqb_true in E2. exists (r * 0). split; [reflexivity|]. rewrite Rmax_right by lra. lra.
    + exists r. split; [reflexivity|]. rewrite Rmax_left by lra. lra.
Qed.

Theorem C142_clipped : forall B OS obj grad opt full rho power (gn : B -> vec -> list R) epochs s s',
  0 <= power -> not_negative (t_lam s) ->
  classif_train B OS obj grad (fun b th l => initial_guess rho l true power (gn b th)) opt epochs full s = Ok s' ->
  not_negative (t_lam s').
Proof.
  intros B OS obj grad opt full rho power gn epochs s s' Hp Hs H. unfold classif_train in H.
  destruct (initial_guess rho (t_lam s) true power (gn full (t_theta s))) as [l|] eqn:E; cbn in H; [|discriminate]. injection H as <-.
  pose proof (nn_guess rho (t_lam s) power (gn full (t_theta s)) l Hs Hp E) as Hl.
  assert (G : forall n u, not_negative (t_lam u) -> not_negative (t_lam (classif_loop B OS obj grad opt n full u))).
  { induction n as [|n IH]; intros u Hu; [exact Hu|]. cbn. apply IH. apply clip_ok. }
  apply G. exact Hl.
Qed.
Print Assumptions C142_clipped.

Theorem C142_clipped_stopping : forall B OS obj grad opt full rho power (gn : B -> vec -> list R) epochs s s' ls,
  0 <= power -> not_negative (t_lam s) ->
  regress_train B OS obj grad (fun b th l => initial_guess rho l true power (gn b th)) opt epochs full s = Ok (s', ls) ->
  not_negative (t_lam s').
Proof.
  intros B OS obj grad opt full rho power gn epochs s s' ls Hp Hs H. unfold regress_train in H.
  destruct (initial_guess rho (t_lam s) true power (gn full (t_theta s))) as [l|] eqn:E; cbn in H; [|discriminate].
  pose proof (nn_guess rho (t_lam s) power (gn full (t_theta s)) l Hs Hp E) as Hl.
  assert (G : forall n u, not_negative (t_lam u) -> not_negative (t_lam (fst (regress_loop B OS obj grad opt n full u)))).
  { induction n as [|n IH]; intros u Hu; [exact Hu|]. cbn [regress_loop]. destruct (xlt _ _); [apply clip_ok|].
    specialize (IH (clip OS (step_all B OS obj grad opt u full)) (clip_ok _)).
    destruct (regress_loop B OS obj grad opt n full (clip OS (step_all B OS obj grad opt u full))). exact IH. }
  injection H as H. specialize (G epochs {| t_opt := t_opt s; t_theta := t_theta s; t_lam := l |} Hl). rewrite H in G. exact G.
Qed.
Print Assumptions C142_clipped_stopping.

(* when the optimiser's steps are finite the clipped multiplier is max(lambda, 0) of what the last step gave *)
Theorem C142_clipped_value : forall B OS obj grad opt full k s,
  (forall o c th l, exists r, snd (snd (opt o c th l)) = Fin r) ->
  let before := classif_loop B OS obj grad opt k full s in
  let after := classif_loop B OS obj grad opt (S k) full s in
  exists r, t_lam (step_all B OS obj grad opt before full) = Fin r /\ t_lam after = Fin (Rmax r 0).
Proof.
  intros B OS obj grad opt full k s Hf. cbv zeta.
  assert (E : forall n u, classif_loop B OS obj grad opt (S n) full u = clip OS (step_all B OS obj grad opt (classif_loop B OS obj grad opt n full u) full)).
  { induction n as [|n IH]; intros u; [reflexivity|]. change (classif_loop B OS obj grad opt (S (S n)) full u) with (classif_loop B OS obj grad opt (S n) full (clip OS (step_all B OS obj grad opt u full))).
    rewrite IH. reflexivity. }
  rewrite E. generalize (classif_loop B OS obj grad opt k full s). intros u.
  destruct (Hf (t_opt u) (closure B obj grad full) (t_theta u) (t_lam u)) as [r Hr]. exists r.
  unfold step_all. destruct (opt (t_opt u) (closure B obj grad full) (t_theta u) (t_lam u)) as [o [th l]]. cbn in *. subst l.
  split; [reflexivity|]. destruct (clip_fin r) as (q & H1 & _ & H2). rewrite H1, H2. reflexivity.
Qed.
Print Assumptions C142_clipped_value.

(* the clipping of the examples turns -inf into NaN, where the library's own optimiser puts 0 *)
Theorem C142_clip_infinite_refuted :
  exists (opt : unit -> (vec -> xr -> xr * (vec * xr)) -> vec -> xr -> unit * (vec * xr)) (s : tst unit),
    not_negative (t_lam s) /\
    t_lam (step_all unit unit (fun _ _ _ => Fin 0) (fun _ th _ => (th, Fin 1)) opt s tt) = MInf /\
    t_lam (classif_loop unit unit (fun _ _ _ => Fin 0) (fun _ th _ => (th, Fin 1)) opt 1 tt s) = NaN /\
    clamp_min0 MInf = Fin 0.
Proof.
  exists (fun _ _ th _ => (tt, (th, MInf))), {| t_opt := tt; t_theta := [1]; t_lam := Fin 1 |}. cbn. split; [lra|]. split; [reflexivity|].
  split; [|reflexivity]. unfold clip_lam, xle, inf_times; cbn. assert (X : Reqb 0 0 = true) by (apply Reqb_true; reflexivity). rewrite X. reflexivity.
Qed.
Print Assumptions C142_clip_infinite_refuted.

(* "try to rectify the dual parameter": the guess does not depend on a finite multiplier, and keeps one that is not finite *)
Theorem C142_rectify : forall rho power gn l l', initial_guess rho (Fin l) true power gn = initial_guess rho (Fin l') true power gn.
Proof.
  intros rho power gn l l'. unfold initial_guess. replace (xmul (Fin l) (Fin 0)) with (Fin 0) by (cbn; f_equal; ring).
  replace (xmul (Fin l') (Fin 0)) with (Fin 0) by (cbn; f_equal; ring). reflexivity.
Qed.
Print Assumptions C142_rectify.

Theorem C142_rectify_not_finite : forall rho power gn l v, l = NaN \/ l = PInf \/ l = MInf ->
  initial_guess rho l true power gn = Ok v -> v = NaN.
Proof.
  intros rho power gn l v Hl H. assert (N : xmul l (Fin 0) = NaN).
  { assert (X : Reqb 0 0 = true) by (apply Reqb_true; reflexivity). destruct Hl as [->|[->| ->]]; cbn; unfold inf_times; rewrite ?X; reflexivity. }
  unfold initial_guess in H. rewrite N in H. destruct (xlt (Fin 0) rho); injection H as <-; reflexivity.
Qed.
Print Assumptions C142_rectify_not_finite.

Theorem C142_rectify_refuted : exists rho power gn best,
  0 < rho /\ initial_guess (Fin rho) (Fin 1) true power gn = Ok (Fin best) /\ 0 < best /\ initial_guess (Fin rho) PInf true power gn = Ok NaN.
Proof.
  destruct (guess_optimal 2 (/ 10) 1 [[3; 4]]) as (l0 & v0 & H1 & H2 & _); [lra|lra|left; exists 3; split; [left; reflexivity|lra]|].
  exists (/ 10), 2, (grads_norms (PFin 2) 2 [[3; 4]]), l0. split; [lra|]. split; [exact H1|]. split; [exact H2|].
  unfold initial_guess. cbn [xlt]. assert (E : Rltb 0 (/ 10) = true) by (apply Rltb_true; lra). rewrite E.
  assert (X : Reqb 0 0 = true) by (apply Reqb_true; reflexivity). cbn [xmul]. unfold inf_times. rewrite X. reflexivity.
Qed.
Print Assumptions C142_rectify_refuted.

(* regressors_comparison.py: the loop stops early exactly because a loss below 1e-3 was read, before the last step *)
Theorem C142_stopping : forall B OS obj grad opt full epochs s s' ls,
  regress_loop B OS obj grad opt epochs full s = (s', ls) ->
  (List.length ls <= epochs)%nat /\ t_lam s' = t_lam (classif_loop B OS obj grad opt (List.length ls) full s) /\
  t_theta s' = t_theta (classif_loop B OS obj grad opt (List.length ls) full s) /\
  (forall i v, nth_error ls i = Some v ->
     v = obj full (t_theta (classif_loop B OS obj grad opt i full s)) (t_lam (classif_loop B OS obj grad opt i full s)) /\
     (S i < List.length ls -> xlt v (Fin (/ 1000)) = false)%nat /\
     (S i = List.length ls -> (S i < epochs)%nat -> xlt v (Fin (/ 1000)) = true)).
Proof.
  intros B OS obj grad opt full. induction epochs as [|n IH]; intros s s' ls H.
  - cbn in H. injection H as <- <-. cbn. repeat split; try lia; destruct i; discriminate.
  - cbn [regress_loop] in H. destruct (xlt (obj full (t_theta s) (t_lam s)) (Fin (/ 1000))) eqn:E.
    + injection H as <- <-. cbn [List.length]. split; [lia|]. split; [reflexivity|]. split; [reflexivity|].
      intros i v Hi. destruct i as [|[|i]]; cbn in Hi; try discriminate. injection Hi as <-. cbn. split; [reflexivity|]. split; [lia|]. intros; exact E.
    + destruct (regress_loop B OS obj grad opt n full (clip OS (step_all B OS obj grad opt s full))) as [s2 l2] eqn:E2. injection H as <- <-.
      destruct (IH _ _ _ E2) as (L & H1 & H2 & H3). cbn [List.length]. split; [lia|]. split; [exact H1|]. split; [exact H2|].
      intros i v Hi. destruct i as [|i].
      * cbn in Hi. injection Hi as <-. cbn [classif_loop]. split; [reflexivity|]. split; [intros; exact E|].
        intros L1 L2. assert (l2 = []) as -> by (destruct l2; [reflexivity|cbn in L1; lia]).
        destruct n as [|n]; [lia|]. cbn [regress_loop] in E2. destruct (xlt _ _) in E2; [injection E2 as _ E2; discriminate|].
        destruct (regress_loop B OS obj grad opt n full _) in E2. injection E2 as _ E2. discriminate.
      * cbn in Hi. destruct (H3 i v Hi) as (A1 & A2 & A3). cbn [classif_loop]. split; [exact A1|]. split; [intros; apply A2; lia|intros; apply A3; lia].
Qed.
Print Assumptions C142_stopping.

(* ---- without clipping: polynomial_regression.py and neural_net.py ---- *)
Lemma list_bound {A} (f : A -> R) (M : R) l : (forall a, In a l -> f a < M) -> exists c, c < M /\ forall a, In a l -> f a <= c.
Proof.
  induction l as [|a l IH]; intros H; [exists (M - 1); split; [lra|intros a []]|].
  destruct IH as (c & Hc & Hl); [intros; apply H; right; assumption|]. exists (Rmax c (f a)). split.
  - apply Rmax_lub_lt; [exact Hc|apply H; left; reflexivity].
  - intros b [<-|Hb]; [apply Rmax_r|]. eapply Rle_trans; [apply Hl, Hb|apply Rmax_l].
Qed.
Lemma rows_bound {P} (cost : P -> P -> R) M (rows : list (row P)) :
  (forall r z, In r rows -> In z (r_zeta r) -> cost (r_xi r) z < M) -> exists c, c < M /\ forall r z, In r rows -> In z (r_zeta r) -> cost (r_xi r) z <= c.
Proof.
  intros H. destruct (list_bound (fun rz => cost (r_xi (fst rz)) (snd rz)) M (flat_map (fun r => map (pair r) (r_zeta r)) rows)) as (c & Hc & Hl).
  - intros [r z] Hin. apply in_flat_map in Hin. destruct Hin as (r' & Hr & Hz). apply in_map_iff in Hz. destruct Hz as (z' & E & Hz). injection E as <- <-. cbn. apply H; assumption.
  - exists c. split; [exact Hc|]. intros r z Hr Hz. apply (Hl (r, z)). apply in_flat_map. exists r. split; [exact Hr|]. apply in_map_iff. exists z. auto.
Qed.
Lemma rmean_le_map {A} (f g : A -> R) l : l <> [] -> (forall a, In a l -> f a <= g a) -> rmean (map f l) <= rmean (map g l).
Proof.
  intros Hne H. unfold rmean. rewrite !map_length. unfold Rdiv. apply Rmult_le_compat_r.
  - left. apply Rinv_0_lt_compat, lt_0_INR. destruct l; [contradiction|cbn; lia].
  - clear Hne. induction l as [|a l IH]; cbn; [lra|]. pose proof (H a (or_introl eq_refl)). specialize (IH (fun b Hb => H b (or_intror Hb))). lra.
Qed.
Lemma rmean_plus_const {A} (f : A -> R) c l : l <> [] -> rmean (map (fun a => f a + c) l) = rmean (map f l) + c.
Proof.
  intros Hne. unfold rmean. rewrite !map_length. assert (0 < INR (List.length l)) by (apply lt_0_INR; destruct l; [contradiction|cbn; lia]).
  assert (E : rsum (map (fun a => f a + c) l) = rsum (map f l) + INR (List.length l) * c).
  { clear. induction l as [|a l IH]; [cbn; lra|]. cbn [map rsum List.length]. rewrite S_INR. change (rsum (f a + c :: map (fun a0 => f a0 + c) l)) with (f a + c + rsum (map (fun a0 => f a0 + c) l)).
    change (rsum (f a :: map f l)) with (f a + rsum (map f l)). rewrite IH. ring. }
  rewrite E. field. lra.
Qed.

Lemma objective_slope {P} (loss : P -> R) cost n (rows : list (row P)) rho eps p c l1 l2 :
  batch_ok n rows -> 0 < eps -> (forall r z, In r rows -> In z (r_zeta r) -> cost (r_xi r) z <= c) -> l1 <= l2 ->
  objective P loss cost rho l1 eps p rows + (l2 - l1) * (Rpower rho p - c) <= objective P loss cost rho l2 eps p rows.
Proof.
  intros Hb He Hc Hl. unfold objective. pose proof (batch_nonempty P n rows Hb) as Hz. destruct Hb as (_ & Hne & _).
  assert (G : rmean (map (soft P loss cost eps l1) rows) <= rmean (map (fun r => soft P loss cost eps l2 r + (l2 - l1) * c) rows)).
  { apply rmean_le_map; [exact Hne|]. intros r Hr. unfold soft.
    rewrite <- (softmaximum_shift eps ((l2 - l1) * c)) by (try exact He; apply map_neq_nil, Hz, Hr).
    apply softmaximum_mono; [exact He|apply map_neq_nil, Hz, Hr|]. unfold pen. specialize (Hc r). revert Hc. generalize (r_zeta r). intros zs Hc.
    assert (Hc' : forall z, In z zs -> cost (r_xi r) z <= c) by (intros; apply Hc; assumption). clear Hc.
    induction zs as [|z zs IH]; cbn; constructor; [|apply IH; intros; apply Hc'; right; assumption].
    specialize (Hc' z (or_introl eq_refl)). pose proof (Rmult_le_compat_l (l2 - l1) _ _ ltac:(lra) Hc'). lra. }
  rewrite rmean_plus_const in G by exact Hne. lra.
Qed.

(* no bound from below: with a radius larger than every sampled displacement, the unconstrained objective has no minimum *)
Theorem C142_unbounded : forall P (loss : P -> R) cost displace lp lpr n (rows : list (row P)) rho eps p (f : R -> R) M,
  batch_ok n rows -> 0 < rho -> 0 < eps ->
  (forall l, is_value loss cost displace lp lpr n rows rho l eps p (f l)) ->
  (forall r z, In r rows -> In z (r_zeta r) -> cost (r_xi r) z < Rpower rho p) ->
  exists l, l < 0 /\ f l < M.
Proof.
  intros P loss cost displace lp lpr n rows rho eps p f M Hb Hr He Hf Hc.
  assert (E : forall l, f l = objective P loss cost rho l eps p rows).
  { intros l. apply (value_iff loss cost displace lp lpr n rows rho l eps p (f l) Hb Hr He). apply Hf. }
  destruct (rows_bound cost (Rpower rho p) rows Hc) as (c & H1 & H2).
  set (g := Rpower rho p - c). assert (Hg : 0 < g) by (unfold g; lra).
  set (k := (Rmax 1 (f 0 - M + 1)) / g). assert (Hk : 0 < k).
  { apply Rdiv_lt_0_compat; [|exact Hg]. pose proof (Rmax_l 1 (f 0 - M + 1)). lra. }
  exists (- k). split; [lra|]. pose proof (objective_slope loss cost n rows rho eps p c (- k) 0 Hb He H2 ltac:(lra)) as S.
  rewrite <- !E in S. fold g in S. assert (K : k * g = Rmax 1 (f 0 - M + 1)) by (unfold k; field; lra).
  pose proof (Rmax_r 1 (f 0 - M + 1)). replace (0 - - k) with k in S by ring. lra.
Qed.
Print Assumptions C142_unbounded.

Lemma adamw_first lr x g : 0 < g -> adamw_default lr adam0 x g = (fst (adamw_default lr adam0 x g), x * (1 - lr / 100) - lr * (g / (g + / 100000000))).
Proof.
  intros Hg. unfold adamw_default, adam0; cbn [a_t a_m a_v a_vmax fst]. f_equal.
  assert (Q : sqrt (999 / 1000 * 0 + (1 - 999 / 1000) * (g * g)) / sqrt (1 - (999 / 1000) ^ 1) = g).
  { replace (999 / 1000 * 0 + (1 - 999 / 1000) * (g * g)) with (/ 1000 * (g * g)) by field. replace (1 - (999 / 1000) ^ 1) with (/ 1000) by field.
    rewrite sqrt_mult by nra. rewrite sqrt_square by lra. field. apply Rgt_not_eq, sqrt_lt_R0. lra. }
  rewrite Q. field. lra.
Qed.

(* neural_net.py: the first step may leave the multiplier below 0, where the objective is below all it can reach for
   non-negative multipliers. The radius exceeds every sampled displacement. *)
Theorem C142_unprojected : forall P (loss : vec -> P -> R) cost displace lp lpr n (rows : list (row P)) rho eps p d (f : vec -> R -> R) (grad : unit -> vec -> xr -> vec * xr) lr th ss g,
  batch_ok n rows -> 0 < rho -> 0 < eps -> 0 < lr ->
  (forall th l, is_value (loss th) cost displace lp lpr n rows rho l eps p (f th l)) ->
  (forall r z, In r rows -> In z (r_zeta r) -> cost (r_xi r) z < Rpower rho p) ->
  dual_init (Fin rho) eps p None false = Ok d ->
  snd (grad tt th (Fin (d_lam d))) = Fin g -> derivable_pt_lim (f th) (d_lam d) g ->
  d_lam d * (1 - lr / 100) < lr * (g / (g + / 100000000)) ->
  let s' := nn_train unit (adam * list adam) (fun _ th l => match l with Fin a => Fin (f th a) | _ => NaN end) grad (adamw_all lr) 1 [tt]
              {| t_opt := (adam0, ss); t_theta := th; t_lam := Fin (d_lam d) |} in
  exists l1, t_lam s' = Fin l1 /\ l1 < 0 /\ forall th' l, 0 <= l -> f th' l1 < f th' l.
Proof.
  intros P loss cost displace lp lpr n rows rho eps p d f grad lr th ss g Hb Hr He Hlr Hf Hc Hd Hg HD Hstep. cbv zeta.
  destruct (rows_bound cost (Rpower rho p) rows Hc) as (c & H1 & H2).
  assert (E : forall th l, f th l = objective P (loss th) cost rho l eps p rows).
  { intros t l. apply (value_iff (loss t) cost displace lp lpr n rows rho l eps p (f t l) Hb Hr He). apply Hf. }
  assert (Slope : forall t a b, a <= b -> f t a + (b - a) * (Rpower rho p - c) <= f t b) by (intros t a b Hab; rewrite !E; apply (objective_slope (loss t) cost n rows rho eps p c a b Hb He H2 Hab)).
  assert (Gpos : 0 < g).
  { apply Rlt_le_trans with (Rpower rho p - c); [lra|]. apply Rnot_lt_le. intros Hn.
    destruct (HD ((Rpower rho p - c - g)) ltac:(lra)) as [dl Hdl]. pose proof (cond_pos dl) as Pd.
    specialize (Hdl (dl / 2) ltac:(lra)). rewrite (Rabs_right (dl / 2)) in Hdl by lra. specialize (Hdl ltac:(lra)).
    pose proof (Slope th (d_lam d) (d_lam d + dl / 2) ltac:(lra)) as S.
    assert (Rpower rho p - c <= (f th (d_lam d + dl / 2) - f th (d_lam d)) / (dl / 2)).
    { apply (Rmult_le_reg_r (dl / 2)); [lra|]. unfold Rdiv at 2. rewrite Rmult_assoc, Rinv_l by lra. lra. }
    apply Rabs_def2 in Hdl. lra. }
  pose proof (dual_init_not_negative (Fin rho) eps p None false d Hd) as Hl0.
  cbn [nn_train fold_left]. unfold step_all. cbn [t_opt t_theta t_lam]. unfold adamw_all, closure.
  destruct (grad tt th (Fin (d_lam d))) as [gt gl] eqn:Eg. cbn in Hg. subst gl. cbn [fst snd].
  destruct (adamw_vec lr ss th gt) as [ss1 th1]. rewrite (adamw_first lr (d_lam d) g Gpos). cbn [t_lam].
  eexists. split; [reflexivity|]. split; [lra|]. intros th' l Hl.
  set (l1 := d_lam d * (1 - lr / 100) - lr * (g / (g + / 100000000))) in *. assert (l1 < 0) by (unfold l1; lra).
  pose proof (Slope th' l1 l ltac:(lra)) as S. assert (0 < (l - l1) * (Rpower rho p - c)) by (apply Rmult_lt_0_compat; lra). lra.
Qed.
Print Assumptions C142_unprojected.

(* when the constraint matters: the cost spent by the Gibbs adversary at multiplier 0 against the budget *)
Lemma tangent_below (f : R -> R) x g : (forall a b t, 0 <= t <= 1 -> f (t * a + (1 - t) * b) <= t * f a + (1 - t) * f b) ->
  derivable_pt_lim f x g -> forall y, f x + g * (y - x) <= f y.
Proof.
  intros Cv D y. destruct (Req_dec y x) as [->|Hxy]; [lra|]. apply Rnot_lt_le. intros Hn.
  set (dl := f x + g * (y - x) - f y) in *. assert (Pdl : 0 < dl) by (unfold dl; lra).
  assert (Hab : 0 < Rabs (y - x)) by (apply Rabs_pos_lt; lra).
  destruct (D (dl / Rabs (y - x)) ltac:(apply Rdiv_lt_0_compat; lra)) as [d Hd]. pose proof (cond_pos d) as Pd.
  set (t := Rmin 1 (d / 2 / Rabs (y - x))). assert (Ht : 0 < t <= 1).
  { unfold t. split; [apply Rmin_pos; [lra|apply Rdiv_lt_0_compat; lra]|apply Rmin_l]. }
  assert (Htd : t * Rabs (y - x) <= d / 2).
  { apply Rle_trans with (d / 2 / Rabs (y - x) * Rabs (y - x)); [apply Rmult_le_compat_r; [lra|apply Rmin_r]|]. right. field. lra. }
  assert (Hh : t * (y - x) <> 0) by (apply Rmult_integral_contrapositive; split; lra).
  specialize (Hd (t * (y - x)) Hh). rewrite Rabs_mult, (Rabs_right t) in Hd by lra. specialize (Hd ltac:(lra)).
  pose proof (Cv y x t ltac:(lra)) as C. replace (t * y + (1 - t) * x) with (x + t * (y - x)) in C by ring.
  assert (K : Rabs (f (x + t * (y - x)) - f x - g * (t * (y - x))) < t * dl).
  { apply (Rmult_lt_compat_r (t * Rabs (y - x))) in Hd; [|apply Rmult_lt_0_compat; lra].
    replace (t * Rabs (y - x)) with (Rabs (t * (y - x))) in Hd at 1 by (rewrite Rabs_mult, (Rabs_right t); lra).
    rewrite <- Rabs_mult in Hd. replace (((f (x + t * (y - x)) - f x) / (t * (y - x)) - g) * (t * (y - x))) with (f (x + t * (y - x)) - f x - g * (t * (y - x))) in Hd by (field; split; lra).
    replace (dl / Rabs (y - x) * (t * Rabs (y - x))) with (t * dl) in Hd by (field; lra). exact Hd. }
  apply Rabs_def2 in K. unfold dl in K. lra.
Qed.

Lemma value_convex {P} (loss : P -> R) cost displace lp lpr n (rows : list (row P)) rho eps p (f : R -> R) :
  batch_ok n rows -> 0 < rho -> 0 < eps -> (forall l, is_value loss cost displace lp lpr n rows rho l eps p (f l)) ->
  forall a b t, 0 <= t <= 1 -> f (t * a + (1 - t) * b) <= t * f a + (1 - t) * f b.
Proof.
  intros Hb Hr He Hf a b t Ht. destruct (convex_lam P loss cost displace lp lpr n rows rho a b t eps p Hb He Hr Ht) as (v1 & v2 & v & A1 & A2 & A3 & A4).
  pose proof (Hf a) as B1. pose proof (Hf b) as B2. pose proof (Hf (t * a + (1 - t) * b)) as B3. unfold is_value in *.
  rewrite A1 in B1. rewrite A2 in B2. rewrite A3 in B3. injection B1 as <-. injection B2 as <-. injection B3 as <-. exact A4.
Qed.

Theorem C142_constraint_idle : forall P (loss : P -> R) cost displace lp lpr n (rows : list (row P)) rho eps p A (f : R -> R),
  batch_ok n rows -> 0 < rho -> 0 < eps ->
  (forall l, is_value loss cost displace lp lpr n rows rho l eps p (f l)) ->
  gibbs_adversary loss cost eps 0 rows A -> Rpower rho p <= adv_mean cost A rows ->
  forall l, l <= 0 -> f 0 <= f l.
Proof.
  intros P loss cost displace lp lpr n rows rho eps p A f Hb Hr He Hf HA Hm l Hl.
  pose proof (C109_derivative P loss cost displace lp lpr n rows rho 0 eps p A f Hb Hr He Hf HA) as D.
  pose proof (tangent_below f 0 _ (value_convex loss cost displace lp lpr n rows rho eps p f Hb Hr He Hf) D l) as T.
  assert (0 <= (Rpower rho p - adv_mean cost A rows) * (l - 0)) by nra. lra.
Qed.
Print Assumptions C142_constraint_idle.

Theorem C142_constraint_needed : forall P (loss : P -> R) cost displace lp lpr n (rows : list (row P)) rho eps p A (f : R -> R),
  batch_ok n rows -> 0 < rho -> 0 < eps ->
  (forall l, is_value loss cost displace lp lpr n rows rho l eps p (f l)) ->
  gibbs_adversary loss cost eps 0 rows A -> adv_mean cost A rows < Rpower rho p ->
  (forall l, 0 <= l -> f 0 <= f l) /\ exists l, l < 0 /\ f l < f 0.
Proof.
  intros P loss cost displace lp lpr n rows rho eps p A f Hb Hr He Hf HA Hm.
  pose proof (C109_derivative P loss cost displace lp lpr n rows rho 0 eps p A f Hb Hr He Hf HA) as D. set (g := Rpower rho p - adv_mean cost A rows) in *.
  assert (Hg : 0 < g) by (unfold g; lra). split.
  - intros l Hl. pose proof (tangent_below f 0 _ (value_convex loss cost displace lp lpr n rows rho eps p f Hb Hr He Hf) D l) as T. nra.
  - destruct (D g Hg) as [d Hd]. pose proof (cond_pos d) as Pd. exists (- (d / 2)). split; [lra|].
    specialize (Hd (- (d / 2)) ltac:(lra)). rewrite Rabs_Ropp, Rabs_right in Hd by lra. specialize (Hd ltac:(lra)). rewrite Rplus_0_l in Hd.
    apply Rabs_def2 in Hd. destruct Hd as [_ Hd]. assert (0 < (f (- (d / 2)) - f 0) / - (d / 2)) by lra.
    replace ((f (- (d / 2)) - f 0) / - (d / 2)) with ((f 0 - f (- (d / 2))) * / (d / 2)) in H by (field; lra).
    assert (0 < f 0 - f (- (d / 2))); [|lra]. apply (Rmult_lt_reg_r (/ (d / 2))); [apply Rinv_0_lt_compat; lra|]. lra.
Qed.
Print Assumptions C142_constraint_needed.

(* ---- witnesses ---- *)
(* an affine model w x + b with the squared loss: one point (1, 0) with two samples, at x = 1 and x = 2 *)
Definition sq_loss (th : vec) (z : R * R) : R :=
  (nth 0 th 0 * fst z + nth 1 th 0 - snd z) * (nth 0 th 0 * fst z + nth 1 th 0 - snd z).
Definition x_cost (a z : R * R) : R := (fst a - fst z) * (fst a - fst z).
Definition lin_rows : list (row (R * R)) := [{| r_mean := (1, 0); r_xi := (1, 0); r_zeta := [(1, 0); (2, 0)] |}].
Definition no_move (l : list (row (R * R))) : Result (list ((R * R) * list (R * R))) := Ok [].
Definition lin_value (rho : R) (th : vec) (l : R) : Result out :=
  compute_dual (R * R) (sq_loss th) x_cost no_move (fun _ _ => 0) (fun _ _ _ => 0) (cfg "mean" rho l 1 2) 2 lin_rows.
Definition lin_obj (rho : R) (b : unit) (th : vec) (l : xr) : xr :=
  match l with Fin a => match lin_value rho th a with Ok (Scalar v) => v | _ => NaN end | _ => NaN end.
(* the gradient of the loss in x at the data point is 2 (w + b) w *)
Definition lin_guess (rho : R) (b : unit) (th : vec) (l : xr) : Result xr :=
  initial_guess (Fin rho) l true 2 (grads_norms (PFin 2) 2 [[2 * (nth 0 th 0 + nth 1 th 0) * nth 0 th 0]]).

Lemma lin_ok : batch_ok 2 lin_rows.
Proof. split; [lia|split; [discriminate|repeat (constructor; try reflexivity)]]. Qed.
Lemma lin_obj_value rho th a : 0 < rho -> lin_obj rho tt th (Fin a) = Fin (objective (R * R) (sq_loss th) x_cost rho a 1 2 lin_rows).
Proof.
  intros Hr. unfold lin_obj, lin_value. pose proof (value_iff (sq_loss th) x_cost no_move (fun _ _ => 0) (fun _ _ _ => 0) 2 lin_rows rho a 1 2
    (objective (R * R) (sq_loss th) x_cost rho a 1 2 lin_rows) lin_ok Hr ltac:(lra)) as V. unfold is_value in V. rewrite (proj2 V eq_refl). reflexivity.
Qed.
Lemma lin_zero_best rho th a : objective (R * R) (sq_loss [0; 0]) x_cost rho a 1 2 lin_rows <= objective (R * R) (sq_loss th) x_cost rho a 1 2 lin_rows.
Proof.
  unfold objective. apply Rplus_le_compat_l. apply rmean_le_map; [discriminate|]. intros r [<-|[]]. unfold soft. apply softmaximum_mono; [lra|discriminate|].
  unfold pen, sq_loss; cbn. constructor; [|constructor; [|constructor]].
  - pose proof (Rle_0_sqr (nth 0 th 0 * 1 + nth 1 th 0 - 0)). unfold Rsqr in *. lra.
  - pose proof (Rle_0_sqr (nth 0 th 0 * 2 + nth 1 th 0 - 0)). unfold Rsqr in *. lra.
Qed.

Lemma adamw_rest lr s : a_m s = 0 -> exists s1, adamw_default lr s 0 0 = (s1, 0) /\ a_m s1 = 0.
Proof.
  intros Hm. exists (fst (adamw_default lr s 0 0)). unfold adamw_default. rewrite Hm. cbn [fst a_m]. split; [|lra]. f_equal.
  replace (9 / 10 * 0 + (1 - 9 / 10) * 0) with 0 by ring. unfold Rdiv. rewrite Rmult_0_l, Rmult_0_r. ring.
Qed.

(* the documented loop on that model, with torch's AdamW at the documented rate: any gradient that vanishes at minimisers.
   After any number of epochs the multiplier is 0, although the objective is smaller at multiplier 1. *)
Theorem C142_readme_refuted : exists rho d,
  0 < rho /\ dual_init (Fin rho) 1 2 None false = Ok d /\
  forall grad : unit -> vec -> xr -> vec * xr,
    (forall th l, (forall th', exists v v', lin_obj rho tt th (Fin l) = Fin v /\ lin_obj rho tt th' (Fin l) = Fin v' /\ v <= v') ->
       fst (grad tt th (Fin l)) = map (fun _ => 0) th) ->
    forall k, exists s',
      readme_train unit (list adam) (lin_obj rho) grad (lin_guess rho) (adamw_vec (/ 10)) (S k) tt [tt]
        {| t_opt := [adam0; adam0]; t_theta := [0; 0]; t_lam := Fin (d_lam d) |} = Ok s' /\
      t_theta s' = [0; 0] /\ t_lam s' = Fin 0 /\
      exists v v1, lin_obj rho tt (t_theta s') (t_lam s') = Fin v /\ lin_obj rho tt (t_theta s') (Fin 1) = Fin v1 /\ v1 < v - / 5.
Proof.
  exists (/ 10). destruct (dual_init (Fin (/ 10)) 1 2 None false) as [d|] eqn:Ed; [|discriminate]. exists d. split; [lra|]. split; [reflexivity|].
  intros grad Hg k.
  assert (G0 : forall a, fst (grad tt [0; 0] (Fin a)) = [0; 0]).
  { intros a. rewrite Hg; [reflexivity|]. intros th'. rewrite !lin_obj_value by lra. eexists _, _. split; [reflexivity|]. split; [reflexivity|]. apply lin_zero_best. }
  assert (Gu : forall a, lin_guess (/ 10) tt [0; 0] (Fin a) = Ok (Fin 0)).
  { intros a. unfold lin_guess. apply guess_zero_gradients; [lra|lra|discriminate|]. repeat constructor. cbn. ring. }
  assert (Ep : forall s1 s2 a, a_m s1 = 0 -> a_m s2 = 0 -> exists s1' s2' vs, a_m s1' = 0 /\ a_m s2' = 0 /\
     readme_epoch unit (list adam) (lin_obj (/ 10)) grad (lin_guess (/ 10)) (adamw_vec (/ 10)) tt [tt] {| t_opt := [s1; s2]; t_theta := [0; 0]; t_lam := Fin a |} =
     Ok ({| t_opt := [s1'; s2']; t_theta := [0; 0]; t_lam := Fin 0 |}, vs)).
  { intros s1 s2 a M1 M2. destruct (adamw_rest (/ 10) s1 M1) as (s1' & E1 & M1'). destruct (adamw_rest (/ 10) s2 M2) as (s2' & E2 & M2').
    exists s1', s2'. eexists. split; [exact M1'|]. split; [exact M2'|]. unfold readme_epoch. cbn [t_opt t_theta t_lam]. rewrite Gu. cbn [bind readme_batches]. unfold readme_step.
    cbn [t_opt t_theta t_lam]. rewrite G0. cbn [adamw_vec]. rewrite E1, E2. reflexivity. }
  assert (Tr : forall n s1 s2 a, a_m s1 = 0 -> a_m s2 = 0 -> exists s', 
     readme_train unit (list adam) (lin_obj (/ 10)) grad (lin_guess (/ 10)) (adamw_vec (/ 10)) (S n) tt [tt] {| t_opt := [s1; s2]; t_theta := [0; 0]; t_lam := Fin a |} = Ok s' /\
     t_theta s' = [0; 0] /\ t_lam s' = Fin 0).
  { induction n as [|n IH]; intros s1 s2 a M1 M2; destruct (Ep s1 s2 a M1 M2) as (s1' & s2' & vs & M1' & M2' & E).
    - cbn [readme_train]. rewrite E. cbn. eexists. split; [reflexivity|]. split; reflexivity.
    - destruct (IH s1' s2' 0 M1' M2') as (s' & R1 & R2 & R3). exists s'. split; [|split; assumption]. remember (S n) as m. cbn [readme_train]. rewrite E. cbn. exact R1. }
  destruct (Tr k adam0 adam0 (d_lam d) eq_refl eq_refl) as (s' & R1 & R2 & R3). exists s'. split; [exact R1|]. split; [exact R2|]. split; [exact R3|].
  rewrite R2, R3, !lin_obj_value by lra. eexists _, _. split; [reflexivity|]. split; [reflexivity|].
  unfold objective, lin_rows, soft, softmaximum, pen, sq_loss, x_cost, rmean; cbn [map r_zeta r_xi fst snd nth rsum fold_right List.length INR].
  unfold lme, sumexp; cbn [map rsum fold_right List.length].
  replace (((0 * 1 + 0 - 0) * (0 * 1 + 0 - 0) - 1 * ((1 - 1) * (1 - 1))) / 1) with 0 by field.
  replace (((0 * 2 + 0 - 0) * (0 * 2 + 0 - 0) - 1 * ((1 - 2) * (1 - 2))) / 1) with (- (1)) by field.
  replace (((0 * 1 + 0 - 0) * (0 * 1 + 0 - 0) - 0 * ((1 - 1) * (1 - 1))) / 1) with 0 by field.
  replace (((0 * 2 + 0 - 0) * (0 * 2 + 0 - 0) - 0 * ((1 - 2) * (1 - 2))) / 1) with 0 by field.
  rewrite exp_0. replace (Rpower (/ 10) 2) with (/ 100).
  2:{ replace 2 with (INR 2) at 1 by (cbn; lra). rewrite Rpower_pow by lra. cbn. field. }
  assert (Ee : exp (- (1)) <= / 2).
  { rewrite exp_Ropp. apply Rinv_le_contravar; [lra|]. pose proof (exp_ineq1_le 1). lra. }
  pose proof (exp_pos (- (1))) as Pe.
  assert (L : ln (1 + (exp (- (1)) + 0)) - ln (INR 2) <= - / 4).
  { unfold Rminus. rewrite <- ln_Rinv by (cbn; lra). rewrite <- ln_mult; [|lra|apply Rinv_0_lt_compat; cbn; lra].
    pose proof (ln_le_pred ((1 + (exp (- (1)) + 0)) * / INR 2) ltac:(apply Rmult_lt_0_compat; [lra|apply Rinv_0_lt_compat; cbn; lra])). cbn [INR] in *. lra. }
  assert (L0 : ln (1 + (1 + 0)) - ln (INR 2) = 0) by (replace (INR 2) with (1 + (1 + 0)) by (cbn; ring); ring).
  cbn [INR] in *. lra.
Qed.
Print Assumptions C142_readme_refuted.

(* neural_net.py's optimiser (rate 5e-3) on that model with radius 2: after one step the multiplier is negative, and the
   objective there is below its values for all non-negative multipliers *)
Theorem C142_unprojected_refuted : exists rho d (grad : unit -> vec -> xr -> vec * xr),
  0 < rho /\ dual_init (Fin rho) 1 2 None false = Ok d /\ 0 <= d_lam d /\
  (forall th l, exists D f, snd (grad tt th (Fin l)) = Fin D /\ (forall a, lin_obj rho tt th (Fin a) = Fin (f a)) /\ derivable_pt_lim f l D) /\
  let s' := nn_train unit (adam * list adam) (lin_obj rho) grad (adamw_all (/ 200)) 1 [tt]
              {| t_opt := (adam0, [adam0; adam0]); t_theta := [0; 0]; t_lam := Fin (d_lam d) |} in
  exists l1, t_lam s' = Fin l1 /\ l1 < 0 /\
    forall l, 0 <= l -> exists v1 v, lin_obj rho tt (t_theta s') (Fin l1) = Fin v1 /\ lin_obj rho tt (t_theta s') (Fin l) = Fin v /\ v1 < v.
Proof.
  set (F := fun th a => objective (R * R) (sq_loss th) x_cost 2 a 1 2 lin_rows).
  set (D := fun th a => Rpower 2 2 - adv_mean x_cost (map (gibbs (R * R) (sq_loss th) x_cost 1 a) lin_rows) lin_rows).
  assert (DF : forall th a, derivable_pt_lim (F th) a (D th a)) by (intros th a; apply (objective_deriv (R * R) (sq_loss th) x_cost 2 lin_rows 2 a 1 2 lin_ok); lra).
  assert (VF : forall th l, is_value (sq_loss th) x_cost no_move (fun _ _ => 0) (fun _ _ _ => 0) 2 lin_rows 2 l 1 2 (F th l)).
  { intros th l. apply (value_iff _ _ _ _ _ 2 lin_rows 2 l 1 2 (F th l) lin_ok); [lra|lra|reflexivity]. }
  assert (R4 : Rpower 2 2 = 4) by (replace 2 with (INR 2) at 2 by (cbn; lra); rewrite Rpower_pow by lra; cbn; lra).
  assert (Cb : forall r z, In r lin_rows -> In z (r_zeta r) -> x_cost (r_xi r) z <= 1) by (intros r z [<-|[]] [<-|[<-|[]]]; unfold x_cost; cbn; lra).
  destruct (dual_init (Fin 2) 1 2 None false) as [d|] eqn:Ed; [|discriminate].
  assert (Ld : d_lam d = / 2000).
  { unfold dual_init in Ed. injection Ed as <-. cbn. assert (X : Rltb 0 2 = true) by (apply Rltb_true; lra). rewrite X. lra. }
  exists 2, d, (fun _ th l => (th, match l with Fin a => Fin (D th a) | _ => NaN end)).
  split; [lra|]. split; [exact Ed|]. split; [rewrite Ld; lra|]. split.
  { intros th l. exists (D th l), (F th). split; [reflexivity|]. split; [intros a; apply lin_obj_value; lra|apply DF]. }
  cbv zeta.
  assert (G3 : 3 <= D [0; 0] (d_lam d)).
  { apply Rnot_lt_le. intros Hn. destruct (DF [0; 0] (d_lam d) (3 - D [0; 0] (d_lam d)) ltac:(lra)) as [dl Hdl]. pose proof (cond_pos dl) as Pd.
    specialize (Hdl (dl / 2) ltac:(lra)). rewrite (Rabs_right (dl / 2)) in Hdl by lra. specialize (Hdl ltac:(lra)).
    pose proof (objective_slope (sq_loss [0; 0]) x_cost 2 lin_rows 2 1 2 1 (d_lam d) (d_lam d + dl / 2) lin_ok ltac:(lra) Cb ltac:(lra)) as S. fold (F [0; 0] (d_lam d)) in S. fold (F [0; 0] (d_lam d + dl / 2)) in S.
    rewrite R4 in S. assert (3 <= (F [0; 0] (d_lam d + dl / 2) - F [0; 0] (d_lam d)) / (dl / 2)).
    { apply (Rmult_le_reg_r (dl / 2)); [lra|]. unfold Rdiv at 2. rewrite Rmult_assoc, Rinv_l by lra. lra. }
    apply Rabs_def2 in Hdl. lra. }
  destruct (C142_unprojected (R * R) sq_loss x_cost no_move (fun _ _ => 0) (fun _ _ _ => 0) 2 lin_rows 2 1 2 d F
     (fun _ th l => (th, match l with Fin a => Fin (D th a) | _ => NaN end)) (/ 200) [0; 0] [adam0; adam0] (D [0; 0] (d_lam d)))
     as (l1 & H1 & H2 & H3); try assumption; try lra; try reflexivity.
  - exact lin_ok.
  - intros r z Hr Hz. rewrite R4. specialize (Cb r z Hr Hz). lra.
  - apply DF.
  - set (g := D [0; 0] (d_lam d)) in *. rewrite Ld. clearbody g. assert (Q : 1 / 2 <= g / (g + / 100000000)).
    { apply (Rmult_le_reg_r (g + / 100000000)); [lra|]. unfold Rdiv at 2. rewrite Rmult_assoc, Rinv_l by lra. lra. }
    revert Q. generalize (g / (g + / 100000000)). intros q Q. replace (/ 2000 * (1 - / 200 / 100)) with (19999 / 40000000) by field. lra.
  - exists l1. cbn [nn_train fold_left] in *. unfold step_all, adamw_all, closure in *. cbn [t_opt t_theta t_lam fst snd] in *.
    destruct (adamw_vec (/ 200) [adam0; adam0] [0; 0] [0; 0]) as [ss1 th1].
    destruct (adamw_default (/ 200) adam0 (d_lam d) (D [0; 0] (d_lam d))) as [q x1]. cbn [t_lam t_theta] in *. split; [exact H1|]. split; [exact H2|].
    intros l Hl. exists (F th1 l1), (F th1 l). rewrite !lin_obj_value by lra. split; [reflexivity|]. split; [reflexivity|]. apply H3. exact Hl.
Qed.
Print Assumptions C142_unprojected_refuted.

(* ---- examples ---- *)
(* half of the gradient is taken off the parameters *)
Definition halve (o : nat) (th g : vec) : nat * vec := (S o, vadd th (vscal (- / 2) g)).
Definition halve_all (o : nat) (c : vec -> xr -> xr * (vec * xr)) (th : vec) (l : xr) : nat * (vec * xr) :=
  (S o, (vadd th (vscal (- / 2) (fst (snd (c th l)))), xadd l (Fin (- 5)))).
Definition grad_id (b : nat) (th : vec) (l : xr) : vec * xr := (th, Fin 1).
Definition guess_of (b : nat) (th : vec) (l : xr) : Result xr := initial_guess (Fin 1) l true 2 (grads_norms (PFin 2) 2 [th]).
Definition start : tst nat := {| t_opt := 0%nat; t_theta := [8; 4]; t_lam := Fin 1 |}.

Lemma guess_some b th l : exists v, guess_of b th l = Ok v.
Proof. unfold guess_of, initial_guess. destruct (xlt (Fin 0) (Fin 1)); eexists; reflexivity. Qed.

Example C142_readme_case : not_negative (t_lam start) /\ exists s', readme_train nat nat (fun _ _ l => l) grad_id guess_of halve 2 0%nat [1; 2]%nat start = Ok s' /\
  t_opt s' = 4%nat /\ t_theta s' = [/ 2; / 4].
Proof.
  split; [cbn; lra|]. cbn [readme_train]. unfold readme_epoch at 1. destruct (guess_some 0%nat (t_theta start) (t_lam start)) as [v1 ->].
  cbn [bind readme_batches readme_step fst snd grad_id halve t_opt t_theta t_lam start].
  unfold readme_epoch. cbn [t_opt t_theta t_lam].
  match goal with |- context [guess_of 0%nat ?th ?l] => destruct (guess_some 0%nat th l) as [v2 ->] end.
  eexists. split; [reflexivity|]. split; [reflexivity|]. cbn. repeat (f_equal; try lra).
Qed.
Example C142_derivative_unused_case : forall (b : nat) th l, fst (grad_id b th l) = fst ((th, Fin 7) : vec * xr).
Proof. reflexivity. Qed.
Example C142_clipped_case : not_negative (t_lam start) /\ exists s', classif_train nat nat (fun _ _ l => l) grad_id guess_of halve_all 3 0%nat start = Ok s' /\ t_opt s' = 3%nat.
Proof.
  split; [cbn; lra|]. unfold classif_train. destruct (guess_some 0%nat (t_theta start) (t_lam start)) as [v1 ->].
  eexists. split; [reflexivity|reflexivity].
Qed.
Example C142_clipped_value_case : exists r, t_lam (step_all nat nat (fun _ _ l => l) grad_id halve_all start 0%nat) = Fin r /\ r < 0 /\
  t_lam (classif_loop nat nat (fun _ _ l => l) grad_id halve_all 1 0%nat start) = Fin 0.
Proof.
  exists (1 + - 5). split; [reflexivity|]. split; [lra|]. cbn. destruct (clip_fin (1 + - 5)) as (q & H1 & _ & H2). rewrite H1, H2, Rmax_right by lra. reflexivity.
Qed.
(* the loss read first is 12, the second is 6e-4 and the loop stops after the second of three steps *)
Example C142_stopping_case : exists s' v1 v2,
  regress_loop nat nat (fun _ th _ => Fin (nth 0 th 0)) (fun _ th _ => ([2 * (nth 0 th 0 - 6 / 10000)], Fin 0)) halve_all 3 0%nat
    {| t_opt := 0%nat; t_theta := [12]; t_lam := Fin 1 |} = (s', [v1; v2]) /\ v1 = Fin 12 /\ v2 = Fin (6 / 10000) /\ t_opt s' = 2%nat.
Proof.
  cbn [regress_loop t_theta t_lam nth]. assert (E : xlt (Fin 12) (Fin (/ 1000)) = false) by (cbn; apply Rltb_false; lra). rewrite E. clear E.
  unfold step_all, halve_all, closure, clip. cbn [t_opt t_theta t_lam fst snd nth vadd vscal map map2].
  match goal with |- context [xlt (Fin ?v) _] => set (w := v) end. assert (W : w = 6 / 10000) by (unfold w; cbn; lra).
  assert (E : xlt (Fin w) (Fin (/ 1000)) = true) by (cbn; apply Rltb_true; rewrite W; lra). rewrite E.
  eexists _, _, _. split; [reflexivity|]. split; [reflexivity|]. split; [rewrite W; reflexivity|reflexivity].
Qed.
Lemma rp2 : Rpower 2 2 = 4.
Proof. replace 2 with (INR 2) at 2 by (cbn; lra). rewrite Rpower_pow by lra. cbn. lra. Qed.
Example C142_unbounded_case : batch_ok 2 lin_rows /\ forall r z, In r lin_rows -> In z (r_zeta r) -> x_cost (r_xi r) z < Rpower 2 2.
Proof. split; [exact lin_ok|]. rewrite rp2. intros r z [<-|[]] [<-|[<-|[]]]; unfold x_cost; cbn; lra. Qed.
Lemma half_gibbs : gibbs_adversary (sq_loss [0; 0]) x_cost 1 0 lin_rows [[/ 2; / 2]] /\ adv_mean x_cost [[/ 2; / 2]] lin_rows = / 2.
Proof.
  split.
  - constructor; [|constructor]. exists 2. split; [lra|]. split; [|cbn; lra]. cbn. unfold sq_loss, x_cost; cbn.
    repeat match goal with |- context [exp ?a] => replace a with 0 by field; rewrite exp_0 end. f_equal; [lra|f_equal; lra].
  - unfold adv_mean, rmean, x_cost; cbn. lra.
Qed.
Example C142_constraint_idle_case : Rpower (/ 10) 2 <= adv_mean x_cost [[/ 2; / 2]] lin_rows.
Proof.
  rewrite (proj2 half_gibbs). replace 2 with (INR 2) at 1 by (cbn; lra). rewrite Rpower_pow by lra. cbn. lra.
Qed.
Example C142_constraint_needed_case : adv_mean x_cost [[/ 2; / 2]] lin_rows < Rpower 2 2.
Proof. rewrite (proj2 half_gibbs), rp2. lra. Qed.
Example C142_rectify_not_finite_case : exists v, initial_guess (Fin 1) NaN true 2 [4] = Ok v.
Proof. unfold initial_guess. destruct (xlt (Fin 0) (Fin 1)); eexists; reflexivity. Qed.

(* ---- how many steps each loop takes ---- *)
(* [ticks] counts in the optimiser's own state. Every batch of every epoch is stepped on once, the first one too. *)
Lemma fold_ticks {B OS} obj grad opt (ticks : OS -> nat) (H : forall o c th l, ticks (fst (opt o c th l)) = S (ticks o)) bs :
  forall s, ticks (t_opt (fold_left (step_all B OS obj grad opt) bs s)) = (ticks (t_opt s) + List.length bs)%nat.
Proof.
  induction bs as [|b r IH]; intros s; cbn [fold_left List.length]; [lia|]. rewrite IH.
  assert (E : ticks (t_opt (step_all B OS obj grad opt s b)) = S (ticks (t_opt s))); [|lia].
  unfold step_all. pose proof (H (t_opt s) (closure B obj grad b) (t_theta s) (t_lam s)) as Q.
  destruct (opt (t_opt s) _ _ _) as [o [th l]]. exact Q.
Qed.
Theorem C142_poly_steps : forall B OS obj grad guess opt (ticks : OS -> nat) b0 rest epochs s s',
  (forall o c th l, ticks (fst (opt o c th l)) = S (ticks o)) ->
  poly_train B OS obj grad guess opt epochs b0 rest s = Ok s' ->
  ticks (t_opt s') = (ticks (t_opt s) + epochs * S (List.length rest))%nat.
Proof.
  intros B OS obj grad guess opt ticks b0 rest epochs. induction epochs as [|k IH]; intros s s' H E; cbn [poly_train] in E.
  - injection E as <-. lia.
  - unfold poly_epoch in E. destruct (guess b0 (t_theta s) (t_lam s)) as [l|]; [|discriminate]. cbn [bind] in E.
    apply (IH _ _ H) in E. rewrite E, (fold_ticks obj grad opt ticks H). cbn [t_opt List.length]. lia.
Qed.
Print Assumptions C142_poly_steps.
Theorem C142_nn_steps : forall B OS obj grad opt (ticks : OS -> nat) bs epochs s,
  (forall o c th l, ticks (fst (opt o c th l)) = S (ticks o)) ->
  ticks (t_opt (nn_train B OS obj grad opt epochs bs s)) = (ticks (t_opt s) + epochs * List.length bs)%nat.
Proof.
  intros B OS obj grad opt ticks bs epochs. induction epochs as [|k IH]; intros s H; cbn [nn_train]; [lia|].
  rewrite (IH _ H), (fold_ticks obj grad opt ticks H). lia.
Qed.
Print Assumptions C142_nn_steps.
Lemma readme_batches_ticks {B OS} obj grad opt (ticks : OS -> nat) (H : forall o th g, ticks (fst (opt o th g)) = S (ticks o)) bs :
  forall s, ticks (t_opt (fst (readme_batches B OS obj grad opt s bs))) = (ticks (t_opt s) + List.length bs)%nat.
Proof.
  induction bs as [|b r IH]; intros s; cbn [readme_batches List.length]; [cbn; lia|]. unfold readme_step.
  pose proof (H (t_opt s) (t_theta s) (fst (grad b (t_theta s) (t_lam s)))) as Q.
  destruct (opt (t_opt s) _ _) as [o th]. cbn [fst] in Q.
  specialize (IH {| t_opt := o; t_theta := th; t_lam := t_lam s |}).
  destruct (readme_batches _ _ _ _ _ {| t_opt := o; t_theta := th; t_lam := t_lam s |} r) as [s2 vs]. cbn [fst t_opt] in *. lia.
Qed.
Theorem C142_readme_steps : forall B OS obj grad guess opt (ticks : OS -> nat) full bs epochs s s',
  (forall o th g, ticks (fst (opt o th g)) = S (ticks o)) ->
  readme_train B OS obj grad guess opt epochs full bs s = Ok s' ->
  ticks (t_opt s') = (ticks (t_opt s) + epochs * List.length bs)%nat.
Proof.
  intros B OS obj grad guess opt ticks full bs epochs. induction epochs as [|k IH]; intros s s' H E; cbn [readme_train] in E.
  - injection E as <-. lia.
  - unfold readme_epoch in E. destruct (guess full (t_theta s) (t_lam s)) as [l|]; [|discriminate]. cbn [bind] in E.
    apply (IH _ _ H) in E. rewrite E, (readme_batches_ticks obj grad opt ticks H). cbn [t_opt]. lia.
Qed.
Print Assumptions C142_readme_steps.
(* polynomial_regression.py: the multiplier of every epoch starts from the guess on the first batch of the loader, made with
   the model the earlier epochs left *)
Theorem C142_poly_guess : forall B OS obj grad guess opt b0 rest k s s',
  poly_train B OS obj grad guess opt (S k) b0 rest s = Ok s' ->
  exists s1 l, poly_train B OS obj grad guess opt k b0 rest s = Ok s1 /\ guess b0 (t_theta s1) (t_lam s1) = Ok l /\
    s' = nn_train B OS obj grad opt 1 (b0 :: rest) {| t_opt := t_opt s1; t_theta := t_theta s1; t_lam := l |}.
Proof.
  intros B OS obj grad guess opt b0 rest k. induction k as [|k IH]; intros s s' E.
  - exists s. cbn [poly_train] in *. unfold poly_epoch in E. destruct (guess b0 (t_theta s) (t_lam s)) as [l|]; [|discriminate].
    cbn [bind] in E. injection E as <-. exists l. split; [reflexivity|]. split; reflexivity.
  - remember (S k) as k1 eqn:Ek. cbn [poly_train] in E. subst k1.
    destruct (poly_epoch B OS obj grad guess opt b0 rest s) as [s1|] eqn:Es; [|discriminate]. cbn [bind] in E.
    destruct (IH _ _ E) as (s2 & l & H1 & H2 & H3). exists s2, l. split; [|split; assumption].
    cbn [poly_train]. rewrite Es. exact H1.
Qed.
Print Assumptions C142_poly_guess.

(* ---- AdamW: the multiplier goes on moving when its derivative is 0 ---- *)
(* one step with a positive derivative, then one with derivative 0: beyond the weight decay the second step still goes down *)
Theorem C142_momentum : forall lr x g s1 x1 s2 x2,
  0 < lr -> 0 < g -> adamw_default lr adam0 x g = (s1, x1) -> adamw_default lr s1 x1 0 = (s2, x2) ->
  x2 < x1 * (1 - lr / 100).
Proof.
  intros lr x g s1 x1 s2 x2 Hlr Hg E1 E2. unfold adamw_default, adam0 in E1; cbn [a_t a_m a_v a_vmax] in E1. injection E1 as <- _.
  unfold adamw_default in E2; cbn [a_t a_m a_v a_vmax] in E2. injection E2 as _ <-.
  match goal with |- _ - _ * (?n / (?q + ?e)) < _ => set (m := n); assert (Pd : 0 <= q) end.
  { apply Rmult_le_pos; [apply sqrt_pos|]. apply Rlt_le, Rinv_0_lt_compat, sqrt_lt_R0. cbn [pow]. lra. }
  match goal with |- _ - ?c * (_ / (?q + ?e)) < _ => set (k := c); set (den := q + e); assert (Pd1 : 0 < den) by (unfold den; lra) end.
  assert (Pm : 0 < m) by (unfold m; lra).
  assert (P1 : 0 < k) by (unfold k; apply Rdiv_lt_0_compat; [lra|cbn [pow]; lra]).
  assert (P2 : 0 < m / den) by (apply Rdiv_lt_0_compat; assumption).
  pose proof (Rmult_lt_0_compat _ _ P1 P2). change (lr * / 100) with (lr / 100). lra.
Qed.
Print Assumptions C142_momentum.
Example C142_momentum_case : exists s1 x1 s2 x2,
  adamw_default (/ 10) adam0 0 2 = (s1, x1) /\ adamw_default (/ 10) s1 x1 0 = (s2, x2) /\ x2 < x1 * (1 - / 10 / 100) /\ x1 < 0.
Proof.
  destruct (adamw_default (/ 10) adam0 0 2) as [s1 x1] eqn:E1. destruct (adamw_default (/ 10) s1 x1 0) as [s2 x2] eqn:E2.
  exists s1, x1, s2, x2. split; [reflexivity|]. split; [exact E2|].
  split; [exact (C142_momentum (/ 10) 0 2 _ _ _ _ ltac:(lra) ltac:(lra) E1 E2)|].
  pose proof (adamw_first (/ 10) 0 2 ltac:(lra)) as Q. rewrite E1 in Q. cbn [fst] in Q. injection Q as Q. rewrite Q.
  assert (0 < 2 / (2 + / 100000000)) by (apply Rdiv_lt_0_compat; lra). lra.
Qed.

(* a derivative of the multiplier that is not a number is never forgotten: no later step, and no later batch, gives the
   multiplier a value again *)
Lemma nan_stays B obj grad lr bs : forall s, t_lam s = NaN -> t_lam (fold_left (step_all B (adam * list adam) obj grad (adamw_all lr)) bs s) = NaN.
Proof.
  induction bs as [|b r IH]; intros s E; cbn [fold_left]; [exact E|]. apply IH. unfold step_all, adamw_all, closure.
  destruct (grad b (t_theta s) (t_lam s)) as [gt gl]. destruct (adamw_vec lr _ _ _) as [ss th]. rewrite E. reflexivity.
Qed.
Theorem C142_nan_forever : forall B obj grad lr b bs epochs s,
  snd (grad b (t_theta s) (t_lam s)) = NaN ->
  t_lam (nn_train B (adam * list adam) obj grad (adamw_all lr) (S epochs) (b :: bs) s) = NaN.
Proof.
  intros B obj grad lr b bs epochs s H.
  assert (N : forall k s, t_lam s = NaN -> t_lam (nn_train B (adam * list adam) obj grad (adamw_all lr) k (b :: bs) s) = NaN).
  { induction k as [|k IH]; intros s0 E; cbn [nn_train]; [exact E|]. apply IH, nan_stays, E. }
  cbn [nn_train]. apply N. cbn [fold_left]. apply nan_stays. unfold step_all, adamw_all, closure.
  destruct (grad b (t_theta s) (t_lam s)) as [gt gl]. cbn [snd] in H. subst gl. destruct (adamw_vec lr _ _ _) as [ss th].
  destruct (t_lam s); reflexivity.
Qed.
Print Assumptions C142_nan_forever.
Example C142_steps_case : (forall o c th l, fst (halve_all o c th l) = S o) /\ (forall o th g, fst (halve o th g) = S o) /\
  exists s', poly_train nat nat (fun _ _ l => l) grad_id guess_of halve_all 2 0%nat [1; 2]%nat start = Ok s' /\ t_opt s' = 6%nat.
Proof.
  split; [reflexivity|]. split; [reflexivity|]. cbn [poly_train]. unfold poly_epoch.
  destruct (guess_some 0%nat (t_theta start) (t_lam start)) as [v1 ->]. cbn [bind].
  match goal with |- context [guess_of 0%nat ?a ?b] => destruct (guess_some 0%nat a b) as [v2 ->] end. cbn [bind].
  eexists. split; [reflexivity|reflexivity].
Qed.
Example C142_nan_case : t_lam (nn_train nat (adam * list adam) (fun _ _ l => l) (fun b th l => (th, if Nat.eqb b 0 then NaN else Fin 1)) (adamw_all (/ 10)) 3
  [0; 1]%nat {| t_opt := (adam0, [adam0]); t_theta := [1]; t_lam := Fin 2 |}) = NaN.
Proof. apply C142_nan_forever. reflexivity. Qed.
