(* When the stopping condition can and cannot measure what it watches. *)
From Coq Require Import Reals List Bool String ZArith Lia.
From Verif Require Import PyBase XReal OptCond_Model OptCond_Spec.
Import ListNotations.

(* ---------- spec ---------- *)
Definition watches_both (s : string) : Prop := In s ["both"; "theta_and_lambda"; "t&l"; "lambda_and_theta"; "l&t"; "one"; "theta_or_lambda"; "tUl"; "lambda_or_theta"; "lUt"]%string.
Definition watches_lambda (s : string) : Prop := In s ["lambda"; "l"]%string.
Definition watches_theta (s : string) : Prop := In s ["theta"; "t"]%string.
(* a loss whose parameters and multiplier have gradients, with n numbers in the parameters *)
Definition measurable (n : nat) (h : obs * Z) : Prop :=
  o_lgrad (fst h) <> None /\ o_theta (fst h) <> [] /\ List.length (List.concat (o_theta (fst h))) = n /\
  o_tgrad (fst h) <> [] /\ Forall (fun g => g <> None) (o_tgrad (fst h)).
(* settings that the documentation allows *)
Definition documented (c : oc) : Prop :=
  (watches_both (monitoring c) \/ watches_lambda (monitoring c) \/ watches_theta (monitoring c)) /\
  (mode c = "rel" \/ mode c = "abs")%string /\ (metric c = "grad" \/ metric c = "param")%string /\
  tol_theta c <> NaN /\ tol_lambda c <> NaN.

(* ---------- proofs ---------- *)
Lemma mem_in s l : mem s l = true <-> In s l.
Proof.
  unfold mem. rewrite existsb_exists. split.
  - intros (x & I & E). apply String.eqb_eq in E. subst; exact I.
  - intros I. exists s. split; [exact I|]. apply String.eqb_refl.
Qed.
Lemma watch_both_cases s : watches_both s -> mem s L_AND_T = true \/ (mem s L_AND_T = false /\ mem s L_OR_T = true).
Proof.
  intros H. destruct (mem s L_AND_T) eqn:E; [auto|right; split; [reflexivity|]].
  unfold watches_both in H. cbn in H.
  repeat (destruct H as [H|H]; [subst s; cbn in E; try discriminate; reflexivity|]). contradiction.
Qed.
Lemma watch_lambda_case s : watches_lambda s -> mem s L_AND_T = false /\ mem s L_OR_T = false /\ mem s JUST_L = true.
Proof. intros H. cbn in H. destruct H as [H|[H|[]]]; subst s; repeat split; reflexivity. Qed.
Lemma watch_theta_case s : watches_theta s -> mem s L_AND_T = false /\ mem s L_OR_T = false /\ mem s JUST_L = false /\ mem s JUST_T = true.
Proof. intros H. cbn in H. destruct H as [H|[H|[]]]; subst s; repeat split; reflexivity. Qed.

Section Meas.
  Variable vnorm : list xr -> xr.

  Lemma lam_missing c o : metric c = "grad"%string -> xle (tol_lambda c) (Fin 0) = false -> o_lgrad o = None ->
    check_l c o = (c, Raise NoneGradError).
  Proof. intros M T N. unfold check_l. rewrite T, M. cbn. unfold lam_grad. rewrite N. reflexivity. Qed.

  Lemma all_grads_none l : In None l -> all_grads l = Raise ValueError.
  Proof.
    induction l as [|[g|] l IH]; cbn; intros H; [contradiction| |reflexivity].
    destruct H as [H|H]; [discriminate|]. rewrite (IH H). reflexivity.
  Qed.
  Lemma theta_missing c o : metric c = "grad"%string -> xle (tol_theta c) (Fin 0) = false -> In None (o_tgrad o) ->
    check_t vnorm c o = (c, Raise ValueError).
  Proof. intros M T N. unfold check_t. rewrite T, M. cbn. unfold get_flat_grad. rewrite (all_grads_none _ N). reflexivity. Qed.
  Lemma theta_empty_grad c o : metric c = "grad"%string -> xle (tol_theta c) (Fin 0) = false -> o_tgrad o = [] ->
    check_t vnorm c o = (c, Raise RuntimeError).
  Proof. intros M T N. unfold check_t. rewrite T, M. cbn. unfold get_flat_grad. rewrite N. reflexivity. Qed.
  Lemma theta_empty_param c o : metric c = "param"%string -> xle (tol_theta c) (Fin 0) = false -> o_theta o = [] ->
    check_t vnorm c o = (c, Raise RuntimeError).
  Proof. intros M T N. unfold check_t. rewrite T, M. cbn. unfold get_flat_param. rewrite N. reflexivity. Qed.

  Lemma call_snd c o it : snd (oc_call vnorm c o it) =
    match snd (check_all_params vnorm (set_max_iter (train_steps (o_niter o)) c) o) with
    | Ok b => Ok (check_iter (set_max_iter (train_steps (o_niter o)) c) it || b) | Raise e => Raise e end.
  Proof. unfold oc_call. destruct (check_all_params _ _ _) as [c1 [b|e]]; reflexivity. Qed.

  Lemma call_lambda_raises c o it e :
    watches_both (monitoring c) \/ watches_lambda (monitoring c) ->
    (forall n, check_l (set_max_iter n c) o = (set_max_iter n c, Raise e)) -> snd (oc_call vnorm c o it) = Raise e.
  Proof.
    intros W H. rewrite call_snd. unfold check_all_params. cbn [monitoring set_max_iter].
    destruct W as [W|W].
    - destruct (watch_both_cases _ W) as [E|[E1 E2]].
      + rewrite E. unfold combine. rewrite H. reflexivity.
      + rewrite E1, E2. unfold combine. rewrite H. reflexivity.
    - destruct (watch_lambda_case _ W) as (E1 & E2 & E3). rewrite E1, E2, E3, H. reflexivity.
  Qed.
  Lemma call_theta_raises c o it e : watches_theta (monitoring c) ->
    (forall n, check_t vnorm (set_max_iter n c) o = (set_max_iter n c, Raise e)) -> snd (oc_call vnorm c o it) = Raise e.
  Proof.
    intros W H. rewrite call_snd. unfold check_all_params. cbn [monitoring set_max_iter].
    destruct (watch_theta_case _ W) as (E1 & E2 & E3 & E4). rewrite E1, E2, E3, E4, H. reflexivity.
  Qed.

  (* the memories are filled in order and keep the length of the parameters *)
  Definition sane (n : nat) (c : oc) : Prop :=
    (forall t, t_0 c = Some t -> List.length t = n) /\ (forall t, t_mem c = Some t -> List.length t = n) /\
    (delta_t_1 c <> None -> t_mem c <> None) /\ (delta_l_1 c <> None -> l_mem c <> None).
  Definition same_settings (c c' : oc) : Prop :=
    monitoring c' = monitoring c /\ mode c' = mode c /\ metric c' = metric c /\ tol_theta c' = tol_theta c /\ tol_lambda c' = tol_lambda c.
  Lemma documented_same c c' : same_settings c c' -> documented c -> documented c'.
  Proof. intros (A & B & C & D & E) H. unfold documented in *. rewrite A, B, C, D, E. exact H. Qed.

  Lemma grads_present l : Forall (fun g : option (list xr) => g <> None) l -> exists gs, all_grads l = Ok gs /\ List.length gs = List.length l.
  Proof.
    induction 1 as [|[g|] l Hg Hl (gs & E & L)]; cbn; [eauto| |congruence]. rewrite E. cbn. eexists; split; [reflexivity|]. cbn. congruence.
  Qed.

  Lemma xle_pos x : x <> NaN -> xle x (Fin 0) = false -> xlt (Fin 0) x = true.
  Proof.
    destruct x; cbn; intros N H; try congruence. unfold xle in H. cbn in H. apply orb_false_elim in H. destruct H as [H1 H2].
    apply Rltb_true. apply Rltb_false in H1. apply Reqb_false in H2.
    destruct (Rtotal_order 0 r) as [?|[?|?]]; [assumption|congruence|exfalso; apply Rlt_not_le in H; contradiction].
  Qed.
  Lemma metric_ok c a b tol : (mode c = "rel" \/ mode c = "abs")%string -> tol <> NaN -> xle tol (Fin 0) = false ->
    exists r, check_metric c a b tol = Ok r.
  Proof. intros M N H. unfold check_metric. rewrite (xle_pos _ N H). cbn. destruct M as [E|E]; rewrite E; cbn; eauto. Qed.

  Lemma check_l_ok n c o : sane n c -> documented c -> o_lgrad o <> None ->
    exists c' b, check_l c o = (c', Ok b) /\ sane n c' /\ same_settings c c'.
  Proof.
    intros Sa (_ & Mo & Me & Nt & Nl) G. unfold check_l.
    assert (Ref : same_settings c c) by (repeat split).
    destruct (xle (tol_lambda c) (Fin 0)) eqn:T; [eauto|].
    destruct Sa as (S1 & S2 & S3 & S4).
    destruct Me as [Me|Me]; rewrite Me; cbn [String.eqb Ascii.eqb Bool.eqb].
    - unfold lam_grad. destruct (o_lgrad o) as [g|]; [|congruence]. destruct (l_grad_0 c) as [m|].
      + destruct (metric_ok c (xabs g) m _ Mo Nl T) as [r E]. rewrite E. exists c, r. repeat split; auto.
      + do 2 eexists; split; [reflexivity|]. split; [unfold sane; cbn; auto|repeat split].
    - destruct (l_0 c) as [z|].
      + destruct (delta_l_1 c) as [m1|] eqn:D.
        * destruct (l_mem c) as [m|] eqn:L; [|exfalso; apply S4; congruence].
          destruct (metric_ok c (xabs (xsub (o_mem o (o_lam o)) (o_mem o m))) m1 _ Mo Nl T) as [r E]. rewrite E.
          do 2 eexists; split; [reflexivity|]. split; [unfold sane; cbn; repeat split; auto; discriminate|repeat split].
        * do 2 eexists; split; [reflexivity|]. split; [unfold sane; cbn; repeat split; auto; discriminate|repeat split].
      + do 2 eexists; split; [reflexivity|]. split; [unfold sane; cbn; repeat split; auto|repeat split].
  Qed.

  Lemma check_t_ok n c o : sane n c -> documented c -> o_theta o <> [] -> List.length (List.concat (o_theta o)) = n ->
    o_tgrad o <> [] -> Forall (fun g => g <> None) (o_tgrad o) ->
    exists c' b, check_t vnorm c o = (c', Ok b) /\ sane n c' /\ same_settings c c'.
  Proof.
    intros Sa (_ & Mo & Me & Nt & Nl) Th Len G0 G. unfold check_t.
    assert (Ref : same_settings c c) by (repeat split).
    destruct (xle (tol_theta c) (Fin 0)) eqn:T; [eauto|].
    destruct Sa as (S1 & S2 & S3 & S4).
    destruct Me as [Me|Me]; rewrite Me; cbn [String.eqb Ascii.eqb Bool.eqb].
    - unfold get_flat_grad. destruct (grads_present _ G) as (gs & E & L). rewrite E. cbn.
      destruct gs as [|g gs]; [destruct (o_tgrad o); [congruence|discriminate]|].
      destruct (t_grad_0 c) as [m|].
      + destruct (metric_ok c (vnorm (List.concat (g :: gs))) m _ Mo Nt T) as [r E']. rewrite E'. exists c, r. repeat split; auto.
      + do 2 eexists; split; [reflexivity|]. split; [unfold sane; cbn; auto|repeat split].
    - assert (F : get_flat_param o = Ok (List.concat (o_theta o))) by (unfold get_flat_param; destruct (o_theta o); [congruence|reflexivity]).
      rewrite F. destruct (t_0 c) as [z|] eqn:Z0.
      + assert (Lz : List.length z = n) by (apply S1; reflexivity).
        destruct (delta_t_1 c) as [m1|] eqn:D.
        * destruct (t_mem c) as [m|] eqn:L; [|exfalso; apply S3; congruence].
          assert (Lm : List.length m = n) by (apply S2; reflexivity).
          unfold tsub. rewrite Len, Lm, Nat.eqb_refl.
          destruct (metric_ok c (vnorm (map2x xsub (List.concat (o_theta o)) m)) m1 _ Mo Nt T) as [r E]. rewrite E.
          do 2 eexists; split; [reflexivity|]. split; [|repeat split]. unfold sane; cbn.
          repeat split; auto; try discriminate; intros t H; inversion H; subst t; assumption.
        * unfold tsub. rewrite Len, Lz, Nat.eqb_refl. do 2 eexists; split; [reflexivity|]. split; [|repeat split]. unfold sane; cbn.
          repeat split; auto; try discriminate; intros t H; inversion H; subst t; assumption.
      + do 2 eexists; split; [reflexivity|]. split; [|repeat split]. unfold sane; cbn.
        repeat split; auto. intros t H; inversion H; subst t; assumption.
  Qed.

  Lemma same_trans a b c : same_settings a b -> same_settings b c -> same_settings a c.
  Proof. intros (A & B & C & D & E) (A' & B' & C' & D' & E'). unfold same_settings. rewrite A', B', C', D', E', A, B, C, D, E. repeat split. Qed.

  Lemma combine_ok f n c o it : sane n c -> documented c -> measurable n (o, it) ->
    exists c' b, combine vnorm f c o = (c', Ok b) /\ sane n c' /\ same_settings c c'.
  Proof.
    intros Sa Do (G & Th & Le & G0 & Gs). cbn in *.
    destruct (check_l_ok n c o Sa Do G) as (c1 & a & E & Sa1 & Sm1).
    destruct (check_t_ok n c1 o Sa1 (documented_same _ _ Sm1 Do) Th Le G0 Gs) as (c2 & b & E2 & Sa2 & Sm2).
    unfold combine. rewrite E, E2. do 2 eexists; split; [reflexivity|]. split; [exact Sa2|]. eapply same_trans; eassumption.
  Qed.

  Lemma call_ok n c o it : sane n c -> documented c -> measurable n (o, it) ->
    exists c' b, oc_call vnorm c o it = (c', Ok b) /\ sane n c' /\ documented c'.
  Proof.
    intros Sa Do Ms. unfold oc_call. set (c0 := set_max_iter _ c).
    assert (Sa0 : sane n c0) by exact Sa. assert (Do0 : documented c0) by exact Do.
    assert (X : exists c' b, check_all_params vnorm c0 o = (c', Ok b) /\ sane n c' /\ same_settings c0 c').
    { unfold check_all_params. destruct (mem (monitoring c0) L_AND_T) eqn:M1; [eapply combine_ok; eassumption|].
      destruct (mem (monitoring c0) L_OR_T) eqn:M2; [eapply combine_ok; eassumption|].
      destruct Ms as (G & Th & Le & G0 & Gs). cbn [fst] in *.
      destruct (mem (monitoring c0) JUST_L) eqn:M3; [apply check_l_ok; assumption|].
      destruct (mem (monitoring c0) JUST_T) eqn:M4; [apply check_t_ok; assumption|].
      destruct Do0 as ([W|[W|W]] & _).
      - destruct (watch_both_cases _ W) as [E|[_ E]]; congruence.
      - destruct (watch_lambda_case _ W) as (_ & _ & E); congruence.
      - destruct (watch_theta_case _ W) as (_ & _ & _ & E); congruence. }
    destruct X as (c' & b & E & Sa' & Sm). rewrite E. do 2 eexists; split; [reflexivity|]. split; [exact Sa'|]. eapply documented_same; eassumption.
  Qed.

  Lemma evals_ok n l : Forall (measurable n) l -> forall c, sane n c -> documented c -> Forall (fun r => exists b, r = Ok b) (evals vnorm c l).
  Proof.
    induction 1 as [|[o it] l Hm Hl IH]; intros c Sa Do; cbn [evals]; [constructor|].
    destruct (call_ok n c o it Sa Do Hm) as (c' & b & E & Sa' & Do'). rewrite E. constructor; [eauto|]. apply IH; assumption.
  Qed.
  Lemma fresh_sane n c : fresh c -> sane n c.
  Proof. intros (A & B & C & D & E & F & G & H). unfold sane. rewrite B, D, G, H. repeat split; congruence. Qed.
End Meas.
