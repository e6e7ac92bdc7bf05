From Coq Require Import Reals List Bool String ZArith Lra Lia.
From Verif Require Import PyBase XReal OptCond_Model OptCond_Spec.
Import ListNotations.

Section C.
Variable vnorm : list xr -> xr.
Notation check_t := (check_t vnorm). Notation check_l := (check_l). Notation oc_call := (oc_call vnorm).
Notation evals := (evals vnorm). Notation changes := (changes vnorm). Notation oc_after := (oc_after vnorm). Notation check_all_params := (check_all_params vnorm).

Lemma check_iter_false c o it : (it < train_steps (o_niter o))%Z -> check_iter (set_max_iter (train_steps (o_niter o)) c) it = false.
Proof.
  intros H. unfold check_iter; simpl. destruct (Z.leb_spec (train_steps (o_niter o)) 0); [reflexivity|].
  apply Z.leb_gt. exact H.
Qed.

Lemma xle_pos t : xlt (Fin 0) t = true -> xle t (Fin 0) = false.
Proof.
  destruct t as [r| | |]; simpl; try discriminate; [|reflexivity]. intros H. apply Rltb_true in H. unfold xle; simpl.
  assert (E1 : Rltb r 0 = false) by (apply Rltb_false; lra). assert (E2 : Reqb r 0 = false) by (apply Reqb_false; lra).
  rewrite E1, E2. reflexivity.
Qed.

Lemma check_metric_passes c m new mem tol :
  mode c = mode_name m -> xlt (Fin 0) tol = true -> check_metric c new mem tol = Ok (passes m tol mem new).
Proof. intros Hm Ht. unfold check_metric. rewrite Ht. simpl. rewrite Hm. destruct m; reflexivity. Qed.

Lemma all_grads_some gs : all_grads (map Some gs) = Ok gs.
Proof. induction gs as [|g gs IH]; simpl; [reflexivity|]. rewrite IH. reflexivity. Qed.

Lemma flat_grad o it g : shows_grad (o, it) g -> get_flat_grad o = Ok g.
Proof.
  intros [gs [H1 [H2 ->]]]. simpl in H1. unfold get_flat_grad. rewrite H1, all_grads_some. simpl. destruct gs; [contradiction|reflexivity].
Qed.

Lemma flat_param o it t : shows_param (o, it) t -> get_flat_param o = Ok t.
Proof. intros [H1 ->]. simpl in *. unfold get_flat_param. destruct (o_theta o); [contradiction|reflexivity]. Qed.

(* ---- C27 ---- *)
Lemma check_t_first c o :
  t_grad_0 c = None -> t_0 c = None -> snd (check_t c o) <> Ok true.
Proof.
  intros H1 H2. unfold OptCond_Model.check_t. rewrite H1, H2.
  destruct (xle (tol_theta c) (Fin 0)); [discriminate|]. destruct (String.eqb (metric c) "grad").
  - destruct (get_flat_grad o); discriminate.
  - destruct (String.eqb (metric c) "param"); [|discriminate]. destruct (get_flat_param o); discriminate.
Qed.

Lemma check_l_first c o : l_grad_0 c = None -> l_0 c = None -> snd (check_l c o) <> Ok true.
Proof.
  intros H1 H2. unfold OptCond_Model.check_l. rewrite H1, H2.
  destruct (xle (tol_lambda c) (Fin 0)); [discriminate|]. destruct (String.eqb (metric c) "grad").
  - destruct (lam_grad o); discriminate.
  - destruct (String.eqb (metric c) "param"); discriminate.
Qed.

(* the two sides do not touch each other's memory *)
Definition t_part (c : oc) := (t_mem c, t_0 c, t_grad_0 c, delta_t_1 c).
Definition l_part (c : oc) := (l_mem c, l_0 c, l_grad_0 c, delta_l_1 c).
Definition setup (c : oc) := (tol_theta c, tol_lambda c, monitoring c, mode c, metric c, max_iter c).

Lemma check_t_frame c o : l_part (fst (check_t c o)) = l_part c /\ setup (fst (check_t c o)) = setup c.
Proof.
  unfold OptCond_Model.check_t. repeat match goal with |- context [match ?x with _ => _ end] => destruct x end; split; reflexivity.
Qed.
Lemma check_l_frame c o : t_part (fst (check_l c o)) = t_part c /\ setup (fst (check_l c o)) = setup c.
Proof.
  unfold OptCond_Model.check_l. repeat match goal with |- context [match ?x with _ => _ end] => destruct x end; split; reflexivity.
Qed.

(* neither can be positive unless its reference has been taken *)
Definition no_ref_t (c : oc) : Prop := if String.eqb (metric c) "grad" then t_grad_0 c = None else delta_t_1 c = None.
Definition no_ref_l (c : oc) : Prop := if String.eqb (metric c) "grad" then l_grad_0 c = None else delta_l_1 c = None.

Lemma check_t_no_ref c o : no_ref_t c -> snd (check_t c o) <> Ok true.
Proof.
  unfold no_ref_t, OptCond_Model.check_t. intros H. destruct (xle (tol_theta c) (Fin 0)); [discriminate|].
  destruct (String.eqb (metric c) "grad").
  - rewrite H. destruct (get_flat_grad o); discriminate.
  - destruct (String.eqb (metric c) "param"); [|discriminate]. rewrite H.
    destruct (get_flat_param o) as [th|]; [|discriminate]. destruct (t_0 c) as [z|]; [|discriminate]. destruct (tsub th z); discriminate.
Qed.
Lemma check_l_no_ref c o : no_ref_l c -> snd (check_l c o) <> Ok true.
Proof.
  unfold no_ref_l, OptCond_Model.check_l. intros H. destruct (xle (tol_lambda c) (Fin 0)); [discriminate|].
  destruct (String.eqb (metric c) "grad").
  - rewrite H. destruct (lam_grad o); discriminate.
  - destruct (String.eqb (metric c) "param"); [|discriminate]. rewrite H. destruct (l_0 c); discriminate.
Qed.

Lemma setup_metric c c' : setup c = setup c' -> metric c = metric c'.
Proof. unfold setup. intros H. injection H. intros. assumption. Qed.

Lemma no_ref_t_transfer c c' : t_part c = t_part c' -> setup c = setup c' -> no_ref_t c -> no_ref_t c'.
Proof.
  intros H1 H2. unfold no_ref_t. rewrite (setup_metric _ _ H2). unfold t_part in H1. injection H1 as _ _ Hg Hd.
  rewrite Hg, Hd. auto.
Qed.

Lemma combine_no_ref f c o : (forall a b, f a b = true -> a = true \/ b = true) ->
  no_ref_t c -> no_ref_l c -> snd (combine vnorm f c o) <> Ok true.
Proof.
  intros Hf Ht Hl. unfold combine. pose proof (check_l_no_ref c o Hl) as H1. destruct (check_l_frame c o) as [F1 F2].
  destruct (check_l c o) as [c1 [a|e]]; simpl in *; [|discriminate].
  assert (Ht1 : no_ref_t c1) by (apply (no_ref_t_transfer c); auto).
  pose proof (check_t_no_ref c1 o Ht1) as H2. destruct (check_t c1 o) as [c2 [b|e]]; simpl in *; [|discriminate].
  intros H. injection H as H. destruct (Hf a b H) as [-> | ->]; [apply H1|apply H2]; reflexivity.
Qed.

Lemma all_no_ref c o : no_ref_t c -> no_ref_l c -> snd (check_all_params c o) <> Ok true.
Proof.
  intros Ht Hl. unfold OptCond_Model.check_all_params.
  destruct (mem (monitoring c) L_AND_T). { apply combine_no_ref; auto. intros a b H. apply andb_true_iff in H. left; apply H. }
  destruct (mem (monitoring c) L_OR_T). { apply combine_no_ref; auto. intros a b H. apply orb_true_iff in H. exact H. }
  destruct (mem (monitoring c) JUST_L). { apply check_l_no_ref, Hl. }
  destruct (mem (monitoring c) JUST_T). { apply check_t_no_ref, Ht. }
  discriminate.
Qed.

Lemma call_no_ref c o it :
  in_budget (o, it) -> no_ref_t c -> no_ref_l c -> snd (oc_call c o it) <> Ok true.
Proof.
  intros Hb Ht Hl. unfold OptCond_Model.oc_call.
  set (c0 := set_max_iter (train_steps (o_niter o)) c).
  assert (H := all_no_ref c0 o Ht Hl). pose proof (check_iter_false c o it Hb) as Hi. fold c0 in Hi. rewrite Hi.
  destruct (check_all_params c0 o) as [c1 [cp|e]]; simpl in *; [exact H|discriminate].
Qed.

Lemma fresh_no_ref c : fresh c -> no_ref_t c /\ no_ref_l c.
Proof.
  intros (H1 & H2 & H3 & H4 & H5 & H6 & H7 & H8). unfold no_ref_t, no_ref_l. split; destruct (String.eqb (metric c) "grad"); assumption.
Qed.

Lemma first_evaluation c h hs : fresh c -> in_budget h -> nth_error (evals c (h :: hs)) 0 <> Some (Ok true).
Proof.
  intros Hf Hb. destruct h as [o it]. destruct (fresh_no_ref c Hf) as [Ht Hl]. pose proof (call_no_ref c o it Hb Ht Hl) as H.
  simpl. destruct (oc_call c o it) as [c' x]; simpl in *. intros E. injection E as E. auto.
Qed.

(* after one call with the parameter metric the second reference is still missing *)
Lemma check_t_keeps c o :
  metric c = "param"%string -> t_0 c = None -> delta_t_1 c = None -> delta_t_1 (fst (check_t c o)) = None.
Proof.
  intros Hm H1 H2. unfold OptCond_Model.check_t. rewrite Hm, H1. simpl.
  destruct (xle (tol_theta c) (Fin 0)); [exact H2|]. destruct (get_flat_param o); exact H2.
Qed.
Lemma check_l_keeps c o :
  metric c = "param"%string -> l_0 c = None -> delta_l_1 c = None -> delta_l_1 (fst (check_l c o)) = None.
Proof.
  intros Hm H1 H2. unfold OptCond_Model.check_l. rewrite Hm, H1. simpl.
  destruct (xle (tol_lambda c) (Fin 0)); exact H2.
Qed.

Lemma parts_delta c c' : l_part c = l_part c' -> delta_l_1 c = delta_l_1 c'.
Proof. unfold l_part. intros H. injection H. auto. Qed.
Lemma tparts_delta c c' : t_part c = t_part c' -> t_0 c = t_0 c' /\ delta_t_1 c = delta_t_1 c'.
Proof. unfold t_part. intros H. injection H. auto. Qed.

Lemma all_keeps c o :
  metric c = "param"%string -> t_0 c = None -> delta_t_1 c = None -> l_0 c = None -> delta_l_1 c = None ->
  let c1 := fst (check_all_params c o) in delta_t_1 c1 = None /\ delta_l_1 c1 = None /\ metric c1 = "param"%string.
Proof.
  intros Hm T0 TD L0 LD. cbv zeta.
  assert (Hc : forall f, let c1 := fst (combine vnorm f c o) in
            delta_t_1 c1 = None /\ delta_l_1 c1 = None /\ metric c1 = "param"%string).
  { intros f. cbv zeta. unfold combine. pose proof (check_l_keeps c o Hm L0 LD) as HL. destruct (check_l_frame c o) as [F1 F2].
    destruct (check_l c o) as [c1 [a|e]]; simpl in *.
    - destruct (tparts_delta _ _ F1) as [E1 E2]. apply setup_metric in F2.
      assert (M1 : metric c1 = "param"%string) by congruence.
      pose proof (check_t_keeps c1 o M1 ltac:(congruence) ltac:(congruence)) as HT. destruct (check_t_frame c1 o) as [G1 G2].
      apply setup_metric in G2. apply parts_delta in G1.
      destruct (check_t c1 o) as [c2 [b|e]]; simpl in *; repeat split; congruence.
    - destruct (tparts_delta _ _ F1) as [E1 E2]. apply setup_metric in F2. repeat split; congruence. }
  unfold OptCond_Model.check_all_params. destruct (mem (monitoring c) L_AND_T); [apply Hc|]. destruct (mem (monitoring c) L_OR_T); [apply Hc|].
  destruct (mem (monitoring c) JUST_L).
  { destruct (check_l_frame c o) as [F1 F2]. destruct (tparts_delta _ _ F1) as [E1 E2]. apply setup_metric in F2.
    pose proof (check_l_keeps c o Hm L0 LD). repeat split; congruence. }
  destruct (mem (monitoring c) JUST_T).
  { destruct (check_t_frame c o) as [F1 F2]. apply parts_delta in F1. apply setup_metric in F2.
    pose proof (check_t_keeps c o Hm T0 TD). repeat split; congruence. }
  simpl. auto.
Qed.

Lemma call_fst c o it : fst (oc_call c o it) = fst (check_all_params (set_max_iter (train_steps (o_niter o)) c) o).
Proof. unfold OptCond_Model.oc_call. destruct (check_all_params _ o) as [c1 [x|e]]; reflexivity. Qed.

Lemma second_evaluation c h h' hs :
  fresh c -> metric c = "param"%string -> in_budget h' -> nth_error (evals c (h :: h' :: hs)) 1 <> Some (Ok true).
Proof.
  intros (H1 & H2 & H3 & H4 & H5 & H6 & H7 & H8) Hm Hb. destruct h as [o it], h' as [o' it'].
  pose proof (all_keeps (set_max_iter (train_steps (o_niter o)) c) o Hm H4 H8 H3 H7) as K. cbv zeta in K.
  rewrite <- (call_fst c o it) in K. simpl. destruct (oc_call c o it) as [c1 x]; simpl in *. destruct K as [K1 [K2 K3]].
  assert (Ht : no_ref_t c1) by (unfold no_ref_t; rewrite K3; simpl; exact K1).
  assert (Hl : no_ref_l c1) by (unfold no_ref_l; rewrite K3; simpl; exact K2).
  pose proof (call_no_ref c1 o' it' Hb Ht Hl) as H. destruct (oc_call c1 o' it') as [c2 y]; simpl in *.
  intros E. injection E as E. auto.
Qed.

(* ---- C28 ---- *)
Lemma call_just_t c o it : In (monitoring c) JUST_T ->
  oc_call c o it = let c0 := set_max_iter (train_steps (o_niter o)) c in
    match check_t c0 o with (c1, Ok cp) => (c1, Ok (check_iter c0 it || cp)) | (c1, Raise e) => (c1, Raise e) end.
Proof.
  intros H. unfold OptCond_Model.oc_call, OptCond_Model.check_all_params.
  destruct H as [H|[H|[]]]; cbn [monitoring set_max_iter]; rewrite <- H; reflexivity.
Qed.
Lemma call_just_l c o it : In (monitoring c) JUST_L ->
  oc_call c o it = let c0 := set_max_iter (train_steps (o_niter o)) c in
    match check_l c0 o with (c1, Ok cp) => (c1, Ok (check_iter c0 it || cp)) | (c1, Raise e) => (c1, Raise e) end.
Proof.
  intros H. unfold OptCond_Model.oc_call, OptCond_Model.check_all_params.
  destruct H as [H|[H|[]]]; cbn [monitoring set_max_iter]; rewrite <- H; reflexivity.
Qed.

Lemma grad_theta_ref c m hs gs g0 :
  In (monitoring c) JUST_T -> metric c = "grad"%string -> mode c = mode_name m -> xlt (Fin 0) (tol_theta c) = true ->
  t_grad_0 c = Some g0 -> Forall2 shows_grad hs gs -> Forall in_budget hs ->
  evals c hs = map (fun g => Ok (passes m (tol_theta c) g0 (vnorm g))) gs.
Proof.
  intros HM Hme Hmo Ht Hr HF HB. revert c HM Hme Hmo Ht Hr. induction HF as [|[o it] g hs gs Hg HF IH]; intros; [reflexivity|].
  inversion HB as [|? ? Hb HB']; subst. cbn [OptCond_Model.evals]. rewrite call_just_t by exact HM. cbv zeta.
  set (c0 := set_max_iter (train_steps (o_niter o)) c).
  assert (E : check_t c0 o = (c0, Ok (passes m (tol_theta c) g0 (vnorm g)))).
  { unfold OptCond_Model.check_t. cbn. rewrite (xle_pos _ Ht), Hme. simpl. rewrite (flat_grad _ _ _ Hg), Hr.
    f_equal. apply check_metric_passes; assumption. }
  rewrite E. pose proof (check_iter_false c o it Hb) as Hi. fold c0 in Hi. rewrite Hi. simpl. f_equal.
  exact (IH HB' (set_max_iter (train_steps (o_niter o)) c) HM Hme Hmo Ht Hr).
Qed.

Lemma grad_theta c m h hs g0 gs :
  fresh c -> In (monitoring c) JUST_T -> metric c = "grad"%string -> mode c = mode_name m -> xlt (Fin 0) (tol_theta c) = true ->
  Forall2 shows_grad (h :: hs) (g0 :: gs) -> Forall in_budget (h :: hs) ->
  evals c (h :: hs) = Ok false :: map (fun g => Ok (passes m (tol_theta c) (vnorm g0) (vnorm g))) gs.
Proof.
  intros Hf HM Hme Hmo Ht HF HB. inversion HF as [|? ? ? ? Hg HF']; subst. inversion HB as [|? ? Hb HB']; subst.
  destruct Hf as (H1 & H2 & H3 & H4 & H5 & H6 & H7 & H8). destruct h as [o it].
  cbn [OptCond_Model.evals]. rewrite call_just_t by exact HM. cbv zeta.
  set (c0 := set_max_iter (train_steps (o_niter o)) c).
  assert (E : check_t c0 o = (set_t (t_mem c0) (t_0 c0) (Some (vnorm g0)) (delta_t_1 c0) c0, Ok false)).
  { unfold OptCond_Model.check_t. cbn [tol_theta c0 set_max_iter metric]. rewrite (xle_pos _ Ht), Hme. simpl. rewrite (flat_grad _ _ _ Hg), H6. reflexivity. }
  rewrite E. pose proof (check_iter_false c o it Hb) as Hi. fold c0 in Hi. rewrite Hi. simpl. f_equal.
  apply (grad_theta_ref (set_t (t_mem c0) (t_0 c0) (Some (vnorm g0)) (delta_t_1 c0) c0)); assumption || reflexivity.
Qed.

Lemma grad_lambda_ref c m hs gs g0 :
  In (monitoring c) JUST_L -> metric c = "grad"%string -> mode c = mode_name m -> xlt (Fin 0) (tol_lambda c) = true ->
  l_grad_0 c = Some g0 -> Forall2 shows_lgrad hs gs -> Forall in_budget hs ->
  evals c hs = map (fun g => Ok (passes m (tol_lambda c) g0 (xabs g))) gs.
Proof.
  intros HM Hme Hmo Ht Hr HF HB. revert c HM Hme Hmo Ht Hr. induction HF as [|[o it] g hs gs Hg HF IH]; intros; [reflexivity|].
  inversion HB as [|? ? Hb HB']; subst. cbn [OptCond_Model.evals]. rewrite call_just_l by exact HM. cbv zeta.
  set (c0 := set_max_iter (train_steps (o_niter o)) c).
  assert (E : check_l c0 o = (c0, Ok (passes m (tol_lambda c) g0 (xabs g)))).
  { unfold OptCond_Model.check_l. cbn. rewrite (xle_pos _ Ht), Hme. simpl. unfold lam_grad. unfold shows_lgrad in Hg; simpl in Hg. rewrite Hg, Hr.
    f_equal. apply check_metric_passes; assumption. }
  rewrite E. pose proof (check_iter_false c o it Hb) as Hi. fold c0 in Hi. rewrite Hi. simpl. f_equal.
  exact (IH HB' (set_max_iter (train_steps (o_niter o)) c) HM Hme Hmo Ht Hr).
Qed.

Lemma grad_lambda c m h hs g0 gs :
  fresh c -> In (monitoring c) JUST_L -> metric c = "grad"%string -> mode c = mode_name m -> xlt (Fin 0) (tol_lambda c) = true ->
  Forall2 shows_lgrad (h :: hs) (g0 :: gs) -> Forall in_budget (h :: hs) ->
  evals c (h :: hs) = Ok false :: map (fun g => Ok (passes m (tol_lambda c) (xabs g0) (xabs g))) gs.
Proof.
  intros Hf HM Hme Hmo Ht HF HB. inversion HF as [|? ? ? ? Hg HF']; subst. inversion HB as [|? ? Hb HB']; subst.
  destruct Hf as (H1 & H2 & H3 & H4 & H5 & H6 & H7 & H8). destruct h as [o it].
  cbn [OptCond_Model.evals]. rewrite call_just_l by exact HM. cbv zeta.
  set (c0 := set_max_iter (train_steps (o_niter o)) c).
  assert (E : check_l c0 o = (set_l (l_mem c0) (l_0 c0) (Some (xabs g0)) (delta_l_1 c0) c0, Ok false)).
  { unfold OptCond_Model.check_l. cbn [tol_lambda c0 set_max_iter metric]. rewrite (xle_pos _ Ht), Hme. simpl. unfold lam_grad.
    unfold shows_lgrad in Hg; simpl in Hg. rewrite Hg, H5. reflexivity. }
  rewrite E. pose proof (check_iter_false c o it Hb) as Hi. fold c0 in Hi. rewrite Hi. simpl. f_equal.
  apply (grad_lambda_ref (set_l (l_mem c0) (l_0 c0) (Some (xabs g0)) (delta_l_1 c0) c0)); assumption || reflexivity.
Qed.

Lemma tsub_same a b : List.length a = List.length b -> tsub a b = Ok (map2x xsub a b).
Proof. intros H. unfold tsub. rewrite H, Nat.eqb_refl. reflexivity. Qed.

Lemma param_theta_ref c m hs ts prev z d n :
  In (monitoring c) JUST_T -> metric c = "param"%string -> mode c = mode_name m -> xlt (Fin 0) (tol_theta c) = true ->
  t_0 c = Some z -> delta_t_1 c = Some d -> t_mem c = Some prev -> List.length prev = n -> Forall (fun t => List.length t = n) ts ->
  Forall2 shows_param hs ts -> Forall in_budget hs ->
  evals c hs = map (fun x => Ok (passes m (tol_theta c) d x)) (changes prev ts).
Proof.
  intros HM Hme Hmo Ht Hz Hd Hp Hn Hlen HF HB. revert c prev HM Hme Hmo Ht Hz Hd Hp Hn Hlen.
  induction HF as [|[o it] t hs ts Hg HF IH]; intros; [reflexivity|].
  inversion HB as [|? ? Hb HB']; subst. inversion Hlen as [|? ? Hl Hlen']; subst.
  cbn [OptCond_Model.evals]. rewrite call_just_t by exact HM. cbv zeta.
  set (c0 := set_max_iter (train_steps (o_niter o)) c).
  assert (E : check_t c0 o = (set_t (Some t) (t_0 c0) (t_grad_0 c0) (delta_t_1 c0) c0,
                              Ok (passes m (tol_theta c) d (vnorm (map2x xsub t prev))))).
  { unfold OptCond_Model.check_t. cbn [tol_theta c0 set_max_iter metric t_0 delta_t_1 t_mem]. rewrite (xle_pos _ Ht), Hme. simpl.
    rewrite (flat_param _ _ _ Hg), Hz, Hd, Hp. rewrite tsub_same by exact Hl. f_equal. apply check_metric_passes; assumption. }
  rewrite E. pose proof (check_iter_false c o it Hb) as Hi. fold c0 in Hi. rewrite Hi. simpl. f_equal.
  apply (IH HB' (set_t (Some t) (t_0 c0) (t_grad_0 c0) (delta_t_1 c0) c0) t); try assumption; reflexivity.
Qed.

Lemma param_theta c m h1 h2 hs t0 t1 ts n :
  fresh c -> In (monitoring c) JUST_T -> metric c = "param"%string -> mode c = mode_name m -> xlt (Fin 0) (tol_theta c) = true ->
  Forall (fun t => List.length t = n) (t0 :: t1 :: ts) ->
  Forall2 shows_param (h1 :: h2 :: hs) (t0 :: t1 :: ts) -> Forall in_budget (h1 :: h2 :: hs) ->
  evals c (h1 :: h2 :: hs) =
    Ok false :: Ok false :: map (fun x => Ok (passes m (tol_theta c) (vnorm (map2x xsub t1 t0)) x)) (changes t1 ts).
Proof.
  intros Hf HM Hme Hmo Ht Hlen HF HB. inversion HF as [|? ? ? ? Hg1 HF1]; subst. inversion HF1 as [|? ? ? ? Hg2 HF2]; subst.
  inversion HB as [|? ? Hb1 HB1]; subst. inversion HB1 as [|? ? Hb2 HB2]; subst.
  inversion Hlen as [|? ? Hl0 Hlen1]; subst. inversion Hlen1 as [|? ? Hl1 Hlen2]; subst.
  destruct Hf as (H1 & H2 & H3 & H4 & H5 & H6 & H7 & H8). destruct h1 as [o1 it1], h2 as [o2 it2].
  cbn [OptCond_Model.evals]. rewrite call_just_t by exact HM. cbv zeta.
  set (c0 := set_max_iter (train_steps (o_niter o1)) c).
  assert (E : check_t c0 o1 = (set_t (t_mem c0) (Some t0) (t_grad_0 c0) (delta_t_1 c0) c0, Ok false)).
  { unfold OptCond_Model.check_t. cbn [tol_theta c0 set_max_iter metric t_0 delta_t_1 t_mem]. rewrite (xle_pos _ Ht), Hme. simpl.
    rewrite (flat_param _ _ _ Hg1), H4. reflexivity. }
  rewrite E. pose proof (check_iter_false c o1 it1 Hb1) as Hi. fold c0 in Hi. rewrite Hi. cbv beta iota. f_equal.
  set (c1 := set_t (t_mem c0) (Some t0) (t_grad_0 c0) (delta_t_1 c0) c0).
  rewrite call_just_t by exact HM. cbv zeta. set (c2 := set_max_iter (train_steps (o_niter o2)) c1).
  assert (E2 : check_t c2 o2 = (set_t (Some t1) (t_0 c2) (t_grad_0 c2) (Some (vnorm (map2x xsub t1 t0))) c2, Ok false)).
  { unfold OptCond_Model.check_t. cbn [tol_theta c2 c1 c0 set_max_iter set_t metric t_0 delta_t_1 t_mem]. rewrite (xle_pos _ Ht), Hme. simpl.
    rewrite (flat_param _ _ _ Hg2), H8. rewrite tsub_same by congruence. reflexivity. }
  rewrite E2. pose proof (check_iter_false c1 o2 it2 Hb2) as Hi2. fold c2 in Hi2. rewrite Hi2. simpl. f_equal.
  eapply (param_theta_ref (set_t (Some t1) (t_0 c2) (t_grad_0 c2) (Some (vnorm (map2x xsub t1 t0))) c2)) with (z := t0) (n := List.length t1);
    try assumption; try reflexivity. rewrite Hl1. exact Hlen2.
Qed.

(* two calls, then one that shows parameters of another size *)
Lemma tsub_sizes a b : List.length a <> List.length b -> (1 < List.length a)%nat -> (1 < List.length b)%nat -> tsub a b = Raise RuntimeError.
Proof.
  intros H Ha Hb. unfold tsub. apply Nat.eqb_neq in H. rewrite H.
  destruct a as [|x [|x' a]]; cbn in Ha; try lia. destruct b as [|y [|y' b]]; cbn in Hb; try lia. reflexivity.
Qed.
Lemma tsub_one_l x b : List.length b <> 1%nat -> tsub [x] b = Ok (map (fun y => xsub x y) b).
Proof. intros H. unfold tsub. destruct (Nat.eqb_spec (List.length [x]) (List.length b)) as [E|_]; [cbn in E; congruence|]. reflexivity. Qed.
Lemma tsub_one_r y a : List.length a <> 1%nat -> tsub a [y] = Ok (map (fun x => xsub x y) a).
Proof.
  intros H. unfold tsub. destruct (Nat.eqb_spec (List.length a) (List.length [y])) as [E|_]; [cbn in E; congruence|].
  destruct a as [|x [|x' a]]; reflexivity || (cbn in H; congruence).
Qed.

Lemma param_third c m h1 h2 h3 t0 t1 t2 :
  fresh c -> In (monitoring c) JUST_T -> metric c = "param"%string -> mode c = mode_name m -> xlt (Fin 0) (tol_theta c) = true ->
  List.length t0 = List.length t1 -> shows_param h1 t0 -> shows_param h2 t1 -> shows_param h3 t2 ->
  in_budget h1 -> in_budget h2 -> in_budget h3 ->
  evals c [h1; h2; h3] =
    [Ok false; Ok false;
     match tsub t2 t1 with Raise e => Raise e | Ok d => Ok (passes m (tol_theta c) (vnorm (map2x xsub t1 t0)) (vnorm d)) end].
Proof.
  intros Hf HM Hme Hmo Ht Hl Hg1 Hg2 Hg3 Hb1 Hb2 Hb3.
  destruct Hf as (H1 & H2 & H3 & H4 & H5 & H6 & H7 & H8). destruct h1 as [o1 it1], h2 as [o2 it2], h3 as [o3 it3].
  cbn [OptCond_Model.evals]. rewrite call_just_t by exact HM. cbv zeta.
  set (c0 := set_max_iter (train_steps (o_niter o1)) c).
  assert (E : check_t c0 o1 = (set_t (t_mem c0) (Some t0) (t_grad_0 c0) (delta_t_1 c0) c0, Ok false)).
  { unfold OptCond_Model.check_t. cbn [tol_theta c0 set_max_iter metric t_0 delta_t_1 t_mem]. rewrite (xle_pos _ Ht), Hme. simpl.
    rewrite (flat_param _ _ _ Hg1), H4. reflexivity. }
  rewrite E. pose proof (check_iter_false c o1 it1 Hb1) as Hi. fold c0 in Hi. rewrite Hi. cbv beta iota. f_equal.
  set (c1 := set_t (t_mem c0) (Some t0) (t_grad_0 c0) (delta_t_1 c0) c0).
  rewrite call_just_t by exact HM. cbv zeta. set (c2 := set_max_iter (train_steps (o_niter o2)) c1).
  assert (E2 : check_t c2 o2 = (set_t (Some t1) (t_0 c2) (t_grad_0 c2) (Some (vnorm (map2x xsub t1 t0))) c2, Ok false)).
  { unfold OptCond_Model.check_t. cbn [tol_theta c2 c1 c0 set_max_iter set_t metric t_0 delta_t_1 t_mem]. rewrite (xle_pos _ Ht), Hme. simpl.
    rewrite (flat_param _ _ _ Hg2), H8. rewrite tsub_same by congruence. reflexivity. }
  rewrite E2. pose proof (check_iter_false c1 o2 it2 Hb2) as Hi2. fold c2 in Hi2. rewrite Hi2. cbv beta iota. f_equal.
  set (c3 := set_t (Some t1) (t_0 c2) (t_grad_0 c2) (Some (vnorm (map2x xsub t1 t0))) c2).
  rewrite call_just_t by exact HM. cbv zeta. set (c4 := set_max_iter (train_steps (o_niter o3)) c3).
  assert (E3 : snd (check_t c4 o3) =
    match tsub t2 t1 with Raise e => Raise e | Ok d => Ok (passes m (tol_theta c) (vnorm (map2x xsub t1 t0)) (vnorm d)) end).
  { unfold OptCond_Model.check_t. cbn [tol_theta c4 c3 c2 c1 c0 set_max_iter set_t metric t_0 delta_t_1 t_mem]. rewrite (xle_pos _ Ht), Hme. simpl.
    rewrite (flat_param _ _ _ Hg3). destruct (tsub t2 t1) as [d|e]; [|reflexivity]. cbn [snd]. apply check_metric_passes; assumption. }
  destruct (check_t c4 o3) as [c5 x] eqn:E4. cbn [snd] in E3. subst x.
  pose proof (check_iter_false c3 o3 it3 Hb3) as Hi3. fold c4 in Hi3.
  destruct (tsub t2 t1) as [d|e]; [rewrite Hi3|]; reflexivity.
Qed.

(* ---- C29 ---- *)
Lemma check_t_monitor s c o : check_t (monitor s c) o = (monitor s (fst (check_t c o)), snd (check_t c o)).
Proof.
  unfold OptCond_Model.check_t, check_metric. cbn [tol_theta metric monitor t_grad_0 t_0 delta_t_1 t_mem mode].
  repeat match goal with |- context [match ?x with _ => _ end] => destruct x end; reflexivity.
Qed.
Lemma check_l_monitor s c o : check_l (monitor s c) o = (monitor s (fst (check_l c o)), snd (check_l c o)).
Proof.
  unfold OptCond_Model.check_l, check_metric. cbn [tol_lambda metric monitor l_grad_0 l_0 delta_l_1 l_mem mode].
  repeat match goal with |- context [match ?x with _ => _ end] => destruct x end; reflexivity.
Qed.

(* class of a monitoring name *)
Inductive kind := KAnd | KOr | KLambda | KTheta | KNone.
Definition kind_of (s : string) : kind :=
  if mem s L_AND_T then KAnd else if mem s L_OR_T then KOr else if mem s JUST_L then KLambda else if mem s JUST_T then KTheta else KNone.

Lemma combine_monitor s f c o : combine vnorm f (monitor s c) o = (monitor s (fst (combine vnorm f c o)), snd (combine vnorm f c o)).
Proof.
  unfold combine. rewrite check_l_monitor. destruct (check_l c o) as [c1 [a|e]]; simpl; [|reflexivity].
  rewrite check_t_monitor. destruct (check_t c1 o) as [c2 [b|e]]; reflexivity.
Qed.

Lemma all_params_kind c o : check_all_params c o =
  match kind_of (monitoring c) with
  | KAnd => combine vnorm andb c o | KOr => combine vnorm orb c o | KLambda => check_l c o | KTheta => check_t c o
  | KNone => (c, Raise ValueError) end.
Proof.
  unfold OptCond_Model.check_all_params, kind_of. destruct (mem _ L_AND_T); [reflexivity|]. destruct (mem _ L_OR_T); [reflexivity|].
  destruct (mem _ JUST_L); [reflexivity|]. destruct (mem _ JUST_T); reflexivity.
Qed.

Lemma monitor_set_max s n c : set_max_iter n (monitor s c) = monitor s (set_max_iter n c).
Proof. reflexivity. Qed.

Lemma call_kind s s' c o it : kind_of s = kind_of s' ->
  exists c1, oc_call (monitor s c) o it = (monitor s c1, snd (oc_call (monitor s c) o it)) /\
             oc_call (monitor s' c) o it = (monitor s' c1, snd (oc_call (monitor s c) o it)).
Proof.
  intros Hk. unfold OptCond_Model.oc_call. rewrite !monitor_set_max. set (c0 := set_max_iter _ c).
  rewrite !all_params_kind. cbn [monitoring monitor]. rewrite <- Hk. destruct (kind_of s).
  - rewrite !combine_monitor. exists (fst (combine vnorm andb c0 o)). destruct (combine vnorm andb c0 o) as [c1 [x|e]]; split; reflexivity.
  - rewrite !combine_monitor. exists (fst (combine vnorm orb c0 o)). destruct (combine vnorm orb c0 o) as [c1 [x|e]]; split; reflexivity.
  - rewrite !check_l_monitor. exists (fst (check_l c0 o)). destruct (check_l c0 o) as [c1 [x|e]]; split; reflexivity.
  - rewrite !check_t_monitor. exists (fst (check_t c0 o)). destruct (check_t c0 o) as [c1 [x|e]]; split; reflexivity.
  - exists c0. split; reflexivity.
Qed.

Lemma synonyms s s' c hs : kind_of s = kind_of s' -> evals (monitor s c) hs = evals (monitor s' c) hs.
Proof.
  intros Hk. revert c. induction hs as [|[o it] hs IH]; intros c; [reflexivity|]. cbn [OptCond_Model.evals].
  destruct (call_kind s s' c o it Hk) as [c1 [E1 E2]]. rewrite E2. rewrite E1 at 1. f_equal. apply IH.
Qed.

Lemma kind_and s : In s L_AND_T -> kind_of s = KAnd.
Proof. intros H. repeat (destruct H as [<-|H]; [reflexivity|]). destruct H. Qed.
Lemma kind_or s : In s L_OR_T -> kind_of s = KOr.
Proof. intros H. repeat (destruct H as [<-|H]; [reflexivity|]). destruct H. Qed.
Lemma kind_l s : In s JUST_L -> kind_of s = KLambda.
Proof. intros H. repeat (destruct H as [<-|H]; [reflexivity|]). destruct H. Qed.
Lemma kind_t s : In s JUST_T -> kind_of s = KTheta.
Proof. intros H. repeat (destruct H as [<-|H]; [reflexivity|]). destruct H. Qed.

Lemma mem_in s l : mem s l = true -> In s l.
Proof. unfold mem. rewrite existsb_exists. intros [x [H E]]. apply String.eqb_eq in E. congruence. Qed.

Lemma kind_none s : ~ In s (L_AND_T ++ L_OR_T ++ JUST_L ++ JUST_T) -> kind_of s = KNone.
Proof.
  rewrite !in_app_iff. intros H. unfold kind_of.
  destruct (mem s L_AND_T) eqn:E1; [exfalso; apply H; left; apply mem_in, E1|].
  destruct (mem s L_OR_T) eqn:E2; [exfalso; apply H; right; left; apply mem_in, E2|].
  destruct (mem s JUST_L) eqn:E3; [exfalso; apply H; right; right; left; apply mem_in, E3|].
  destruct (mem s JUST_T) eqn:E4; [exfalso; apply H; right; right; right; apply mem_in, E4|]. reflexivity.
Qed.

Lemma unknown_name c o it : ~ In (monitoring c) (L_AND_T ++ L_OR_T ++ JUST_L ++ JUST_T) -> snd (oc_call c o it) = Raise ValueError.
Proof.
  intros H. unfold OptCond_Model.oc_call. rewrite all_params_kind. cbn [monitoring set_max_iter]. rewrite (kind_none _ H). reflexivity.
Qed.

(* the combined condition is the combination of two separate ones *)
Definition oc_join (s : string) (ct cl : oc) : oc :=
  monitor s (set_l (l_mem cl) (l_0 cl) (l_grad_0 cl) (delta_l_1 cl) ct).

Lemma oc_eta c : c = {| tol_theta := tol_theta c; tol_lambda := tol_lambda c; monitoring := monitoring c; mode := mode c; metric := metric c;
     max_iter := max_iter c; l_mem := l_mem c; t_mem := t_mem c; l_0 := l_0 c; t_0 := t_0 c;
     l_grad_0 := l_grad_0 c; t_grad_0 := t_grad_0 c; delta_l_1 := delta_l_1 c; delta_t_1 := delta_t_1 c |}.
Proof. destruct c; reflexivity. Qed.

(* check_t only looks at the theta side and the settings *)
Lemma check_t_set_l m z g d c o :
  check_t (set_l m z g d c) o = (set_l m z g d (fst (check_t c o)), snd (check_t c o)).
Proof.
  unfold OptCond_Model.check_t, check_metric. cbn [tol_theta metric set_l t_grad_0 t_0 delta_t_1 t_mem mode].
  repeat match goal with |- context [match ?x with _ => _ end] => destruct x end; reflexivity.
Qed.
Lemma check_l_set_t m z g d c o :
  check_l (set_t m z g d c) o = (set_t m z g d (fst (check_l c o)), snd (check_l c o)).
Proof.
  unfold OptCond_Model.check_l, check_metric. cbn [tol_lambda metric set_t l_grad_0 l_0 delta_l_1 l_mem mode].
  repeat match goal with |- context [match ?x with _ => _ end] => destruct x end; reflexivity.
Qed.

Definition same_setup (ct cl : oc) : Prop :=
  tol_theta ct = tol_theta cl /\ tol_lambda ct = tol_lambda cl /\ mode ct = mode cl /\ metric ct = metric cl /\ max_iter ct = max_iter cl.

Lemma combine_join f s ct cl o a b :
  same_setup ct cl -> snd (check_t ct o) = Ok b -> snd (check_l cl o) = Ok a ->
  combine vnorm f (oc_join s ct cl) o = (oc_join s (fst (check_t ct o)) (fst (check_l cl o)), Ok (f a b)) /\
  same_setup (fst (check_t ct o)) (fst (check_l cl o)).
Proof.
  intros (S1 & S2 & S3 & S4 & S5) Hb Ha.
  assert (Ej : oc_join s ct cl = monitor s (set_t (t_mem ct) (t_0 ct) (t_grad_0 ct) (delta_t_1 ct) cl)).
  { unfold oc_join, monitor, set_l, set_t; simpl. rewrite S1, S2, S3, S4, S5. reflexivity. }
  destruct (check_t_frame ct o) as [F1 F2]. destruct (check_l_frame cl o) as [G1 G2].
  split.
  - unfold combine. rewrite Ej, check_l_monitor, check_l_set_t. rewrite (surjective_pairing (check_l cl o)), Ha. simpl.
    set (cl' := fst (check_l cl o)) in *.
    assert (E2 : monitor s (set_t (t_mem ct) (t_0 ct) (t_grad_0 ct) (delta_t_1 ct) cl') =
                 monitor s (set_l (l_mem cl') (l_0 cl') (l_grad_0 cl') (delta_l_1 cl') ct)).
    { unfold setup in G2. injection G2 as K1 K2 K3 K4 K5 K6.
      unfold monitor, set_l, set_t; simpl. rewrite K1, K2, K4, K5, K6, S1, S2, S3, S4, S5. reflexivity. }
    rewrite E2, check_t_monitor, check_t_set_l. simpl. rewrite Hb. reflexivity.
  - unfold setup in F2, G2. injection F2 as J1 J2 J3 J4 J5 J6. injection G2 as K1 K2 K3 K4 K5 K6.
    unfold same_setup. repeat split; congruence.
Qed.

Definition distributes (f : bool -> bool -> bool) : Prop := forall i a b, f (i || a) (i || b) = i || f a b.
Lemma and_distributes : distributes andb. Proof. intros [] [] []; reflexivity. Qed.
Lemma or_distributes : distributes orb. Proof. intros [] [] []; reflexivity. Qed.

Lemma combined_history f s hs : distributes f ->
  (forall c o, check_all_params (monitor s c) o = combine vnorm f (monitor s c) o) ->
  forall ct cl bt bl, same_setup ct cl -> In (monitoring ct) JUST_T -> In (monitoring cl) JUST_L ->
    evals ct hs = map (@Ok bool) bt -> evals cl hs = map (@Ok bool) bl ->
    evals (oc_join s ct cl) hs = map (@Ok bool) (map (fun p => f (fst p) (snd p)) (List.combine bl bt)).
Proof.
  intros Hd Hs. induction hs as [|[o it] hs IH]; intros ct cl bt bl HS HT HL Et El.
  - simpl in *. symmetry in Et, El. apply map_eq_nil in Et. apply map_eq_nil in El. subst. reflexivity.
  - cbn [OptCond_Model.evals] in *. rewrite call_just_t in Et by exact HT. rewrite call_just_l in El by exact HL. cbv zeta in *.
    set (n := train_steps (o_niter o)) in *. set (ct0 := set_max_iter n ct) in *. set (cl0 := set_max_iter n cl) in *.
    assert (HS0 : same_setup ct0 cl0). { destruct HS as (A & B & C & D & E). unfold ct0, cl0, same_setup; simpl. repeat split; assumption. }
    destruct (check_t ct0 o) as [ct1 [b|e]] eqn:Ect; [|destruct bt; discriminate].
    destruct (check_l cl0 o) as [cl1 [a|e]] eqn:Ecl; [|destruct bl; discriminate].
    destruct bt as [|b' bt]; [discriminate|]. destruct bl as [|a' bl]; [discriminate|].
    simpl in Et, El. injection Et as Eb Et. injection El as Ea El.
    destruct (combine_join f s ct0 cl0 o a b HS0) as [Ec HS1]; [rewrite Ect; reflexivity|rewrite Ecl; reflexivity|].
    rewrite Ect, Ecl in Ec, HS1. simpl in Ec, HS1.
    unfold OptCond_Model.oc_call. change (set_max_iter (train_steps (o_niter o)) (oc_join s ct cl)) with (oc_join s ct0 cl0).
    assert (Ea2 : check_all_params (oc_join s ct0 cl0) o = (oc_join s ct1 cl1, Ok (f a b))) by (unfold oc_join in *; rewrite Hs; exact Ec).
    rewrite Ea2.
    assert (Hit : check_iter (oc_join s ct0 cl0) it = check_iter ct0 it) by reflexivity.
    assert (Hit2 : check_iter cl0 it = check_iter ct0 it) by reflexivity.
    rewrite Hit. simpl. rewrite <- Eb, <- Ea, Hit2, Hd. f_equal.
    apply IH; try assumption.
    + pose proof (check_t_frame ct0 o) as [_ F]. rewrite Ect in F. unfold setup in F. injection F as _ _ F _ _ _. simpl in F. rewrite F. exact HT.
    + pose proof (check_l_frame cl0 o) as [_ F]. rewrite Ecl in F. unfold setup in F. injection F as _ _ F _ _ _. simpl in F. rewrite F. exact HL.
Qed.

Lemma join_self s t l c : oc_join s (monitor t c) (monitor l c) = monitor s c.
Proof. reflexivity. Qed.
Lemma self_setup t l c : same_setup (monitor t c) (monitor l c).
Proof. unfold same_setup; simpl. auto. Qed.

Lemma both_history s t l c hs bt bl :
  In s L_AND_T -> In t JUST_T -> In l JUST_L ->
  evals (monitor t c) hs = map (@Ok bool) bt -> evals (monitor l c) hs = map (@Ok bool) bl ->
  evals (monitor s c) hs = map (@Ok bool) (map (fun p => fst p && snd p) (List.combine bl bt)).
Proof.
  intros Hs Ht Hl Et El. rewrite <- (join_self s t l c). apply (combined_history andb); try assumption; [exact and_distributes| |apply self_setup].
  intros c' o. rewrite all_params_kind. simpl. rewrite (kind_and s Hs). reflexivity.
Qed.
Lemma one_history s t l c hs bt bl :
  In s L_OR_T -> In t JUST_T -> In l JUST_L ->
  evals (monitor t c) hs = map (@Ok bool) bt -> evals (monitor l c) hs = map (@Ok bool) bl ->
  evals (monitor s c) hs = map (@Ok bool) (map (fun p => fst p || snd p) (List.combine bl bt)).
Proof.
  intros Hs Ht Hl Et El. rewrite <- (join_self s t l c). apply (combined_history orb); try assumption; [exact or_distributes| |apply self_setup].
  intros c' o. rewrite all_params_kind. simpl. rewrite (kind_or s Hs). reflexivity.
Qed.

(* ---- C30 ---- *)
Lemma check_l_ignored c o : xle (tol_lambda c) (Fin 0) = true -> check_l c o = (c, Ok false).
Proof. intros H. unfold OptCond_Model.check_l. rewrite H. reflexivity. Qed.
Lemma check_t_ignored c o : xle (tol_theta c) (Fin 0) = true -> check_t c o = (c, Ok false).
Proof. intros H. unfold OptCond_Model.check_t. rewrite H. reflexivity. Qed.

Lemma monitor_self c : monitor (monitoring c) c = c.
Proof. destruct c; reflexivity. Qed.

Lemma call_setup c o it : setup (fst (oc_call c o it)) = setup (set_max_iter (train_steps (o_niter o)) c).
Proof.
  rewrite call_fst, all_params_kind. set (c0 := set_max_iter _ c).
  assert (Hc : forall f, setup (fst (combine vnorm f c0 o)) = setup c0).
  { intros f. unfold combine. destruct (check_l_frame c0 o) as [_ F]. destruct (check_l c0 o) as [c1 [a|e]]; simpl in *; [|exact F].
    destruct (check_t_frame c1 o) as [_ G]. destruct (check_t c1 o) as [c2 [b|e]]; simpl in *; congruence. }
  destruct (kind_of _); try apply Hc; try reflexivity; [apply check_l_frame|apply check_t_frame].
Qed.

Lemma both_never_stops c hs :
  In (monitoring c) L_AND_T -> (xle (tol_lambda c) (Fin 0) = true \/ xle (tol_theta c) (Fin 0) = true) -> Forall in_budget hs ->
  ~ In (Ok true) (evals c hs).
Proof.
  intros HM HI HB. revert c HM HI. induction HB as [|[o it] hs Hb HB IH]; intros c HM HI; [exact (fun H => H)|].
  cbn [OptCond_Model.evals]. pose proof (call_setup c o it) as HSet.
  assert (Hn : snd (oc_call c o it) <> Ok true).
  { unfold OptCond_Model.oc_call. rewrite all_params_kind. cbn [monitoring set_max_iter]. rewrite (kind_and _ HM).
    pose proof (check_iter_false c o it Hb) as Hi. rewrite Hi. unfold combine.
    set (c0 := set_max_iter _ c). destruct HI as [HI|HI].
    - rewrite (check_l_ignored c0 o HI). destruct (check_t c0 o) as [c2 [b|e]]; simpl; discriminate.
    - destruct (check_l_frame c0 o) as [_ F]. destruct (check_l c0 o) as [c1 [a|e]]; simpl in *; [|discriminate].
      assert (HI1 : xle (tol_theta c1) (Fin 0) = true). { unfold setup in F. injection F as F _ _ _ _ _. rewrite F. exact HI. }
      rewrite (check_t_ignored c1 o HI1). simpl. rewrite andb_false_r. discriminate. }
  destruct (oc_call c o it) as [c' x]; simpl in *. intros [H|H]; [exact (Hn H)|].
  unfold setup in HSet; simpl in HSet. injection HSet as K1 K2 K3 K4 K5 K6.
  apply (IH c'); [rewrite K3; exact HM|rewrite K1, K2; exact HI|exact H].
Qed.

(* with 'one', a non-positive tolerance does leave the other side alone *)
Lemma call_one_ignored s t c o it :
  In s L_OR_T -> In t JUST_T -> xle (tol_lambda c) (Fin 0) = true ->
  exists c1, oc_call (monitor s c) o it = (monitor s c1, snd (oc_call (monitor t c) o it)) /\
             fst (oc_call (monitor t c) o it) = monitor t c1 /\ tol_lambda c1 = tol_lambda c.
Proof.
  intros Hs Ht HI. unfold OptCond_Model.oc_call. rewrite !monitor_set_max. set (c0 := set_max_iter _ c).
  rewrite !all_params_kind. cbn [monitoring monitor]. rewrite (kind_or s Hs), (kind_t t Ht).
  unfold combine. rewrite (check_l_ignored (monitor s c0) o HI), !check_t_monitor.
  destruct (check_t_frame c0 o) as [_ F]. unfold setup in F. injection F as F1 F2 F3 F4 F5 F6.
  exists (fst (check_t c0 o)). destruct (check_t c0 o) as [c1 [x|e]]; simpl in *; repeat split; exact F2.
Qed.

Lemma one_ignores_lambda s t c hs :
  In s L_OR_T -> In t JUST_T -> xle (tol_lambda c) (Fin 0) = true -> evals (monitor s c) hs = evals (monitor t c) hs.
Proof.
  intros Hs Ht. revert c. induction hs as [|[o it] hs IH]; intros c HI; [reflexivity|]. cbn [OptCond_Model.evals].
  destruct (call_one_ignored s t c o it Hs Ht HI) as [c1 [E1 [E2 E3]]].
  rewrite E1. destruct (oc_call (monitor t c) o it) as [c' x]; simpl in *. rewrite E2. f_equal. apply IH. rewrite E3. exact HI.
Qed.

Lemma call_one_ignored_t s t c o it :
  In s L_OR_T -> In t JUST_L -> xle (tol_theta c) (Fin 0) = true ->
  exists c1, oc_call (monitor s c) o it = (monitor s c1, snd (oc_call (monitor t c) o it)) /\
             fst (oc_call (monitor t c) o it) = monitor t c1 /\ tol_theta c1 = tol_theta c.
Proof.
  intros Hs Ht HI. unfold OptCond_Model.oc_call. rewrite !monitor_set_max. set (c0 := set_max_iter _ c).
  rewrite !all_params_kind. cbn [monitoring monitor]. rewrite (kind_or s Hs), (kind_l t Ht).
  unfold combine. rewrite !check_l_monitor.
  destruct (check_l_frame c0 o) as [_ F]. unfold setup in F. injection F as F1 F2 F3 F4 F5 F6.
  exists (fst (check_l c0 o)). destruct (check_l c0 o) as [c1 [x|e]]; simpl in *; [|repeat split; exact F1].
  assert (HI1 : xle (tol_theta (monitor s c1)) (Fin 0) = true) by (simpl; rewrite F1; exact HI).
  rewrite (check_t_ignored _ o HI1). simpl. rewrite orb_false_r. repeat split. exact F1.
Qed.

Lemma one_ignores_theta s t c hs :
  In s L_OR_T -> In t JUST_L -> xle (tol_theta c) (Fin 0) = true -> evals (monitor s c) hs = evals (monitor t c) hs.
Proof.
  intros Hs Ht. revert c. induction hs as [|[o it] hs IH]; intros c HI; [reflexivity|]. cbn [OptCond_Model.evals].
  destruct (call_one_ignored_t s t c o it Hs Ht HI) as [c1 [E1 [E2 E3]]].
  rewrite E1. destruct (oc_call (monitor t c) o it) as [c' x]; simpl in *. rewrite E2. f_equal. apply IH. rewrite E3. exact HI.
Qed.

(* ---- C31 ---- *)
Lemma xself x : xabs (xsub x x) = match x with Fin _ => Fin 0 | _ => NaN end.
Proof. destruct x as [r| | |]; simpl; try reflexivity. f_equal. replace (r + - r)%R with 0%R by ring. apply Rabs_R0. Qed.

Lemma param_lambda_ref c m hs r d :
  In (monitoring c) JUST_L -> metric c = "param"%string -> mode c = mode_name m -> xlt (Fin 0) (tol_lambda c) = true ->
  l_0 c = Some r -> delta_l_1 c = Some d -> l_mem c = Some r ->
  Forall (one_fit r) hs -> Forall in_budget hs ->
  evals c hs = map (fun h => Ok (passes m (tol_lambda c) d (match lam_now h with Fin _ => Fin 0 | _ => NaN end))) hs.
Proof.
  intros HM Hme Hmo Ht Hz Hd Hp HF HB. revert c HM Hme Hmo Ht Hz Hd Hp.
  induction HF as [|[o it] hs Hg HF IH]; intros; [reflexivity|].
  inversion HB as [|? ? Hb HB']; subst. unfold one_fit in Hg; simpl in Hg.
  cbn [OptCond_Model.evals]. rewrite call_just_l by exact HM. cbv zeta.
  set (c0 := set_max_iter (train_steps (o_niter o)) c).
  assert (E : check_l c0 o = (set_l (Some (o_lam o)) (l_0 c0) (l_grad_0 c0) (delta_l_1 c0) c0,
                              Ok (passes m (tol_lambda c) d (match lam_now (o, it) with Fin _ => Fin 0 | _ => NaN end)))).
  { unfold OptCond_Model.check_l. cbn [tol_lambda c0 set_max_iter metric l_0 delta_l_1 l_mem]. rewrite (xle_pos _ Ht), Hme. simpl.
    rewrite Hz, Hd, Hp. f_equal. rewrite <- Hg, xself. apply check_metric_passes; assumption. }
  rewrite E. pose proof (check_iter_false c o it Hb) as Hi. fold c0 in Hi. rewrite Hi. simpl. f_equal.
  apply (IH HB' (set_l (Some (o_lam o)) (l_0 c0) (l_grad_0 c0) (delta_l_1 c0) c0)); try assumption; simpl; congruence.
Qed.

Lemma param_lambda c m h1 h2 hs r :
  fresh c -> In (monitoring c) JUST_L -> metric c = "param"%string -> mode c = mode_name m -> xlt (Fin 0) (tol_lambda c) = true ->
  Forall (one_fit r) (h1 :: h2 :: hs) -> Forall in_budget (h1 :: h2 :: hs) ->
  evals c (h1 :: h2 :: hs) =
    Ok false :: Ok false ::
      map (fun h => Ok (match m with Rel => false | Abs => isfinite (lam_now h) end)) hs.
Proof.
  intros Hf HM Hme Hmo Ht HF HB. inversion HF as [|? ? Hg1 HF1]; subst. inversion HF1 as [|? ? Hg2 HF2]; subst.
  inversion HB as [|? ? Hb1 HB1]; subst. inversion HB1 as [|? ? Hb2 HB2]; subst.
  destruct Hf as (H1 & H2 & H3 & H4 & H5 & H6 & H7 & H8). destruct h1 as [o1 it1], h2 as [o2 it2].
  unfold one_fit in Hg1, Hg2; simpl in Hg1, Hg2.
  cbn [OptCond_Model.evals]. rewrite call_just_l by exact HM. cbv zeta.
  set (c0 := set_max_iter (train_steps (o_niter o1)) c).
  assert (E : check_l c0 o1 = (set_l (l_mem c0) (Some r) (l_grad_0 c0) (delta_l_1 c0) c0, Ok false)).
  { unfold OptCond_Model.check_l. cbn [tol_lambda c0 set_max_iter metric l_0 delta_l_1 l_mem]. rewrite (xle_pos _ Ht), Hme. simpl.
    rewrite H3, Hg1. reflexivity. }
  rewrite E. pose proof (check_iter_false c o1 it1 Hb1) as Hi. fold c0 in Hi. rewrite Hi. cbv beta iota. f_equal.
  set (c1 := set_l (l_mem c0) (Some r) (l_grad_0 c0) (delta_l_1 c0) c0).
  rewrite call_just_l by exact HM. cbv zeta. set (c2 := set_max_iter (train_steps (o_niter o2)) c1).
  set (d := match lam_now (o2, it2) with Fin _ => Fin 0 | _ => NaN end).
  assert (E2 : check_l c2 o2 = (set_l (Some r) (l_0 c2) (l_grad_0 c2) (Some d) c2, Ok false)).
  { unfold OptCond_Model.check_l. cbn [tol_lambda c2 c1 c0 set_max_iter set_l metric l_0 delta_l_1 l_mem]. rewrite (xle_pos _ Ht), Hme. simpl.
    rewrite H7. rewrite <- Hg2, xself. reflexivity. }
  rewrite E2. pose proof (check_iter_false c1 o2 it2 Hb2) as Hi2. fold c2 in Hi2. rewrite Hi2. cbv beta iota. f_equal.
  rewrite (param_lambda_ref (set_l (Some r) (l_0 c2) (l_grad_0 c2) (Some d) c2) m hs r d); try assumption; try reflexivity.
  apply map_ext. intros h. f_equal. unfold passes. simpl.
  assert (Hx : xlt (Fin 0) (xmul (tol_lambda c) d) = false /\ xlt NaN (xmul (tol_lambda c) d) = false).
  { split; [|reflexivity]. unfold d. destruct (lam_now (o2, it2)); destruct (tol_lambda c) as [t| | |]; try discriminate Ht; try reflexivity.
    - simpl. apply Rltb_false. lra.
    - simpl. unfold inf_times. assert (E0 : Reqb 0 0 = true) by (apply Reqb_true; reflexivity). rewrite E0. reflexivity. }
  destruct Hx as [X1 X2]. destruct m; destruct (lam_now h); simpl; try assumption; try reflexivity.
Qed.

(* ---- C32 ---- *)
Definition settings (c : oc) := (tol_theta c, tol_lambda c, monitoring c, mode c, metric c).
Lemma call_settings c o it : settings (fst (oc_call c o it)) = settings c.
Proof. pose proof (call_setup c o it) as H. unfold setup in H; simpl in H. injection H as K1 K2 K3 K4 K5 K6. unfold settings. congruence. Qed.
Lemma after_settings c hs : settings (oc_after c hs) = settings c.
Proof. revert c. induction hs as [|[o it] hs IH]; intros c; [reflexivity|]. cbn [OptCond_Model.oc_after]. rewrite IH. apply call_settings. Qed.

Lemma check_t_ref c o m : t_grad_0 c = Some m -> t_grad_0 (fst (check_t c o)) = Some m.
Proof.
  intros H. unfold OptCond_Model.check_t. rewrite H. repeat match goal with |- context [match ?x with _ => _ end] => destruct x end; first [exact H|reflexivity].
Qed.
Lemma tpart_grad c c' : t_part c = t_part c' -> t_grad_0 c = t_grad_0 c'.
Proof. unfold t_part. intros H. injection H. auto. Qed.
Lemma call_ref c o it m : t_grad_0 c = Some m -> t_grad_0 (fst (oc_call c o it)) = Some m.
Proof.
  intros H. rewrite call_fst, all_params_kind. set (c0 := set_max_iter _ c).
  assert (H0 : t_grad_0 c0 = Some m) by exact H.
  assert (Hc : forall f, t_grad_0 (fst (combine vnorm f c0 o)) = Some m).
  { intros f. unfold combine. destruct (check_l_frame c0 o) as [F _]. apply tpart_grad in F.
    destruct (check_l c0 o) as [c1 [a|e]]; simpl in *; [|congruence].
    assert (H1 : t_grad_0 c1 = Some m) by congruence. pose proof (check_t_ref c1 o m H1).
    destruct (check_t c1 o) as [c2 [b|e]]; simpl in *; assumption. }
  destruct (kind_of _); try apply Hc; [| |exact H0].
  - destruct (check_l_frame c0 o) as [F _]. apply tpart_grad in F. congruence.
  - apply check_t_ref, H0.
Qed.
Lemma after_ref c hs m : t_grad_0 c = Some m -> t_grad_0 (oc_after c hs) = Some m.
Proof. revert c. induction hs as [|[o it] hs IH]; intros c H; [exact H|]. cbn [OptCond_Model.oc_after]. apply IH, call_ref, H. Qed.

(* the reference of the first fit is still the reference of the second one *)
Lemma second_fit c m h1 hs1 g0 hs2 gs2 :
  fresh c -> In (monitoring c) JUST_T -> metric c = "grad"%string -> mode c = mode_name m -> xlt (Fin 0) (tol_theta c) = true ->
  shows_grad h1 g0 -> Forall2 shows_grad hs2 gs2 -> Forall in_budget hs2 ->
  evals (oc_after c (h1 :: hs1)) hs2 = map (fun g => Ok (passes m (tol_theta c) (vnorm g0) (vnorm g))) gs2.
Proof.
  intros Hf HM Hme Hmo Ht Hg HF HB. destruct h1 as [o it]. pose proof (after_settings c ((o, it) :: hs1)) as HS.
  unfold settings in HS. injection HS as K1 K2 K3 K4 K5. rewrite <- K1.
  apply grad_theta_ref; try assumption; [rewrite K3; exact HM|congruence|congruence|rewrite K1; exact Ht|].
  cbn [OptCond_Model.oc_after]. apply after_ref. rewrite call_just_t by exact HM. cbv zeta.
  unfold OptCond_Model.check_t. cbn [tol_theta set_max_iter metric t_grad_0].
  rewrite (xle_pos _ Ht), Hme. simpl. rewrite (flat_grad _ _ _ Hg).
  destruct Hf as (F1 & F2 & F3 & F4 & F5 & F6 & F7 & F8). rewrite F6. reflexivity.
Qed.

(* ---- the iteration limit ---- *)
Lemma limit_overwritten n c hs : evals (set_max_iter n c) hs = evals c hs.
Proof. destruct hs as [|[o it] hs]; reflexivity. Qed.

Lemma limit_beyond c o it b : (0 < train_steps (o_niter o) <= it)%Z -> snd (oc_call c o it) = Ok b -> b = true.
Proof.
  intros [H1 H2]. unfold OptCond_Model.oc_call, check_iter. simpl.
  destruct (Z.leb_spec (train_steps (o_niter o)) 0); [lia|]. destruct (Z.leb_spec (train_steps (o_niter o)) it); [|lia].
  destruct (check_all_params _ o) as [c1 [cp|e]]; simpl; intros E; [|discriminate]. injection E as <-. reflexivity.
Qed.
End C.

(* ---- concrete histories ---- *)
(* a loss at gradient g, with multiplier value l at reference r, parameter t *)
Definition shot (r : nat) (l g t : R) (n : Z) : obs :=
  {| o_mem := fun _ => Fin l; o_lam := r; o_lgrad := Some (Fin g); o_theta := [[Fin t]]; o_tgrad := [Some [Fin g]]; o_niter := SInt n |}.
(* a norm for the witnesses: the absolute value of the first coordinate *)
Definition abs1 (v : list xr) : xr := match v with x :: _ => xabs x | [] => Fin 0 end.
Local Open Scope R_scope.

Definition cond_ (tl : R) (mon mode metric : string) : oc :=
  {| tol_theta := Fin (/ 2); tol_lambda := Fin tl; monitoring := mon; mode := mode; metric := metric; max_iter := 0;
     l_mem := None; t_mem := None; l_0 := None; t_0 := None; l_grad_0 := None; t_grad_0 := None; delta_l_1 := None; delta_t_1 := None |}.

Lemma cond_fresh tl mon mo me : fresh (cond_ tl mon mo me).
Proof. repeat split. Qed.
Lemma cond_built tl mon mo me : oc_init (OrdInt 2) (Fin (/ 2)) (Fin tl) None mon mo me = Ok (cond_ tl mon mo me).
Proof. reflexivity. Qed.

Lemma ignored_witness :
  exists c hs, fresh c /\ xle (tol_lambda c) (Fin 0) = true /\ Forall in_budget hs /\
    In (Ok true) (evals abs1 (monitor "theta" c) hs) /\ ~ In (Ok true) (evals abs1 (monitor "both" c) hs).
Proof.
  set (hs := [(shot 0 1 4 0 10, 0%Z); (shot 0 1 1 0 10, 1%Z)]).
  assert (HB : Forall in_budget hs) by (repeat constructor; unfold in_budget; simpl; lia).
  assert (Hz : xle (Fin 0) (Fin 0) = true).
  { unfold xle; simpl. assert (E : Reqb 0 0 = true) by (apply Reqb_true; reflexivity). rewrite E. apply orb_true_r. }
  exists (cond_ 0 "theta" "rel" "grad"), hs. split; [apply cond_fresh|]. split; [exact Hz|]. split; [exact HB|]. split.
  - unfold hs. rewrite (grad_theta abs1 (monitor "theta" (cond_ 0 "theta" "rel" "grad")) Rel) with (g0 := [Fin 4]) (gs := [[Fin 1]]);
      try reflexivity; try exact HB.
    + right. left. f_equal. simpl. apply Rltb_true. rewrite !Rabs_right by lra. lra.
    + apply cond_fresh.
    + left; reflexivity.
    + simpl. apply Rltb_true. lra.
    + repeat constructor; [exists [[Fin 4]]|exists [[Fin 1]]]; repeat split; discriminate.
  - apply both_never_stops; [left; reflexivity|left; exact Hz|exact HB].
Qed.

Lemma alias_abs_witness :
  exists c hs l1 l2 l3, fresh c /\ Forall in_budget hs /\ map lam_now hs = [Fin l1; Fin l2; Fin l3] /\
    tol_lambda c = Fin (/ 2) /\ / 2 < Rabs (l3 - l2) /\ / 2 < Rabs (l2 - l1) /\
    nth_error (evals abs1 c hs) 2 = Some (Ok true).
Proof.
  set (hs := [(shot 0 1 0 0 10, 0%Z); (shot 0 10 0 0 10, 1%Z); (shot 0 100 0 0 10, 2%Z)]).
  assert (HB : Forall in_budget hs) by (repeat constructor; unfold in_budget; simpl; lia).
  exists (cond_ (/ 2) "lambda" "abs" "param"), hs, 1, 10, 100. split; [apply cond_fresh|]. split; [exact HB|]. split; [reflexivity|].
  split; [reflexivity|]. split; [rewrite Rabs_right by lra; lra|]. split; [rewrite Rabs_right by lra; lra|].
  unfold hs. rewrite (param_lambda abs1 (cond_ (/ 2) "lambda" "abs" "param") Abs) with (r := 0%nat); try reflexivity; try exact HB.
  - apply cond_fresh.
  - left; reflexivity.
  - simpl. apply Rltb_true. lra.
  - repeat constructor.
Qed.

Lemma alias_rel_witness :
  exists c hs l1 l2 l3, fresh c /\ Forall in_budget hs /\ map lam_now hs = [Fin l1; Fin l2; Fin l3] /\
    tol_lambda c = Fin (/ 2) /\ Rabs (l3 - l2) < / 2 * Rabs (l2 - l1) /\
    nth_error (evals abs1 c hs) 2 = Some (Ok false).
Proof.
  set (hs := [(shot 0 1 0 0 10, 0%Z); (shot 0 10 0 0 10, 1%Z); (shot 0 10 0 0 10, 2%Z)]).
  assert (HB : Forall in_budget hs) by (repeat constructor; unfold in_budget; simpl; lia).
  exists (cond_ (/ 2) "lambda" "rel" "param"), hs, 1, 10, 10. split; [apply cond_fresh|]. split; [exact HB|]. split; [reflexivity|].
  split; [reflexivity|]. split. { replace (10 - 10) with 0 by ring. rewrite Rabs_R0, Rabs_right by lra. lra. }
  unfold hs. rewrite (param_lambda abs1 (cond_ (/ 2) "lambda" "rel" "param") Rel) with (r := 0%nat); try reflexivity; try exact HB.
  - apply cond_fresh.
  - left; reflexivity.
  - simpl. apply Rltb_true. lra.
  - repeat constructor.
Qed.

Lemma reuse_witness :
  exists c hs1 hs2, fresh c /\ Forall in_budget hs1 /\ Forall in_budget hs2 /\
    nth_error (evals abs1 (oc_after abs1 c hs1) hs2) 0 = Some (Ok true) /\
    ~ In (Ok true) (evals abs1 c hs2).
Proof.
  set (hs1 := [(shot 0 1 100 0 10, 0%Z)]). set (hs2 := [(shot 1 1 1 0 10, 0%Z); (shot 1 1 1 0 10, 1%Z)]).
  assert (HB1 : Forall in_budget hs1) by (repeat constructor; unfold in_budget; simpl; lia).
  assert (HB2 : Forall in_budget hs2) by (repeat constructor; unfold in_budget; simpl; lia).
  assert (HF : Forall2 shows_grad hs2 [[Fin 1]; [Fin 1]]) by (repeat constructor; exists [[Fin 1]]; repeat split; discriminate).
  assert (Hp : xlt (Fin 0) (Fin (/ 2)) = true) by (simpl; apply Rltb_true; lra).
  exists (cond_ 0 "theta" "rel" "grad"), hs1, hs2. split; [apply cond_fresh|]. split; [exact HB1|]. split; [exact HB2|]. split.
  - unfold hs1. rewrite (second_fit abs1 (cond_ 0 "theta" "rel" "grad") Rel) with (g0 := [Fin 100]) (gs2 := [[Fin 1]; [Fin 1]]);
      try reflexivity; try assumption.
    + simpl. do 2 f_equal. apply Rltb_true. rewrite !Rabs_right by lra. lra.
    + apply cond_fresh.
    + left; reflexivity.
    + exists [[Fin 100]]. repeat split; discriminate.
  - unfold hs2. rewrite (grad_theta abs1 (cond_ 0 "theta" "rel" "grad") Rel) with (g0 := [Fin 1]) (gs := [[Fin 1]]);
      try reflexivity; try assumption.
    + intros [H|[H|[]]]; [discriminate|]. injection H as H. simpl in H. apply Rltb_true in H. rewrite !Rabs_right in H by lra. lra.
    + apply cond_fresh.
    + left; reflexivity.
Qed.

Lemma limit_witness :
  exists c o it, oc_init (OrdInt 2) (Fin 1) (Fin 1) (Some 1%Z) "theta" "rel" "grad" = Ok c /\ max_iter c = 1%Z /\ (1 <= it)%Z /\
    snd (oc_call abs1 c o it) = Ok false.
Proof.
  eexists. exists (shot 0 1 1 0 10), 5%Z. split; [reflexivity|]. split; [reflexivity|]. split; [lia|].
  unfold oc_call, check_all_params, check_t; simpl. unfold xle; simpl.
  assert (E1 : Rltb 1 0 = false) by (apply Rltb_false; lra). assert (E2 : Reqb 1 0 = false) by (apply Reqb_false; lra).
  rewrite E1, E2. reflexivity.
Qed.

Lemma same_names vnorm names s s' c hs :
  In names [L_AND_T; L_OR_T; JUST_L; JUST_T] -> In s names -> In s' names ->
  evals vnorm (monitor s c) hs = evals vnorm (monitor s' c) hs.
Proof.
  intros Hn Hs Hs'. apply synonyms. destruct Hn as [<-|[<-|[<-|[<-|[]]]]].
  - rewrite (kind_and s Hs), (kind_and s' Hs'). reflexivity.
  - rewrite (kind_or s Hs), (kind_or s' Hs'). reflexivity.
  - rewrite (kind_l s Hs), (kind_l s' Hs'). reflexivity.
  - rewrite (kind_t s Hs), (kind_t s' Hs'). reflexivity.
Qed.
