(* Properties C27-C32 and C66: the stopping condition OptCondTorch. The vector norm is arbitrary; values may be NaN or infinite. *)
From Coq Require Import Reals List String ZArith Lra Lia.
From Verif Require Import PyBase XReal OptCond_Model OptCond_Spec OptCond_Proofs.
Import ListNotations.

(* C27. From a fresh condition, within the iteration budget: no stop at the first evaluation, whatever is observed ... *)
Theorem C27_first_evaluation :
  forall vnorm c h hs, fresh c -> in_budget h -> nth_error (evals vnorm c (h :: hs)) 0 <> Some (Ok true).
Proof. exact first_evaluation. Qed.
Print Assumptions C27_first_evaluation.

(* ... and none at the second one with the parameter metric *)
Theorem C27_second_evaluation :
  forall vnorm c h h' hs,
    fresh c -> metric c = "param"%string -> in_budget h' -> nth_error (evals vnorm c (h :: h' :: hs)) 1 <> Some (Ok true).
Proof. exact second_evaluation. Qed.
Print Assumptions C27_second_evaluation.

Example C27_case :
  exists c, oc_init (OrdStr "inf") (Fin 1) (Fin 1) None "both" "abs" "param" = Ok c /\ fresh c /\
    in_budget (shot 0 1 0 0 10, 0%Z) /\ metric c = "param"%string.
Proof. eexists. split; [reflexivity|]. split; [repeat split|]. split; [unfold in_budget; simpl; lia|reflexivity]. Qed.

(* C28. All answers of a condition, for each metric: the reference is the first recorded one, for ever. *)
Theorem C28_theta_gradient :
  forall vnorm c m h hs g0 gs,
    fresh c -> In (monitoring c) JUST_T -> metric c = "grad"%string -> mode c = mode_name m ->
    xlt (Fin 0) (tol_theta c) = true ->
    Forall2 shows_grad (h :: hs) (g0 :: gs) -> Forall in_budget (h :: hs) ->
    evals vnorm c (h :: hs) = Ok false :: map (fun g => Ok (passes m (tol_theta c) (vnorm g0) (vnorm g))) gs.
Proof. exact grad_theta. Qed.
Print Assumptions C28_theta_gradient.

Theorem C28_theta_parameter :
  forall vnorm c m h1 h2 hs t0 t1 ts n,
    fresh c -> In (monitoring c) JUST_T -> metric c = "param"%string -> mode c = mode_name m ->
    xlt (Fin 0) (tol_theta c) = true -> Forall (fun t => List.length t = n) (t0 :: t1 :: ts) ->
    Forall2 shows_param (h1 :: h2 :: hs) (t0 :: t1 :: ts) -> Forall in_budget (h1 :: h2 :: hs) ->
    evals vnorm c (h1 :: h2 :: hs) =
      Ok false :: Ok false ::
        map (fun x => Ok (passes m (tol_theta c) (vnorm (map2x xsub t1 t0)) x)) (changes vnorm t1 ts).
Proof. exact param_theta. Qed.
Print Assumptions C28_theta_parameter.

Theorem C28_lambda_gradient :
  forall vnorm c m h hs g0 gs,
    fresh c -> In (monitoring c) JUST_L -> metric c = "grad"%string -> mode c = mode_name m ->
    xlt (Fin 0) (tol_lambda c) = true ->
    Forall2 shows_lgrad (h :: hs) (g0 :: gs) -> Forall in_budget (h :: hs) ->
    evals vnorm c (h :: hs) = Ok false :: map (fun g => Ok (passes m (tol_lambda c) (xabs g0) (xabs g))) gs.
Proof. exact grad_lambda. Qed.
Print Assumptions C28_lambda_gradient.

Example C28_case :
  exists c hs, fresh c /\ In (monitoring c) JUST_T /\ metric c = "grad"%string /\ mode c = mode_name Rel /\
    xlt (Fin 0) (tol_theta c) = true /\ Forall2 shows_grad hs [[Fin 4]; [Fin 3]; [Fin 1]] /\ Forall in_budget hs /\
    Forall2 shows_param hs [[Fin 0]; [Fin 5]; [Fin 6]] /\ Forall2 shows_lgrad hs [Fin 4; Fin 3; Fin 1].
Proof.
  exists (cond_ 1 "theta" "rel" "grad"), [(shot 0 1 4 0 10, 0%Z); (shot 0 1 3 5 10, 1%Z); (shot 0 1 1 6 10, 2%Z)].
  split; [apply cond_fresh|]. split; [left; reflexivity|]. split; [reflexivity|]. split; [reflexivity|].
  split; [simpl; apply Rltb_true; lra|]. split; [repeat constructor; eexists [_]; repeat split; discriminate|].
  split; [repeat constructor; unfold in_budget; simpl; lia|]. split; [repeat constructor; try discriminate|repeat constructor].
Qed.

(* C29. On every history on which the one-sided conditions answer, the combined ones answer by 'and' and by 'or'. *)
Theorem C29_both :
  forall vnorm s t l c hs bt bl,
    In s L_AND_T -> In t JUST_T -> In l JUST_L ->
    evals vnorm (monitor t c) hs = map (@Ok bool) bt -> evals vnorm (monitor l c) hs = map (@Ok bool) bl ->
    evals vnorm (monitor s c) hs = map (@Ok bool) (map (fun p => fst p && snd p)%bool (List.combine bl bt)).
Proof. exact both_history. Qed.
Print Assumptions C29_both.

Theorem C29_one :
  forall vnorm s t l c hs bt bl,
    In s L_OR_T -> In t JUST_T -> In l JUST_L ->
    evals vnorm (monitor t c) hs = map (@Ok bool) bt -> evals vnorm (monitor l c) hs = map (@Ok bool) bl ->
    evals vnorm (monitor s c) hs = map (@Ok bool) (map (fun p => fst p || snd p)%bool (List.combine bl bt)).
Proof. exact one_history. Qed.
Print Assumptions C29_one.

Theorem C29_synonyms :
  forall vnorm names s s' c hs,
    In names [L_AND_T; L_OR_T; JUST_L; JUST_T] -> In s names -> In s' names ->
    evals vnorm (monitor s c) hs = evals vnorm (monitor s' c) hs.
Proof. exact same_names. Qed.
Print Assumptions C29_synonyms.

Theorem C29_unknown_name :
  forall vnorm c o it,
    ~ In (monitoring c) (L_AND_T ++ L_OR_T ++ JUST_L ++ JUST_T) -> snd (oc_call vnorm c o it) = Raise ValueError.
Proof. exact unknown_name. Qed.
Print Assumptions C29_unknown_name.

Example C29_case :
  exists hs bt bl, evals abs1 (monitor "t" (cond_ 1 "" "rel" "grad")) hs = map (@Ok bool) bt /\
    evals abs1 (monitor "l" (cond_ 1 "" "rel" "grad")) hs = map (@Ok bool) bl /\ In true bl /\ In false bt.
Proof.
  set (hs := [(shot 0 1 4 0 10, 0%Z); (shot 0 1 3 5 10, 1%Z)]).
  assert (HB : Forall in_budget hs) by (repeat constructor; unfold in_budget; simpl; lia).
  exists hs. do 2 eexists. split.
  { unfold hs. rewrite (grad_theta abs1 (monitor "t" (cond_ 1 "" "rel" "grad")) Rel) with (g0 := [Fin 4]) (gs := [[Fin 3]]);
      [|apply cond_fresh|right; left; reflexivity|reflexivity|reflexivity|simpl; apply Rltb_true; lra
       |repeat constructor; eexists [_]; repeat split; discriminate|exact HB].
    instantiate (1 := [false; false]). simpl. repeat f_equal. apply Rltb_false. rewrite !Rabs_right by lra. lra. }
  split.
  { unfold hs. rewrite (grad_lambda abs1 (monitor "l" (cond_ 1 "" "rel" "grad")) Rel) with (g0 := Fin 4) (gs := [Fin 3]);
      [|apply cond_fresh|right; left; reflexivity|reflexivity|reflexivity|simpl; apply Rltb_true; lra|repeat constructor|exact HB].
    instantiate (1 := [false; true]). simpl. repeat f_equal. apply Rltb_true. rewrite !Rabs_right by lra. lra. }
  split; simpl; auto.
Qed.

(* C30. 'one' does ignore a side with a non-positive tolerance ... *)
Theorem C30_one_ignores_lambda :
  forall vnorm s t c hs,
    In s L_OR_T -> In t JUST_T -> xle (tol_lambda c) (Fin 0) = true ->
    evals vnorm (monitor s c) hs = evals vnorm (monitor t c) hs.
Proof. exact one_ignores_lambda. Qed.
Print Assumptions C30_one_ignores_lambda.

Theorem C30_one_ignores_theta :
  forall vnorm s t c hs,
    In s L_OR_T -> In t JUST_L -> xle (tol_theta c) (Fin 0) = true ->
    evals vnorm (monitor s c) hs = evals vnorm (monitor t c) hs.
Proof. exact one_ignores_theta. Qed.
Print Assumptions C30_one_ignores_theta.

(* ... but 'both' never stops at all as soon as one tolerance is non-positive *)
Theorem C30_both_never_stops :
  forall vnorm c hs,
    In (monitoring c) L_AND_T -> (xle (tol_lambda c) (Fin 0) = true \/ xle (tol_theta c) (Fin 0) = true) ->
    Forall in_budget hs -> ~ In (Ok true) (evals vnorm c hs).
Proof. exact both_never_stops. Qed.
Print Assumptions C30_both_never_stops.

Theorem C30_both_refuted :
  exists c hs, fresh c /\ xle (tol_lambda c) (Fin 0) = true /\ Forall in_budget hs /\
    In (Ok true) (evals abs1 (monitor "theta" c) hs) /\ ~ In (Ok true) (evals abs1 (monitor "both" c) hs).
Proof. exact ignored_witness. Qed.
Print Assumptions C30_both_refuted.

Example C30_case : xle (tol_lambda (cond_ (-1) "one" "rel" "grad")) (Fin 0) = true.
Proof. simpl. unfold xle; simpl. assert (E : Rltb (-1) 0 = true) by (apply Rltb_true; lra). rewrite E. reflexivity. Qed.

(* C31. What is compared for lambda with the parameter metric, on any history of one fit: the parameter with itself. In relative
   mode the condition never stops, in absolute mode it stops at the third evaluation if lambda is finite. *)
Theorem C31_lambda_parameter :
  forall vnorm c m h1 h2 hs r,
    fresh c -> In (monitoring c) JUST_L -> metric c = "param"%string -> mode c = mode_name m ->
    xlt (Fin 0) (tol_lambda c) = true -> Forall (one_fit r) (h1 :: h2 :: hs) -> Forall in_budget (h1 :: h2 :: hs) ->
    evals vnorm c (h1 :: h2 :: hs) =
      Ok false :: Ok false ::
        map (fun h => Ok (match m with Rel => false | Abs => isfinite (lam_now h) end)) hs.
Proof. exact param_lambda. Qed.
Print Assumptions C31_lambda_parameter.

Theorem C31_absolute_refuted :
  exists c hs l1 l2 l3, fresh c /\ Forall in_budget hs /\ map lam_now hs = [Fin l1; Fin l2; Fin l3] /\
    tol_lambda c = Fin (/ 2) /\ (/ 2 < Rabs (l3 - l2))%R /\ (/ 2 < Rabs (l2 - l1))%R /\
    nth_error (evals abs1 c hs) 2 = Some (Ok true).
Proof. exact alias_abs_witness. Qed.
Print Assumptions C31_absolute_refuted.

Theorem C31_relative_refuted :
  exists c hs l1 l2 l3, fresh c /\ Forall in_budget hs /\ map lam_now hs = [Fin l1; Fin l2; Fin l3] /\
    tol_lambda c = Fin (/ 2) /\ (Rabs (l3 - l2) < / 2 * Rabs (l2 - l1))%R /\
    nth_error (evals abs1 c hs) 2 = Some (Ok false).
Proof. exact alias_rel_witness. Qed.
Print Assumptions C31_relative_refuted.

Example C31_case :
  Forall (one_fit 0) [(shot 0 1 0 0 10, 0%Z); (shot 0 10 0 0 10, 1%Z); (shot 0 100 0 0 10, 2%Z)] /\
  Forall in_budget [(shot 0 1 0 0 10, 0%Z); (shot 0 10 0 0 10, 1%Z); (shot 0 100 0 0 10, 2%Z)].
Proof. split; repeat constructor; unfold in_budget; simpl; lia. Qed.

(* C32. In a second fit the reference is still the first gradient of the first fit. *)
Theorem C32_second_fit :
  forall vnorm c m h1 hs1 g0 hs2 gs2,
    fresh c -> In (monitoring c) JUST_T -> metric c = "grad"%string -> mode c = mode_name m ->
    xlt (Fin 0) (tol_theta c) = true ->
    shows_grad h1 g0 -> Forall2 shows_grad hs2 gs2 -> Forall in_budget hs2 ->
    evals vnorm (oc_after vnorm c (h1 :: hs1)) hs2 = map (fun g => Ok (passes m (tol_theta c) (vnorm g0) (vnorm g))) gs2.
Proof. exact second_fit. Qed.
Print Assumptions C32_second_fit.

Theorem C32_reuse_refuted :
  exists c hs1 hs2, fresh c /\ Forall in_budget hs1 /\ Forall in_budget hs2 /\
    nth_error (evals abs1 (oc_after abs1 c hs1) hs2) 0 = Some (Ok true) /\
    ~ In (Ok true) (evals abs1 c hs2).
Proof. exact reuse_witness. Qed.
Print Assumptions C32_reuse_refuted.

(* With the parameter metric, a condition that has watched two parameter vectors of one size (a first fit) and is then shown a
   vector of another size (the next fit, on data with another number of features): if both have at least two entries the call
   raises RuntimeError; if the stored vector or the new one has a single entry, it is broadcast, nothing is raised, and the
   verdict compares the norm of that meaningless difference with the step of the first fit. *)
Theorem C32_reuse_other_size :
  forall vnorm c m h1 h2 h3 t0 t1 t2,
    fresh c -> In (monitoring c) JUST_T -> metric c = "param"%string -> mode c = mode_name m -> xlt (Fin 0) (tol_theta c) = true ->
    List.length t0 = List.length t1 -> shows_param h1 t0 -> shows_param h2 t1 -> shows_param h3 t2 ->
    in_budget h1 -> in_budget h2 -> in_budget h3 -> List.length t2 <> List.length t1 ->
    ((1 < List.length t1)%nat -> (1 < List.length t2)%nat -> evals vnorm c [h1; h2; h3] = [Ok false; Ok false; Raise RuntimeError]) /\
    (forall x, t1 = [x] -> evals vnorm c [h1; h2; h3] =
       [Ok false; Ok false; Ok (passes m (tol_theta c) (vnorm (map2x xsub t1 t0)) (vnorm (map (fun y => xsub y x) t2)))]) /\
    (forall x, t2 = [x] -> evals vnorm c [h1; h2; h3] =
       [Ok false; Ok false; Ok (passes m (tol_theta c) (vnorm (map2x xsub t1 t0)) (vnorm (map (fun y => xsub x y) t1)))]).
Proof.
  intros vnorm c m h1 h2 h3 t0 t1 t2 Hf HM Hme Hmo Ht Hl Hg1 Hg2 Hg3 Hb1 Hb2 Hb3 Hn.
  rewrite (param_third vnorm c m h1 h2 h3 t0 t1 t2) by assumption. split; [|split].
  - intros A B. rewrite tsub_sizes by assumption. reflexivity.
  - intros x ->. rewrite tsub_one_r by exact Hn. reflexivity.
  - intros x ->. rewrite tsub_one_l by (intros E; apply Hn; rewrite E; reflexivity). reflexivity.
Qed.
Print Assumptions C32_reuse_other_size.

Definition shot2 (t : list R) : obs :=
  {| o_mem := fun _ => Fin 0; o_lam := 0%nat; o_lgrad := None; o_theta := [map Fin t]; o_tgrad := []; o_niter := SInt 10 |}.
Example C32_other_size_case :
  fresh (cond_ 0%R "theta" "rel" "param") /\ xlt (Fin 0%R) (tol_theta (cond_ 0%R "theta" "rel" "param")) = true /\
  shows_param (shot2 [1; 2]%R, 0%Z) (map Fin [1; 2]%R) /\ shows_param (shot2 [1; 3]%R, 1%Z) (map Fin [1; 3]%R) /\
  shows_param (shot2 [1; 2; 3]%R, 0%Z) (map Fin [1; 2; 3]%R) /\ in_budget (shot2 [1; 2; 3]%R, 0%Z) /\
  shows_param (shot2 [7]%R, 0%Z) (map Fin [7]%R) /\ in_budget (shot2 [7]%R, 0%Z).
Proof.
  split; [apply cond_fresh|]. split; [unfold xlt; simpl; apply Rltb_true; lra|].
  unfold shows_param, in_budget; repeat split; simpl; try discriminate; lia.
Qed.

(* C66. The max_iter of the constructor has no effect: it is overwritten at each call by the n_iter of the loss. *)
Theorem C66_max_iter_ignored :
  forall vnorm n c hs, evals vnorm (set_max_iter n c) hs = evals vnorm c hs.
Proof. exact limit_overwritten. Qed.
Print Assumptions C66_max_iter_ignored.

Theorem C66_budget_stops :
  forall vnorm c o it b,
    (0 < train_steps (o_niter o) <= it)%Z -> snd (oc_call vnorm c o it) = Ok b -> b = true.
Proof. exact limit_beyond. Qed.
Print Assumptions C66_budget_stops.

Theorem C66_max_iter_refuted :
  exists c o it, oc_init (OrdInt 2) (Fin 1) (Fin 1) (Some 1%Z) "theta" "rel" "grad" = Ok c /\ max_iter c = 1%Z /\ (1 <= it)%Z /\
    snd (oc_call abs1 c o it) = Ok false.
Proof. exact limit_witness. Qed.
Print Assumptions C66_max_iter_refuted.

(* ---------- concrete cases of the theorems above, one each ---------- *)
(* three evaluations, with gradients 4, 3, 1, parameters 0, 5, 6 and multipliers 1, 10, 100, within a budget of 10 *)
Definition h_1 : obs * Z := (shot 0 1%R 4%R 0%R 10, 0%Z).
Definition h_2 : obs * Z := (shot 0 10%R 3%R 5%R 10, 1%Z).
Definition h_3 : obs * Z := (shot 0 100%R 1%R 6%R 10, 2%Z).
Ltac budget := repeat constructor; unfold in_budget; simpl; lia.
Ltac shows := repeat constructor; try discriminate; eexists [_]; repeat split; discriminate.
Example C27_first_evaluation_case : nth_error (evals abs1 (cond_ 1%R "both" "rel" "grad") [h_1; h_2]) 0 <> Some (Ok true).
Proof. apply C27_first_evaluation; [apply cond_fresh|budget]. Qed.
Example C27_second_evaluation_case : nth_error (evals abs1 (cond_ 1%R "one" "abs" "param") [h_1; h_2; h_3]) 1 <> Some (Ok true).
Proof. apply C27_second_evaluation; [apply cond_fresh|reflexivity|budget]. Qed.
(* tolerance 1/2 and first gradient 4: 3 does not pass, 1 does *)
Example C28_theta_gradient_case : evals abs1 (cond_ 1%R "theta" "rel" "grad") [h_1; h_2; h_3] = [Ok false; Ok false; Ok true].
Proof.
  rewrite (C28_theta_gradient abs1 (cond_ 1%R "theta" "rel" "grad") Rel) with (g0 := [Fin 4%R]) (gs := [[Fin 3%R]; [Fin 1%R]]);
    [|apply cond_fresh|left; reflexivity|reflexivity|reflexivity|simpl; apply Rltb_true; lra|shows|budget].
  simpl. rewrite !Rabs_right by lra. repeat f_equal; [apply Rltb_false; lra|apply Rltb_true; lra].
Qed.
(* the steps are 5 and 1 *)
Example C28_theta_parameter_case : evals abs1 (cond_ 1%R "theta" "rel" "param") [h_1; h_2; h_3] = [Ok false; Ok false; Ok true].
Proof.
  rewrite (C28_theta_parameter abs1 (cond_ 1%R "theta" "rel" "param") Rel) with (t0 := [Fin 0%R]) (t1 := [Fin 5%R]) (ts := [[Fin 6%R]]) (n := 1%nat);
    [|apply cond_fresh|left; reflexivity|reflexivity|reflexivity|simpl; apply Rltb_true; lra|repeat constructor|repeat constructor; discriminate|budget].
  simpl. rewrite !Rabs_right by lra. repeat f_equal. apply Rltb_true. lra.
Qed.
Example C28_lambda_gradient_case : evals abs1 (cond_ 2%R "lambda" "abs" "grad") [h_1; h_2; h_3] = [Ok false; Ok false; Ok true].
Proof.
  rewrite (C28_lambda_gradient abs1 (cond_ 2%R "lambda" "abs" "grad") Abs) with (g0 := Fin 4%R) (gs := [Fin 3%R; Fin 1%R]);
    [|apply cond_fresh|left; reflexivity|reflexivity|reflexivity|simpl; apply Rltb_true; lra|repeat constructor|budget].
  simpl. rewrite !Rabs_right by lra. repeat f_equal; [apply Rltb_false; lra|apply Rltb_true; lra].
Qed.
(* lambda's tolerance is 1, so it passes at the second evaluation; theta's is 1/2, so it passes at the third *)
Lemma sides : evals abs1 (monitor "t" (cond_ 1%R "" "rel" "grad")) [h_1; h_2; h_3] = map (@Ok bool) [false; false; true] /\
  evals abs1 (monitor "l" (cond_ 1%R "" "rel" "grad")) [h_1; h_2; h_3] = map (@Ok bool) [false; true; true].
Proof.
  split.
  - rewrite (C28_theta_gradient abs1 (monitor "t" (cond_ 1%R "" "rel" "grad")) Rel) with (g0 := [Fin 4%R]) (gs := [[Fin 3%R]; [Fin 1%R]]);
      [|apply cond_fresh|right; left; reflexivity|reflexivity|reflexivity|simpl; apply Rltb_true; lra|shows|budget].
    simpl. rewrite !Rabs_right by lra. repeat f_equal; [apply Rltb_false; lra|apply Rltb_true; lra].
  - rewrite (C28_lambda_gradient abs1 (monitor "l" (cond_ 1%R "" "rel" "grad")) Rel) with (g0 := Fin 4%R) (gs := [Fin 3%R; Fin 1%R]);
      [|apply cond_fresh|right; left; reflexivity|reflexivity|reflexivity|simpl; apply Rltb_true; lra|repeat constructor|budget].
    simpl. rewrite !Rabs_right by lra. repeat f_equal; apply Rltb_true; lra.
Qed.
Example C29_both_case : evals abs1 (monitor "t&l" (cond_ 1%R "" "rel" "grad")) [h_1; h_2; h_3] = [Ok false; Ok false; Ok true].
Proof. destruct sides as [A B]. refine (C29_both abs1 _ "t" "l" _ _ _ _ _ _ _ A B); simpl; tauto. Qed.
Example C29_one_case : evals abs1 (monitor "tUl" (cond_ 1%R "" "rel" "grad")) [h_1; h_2; h_3] = [Ok false; Ok true; Ok true].
Proof. destruct sides as [A B]. refine (C29_one abs1 _ "t" "l" _ _ _ _ _ _ _ A B); simpl; tauto. Qed.
Example C29_synonyms_case : evals abs1 (monitor "lambda_and_theta" (cond_ 1%R "" "rel" "grad")) [h_1; h_2; h_3] = evals abs1 (monitor "both" (cond_ 1%R "" "rel" "grad")) [h_1; h_2; h_3].
Proof. apply (C29_synonyms abs1 L_AND_T); simpl; tauto. Qed.
Example C29_unknown_name_case : snd (oc_call abs1 (cond_ 1%R "Both" "rel" "grad") (fst h_1) 0) = Raise ValueError.
Proof. apply C29_unknown_name. simpl. intuition discriminate. Qed.
Lemma negative_tolerance m : xle (tol_lambda (cond_ (-1)%R m "rel" "grad")) (Fin 0%R) = true.
Proof. exact C30_case. Qed.
Example C30_one_ignores_lambda_case : evals abs1 (monitor "one" (cond_ (-1)%R "" "rel" "grad")) [h_1; h_2; h_3] = evals abs1 (monitor "theta" (cond_ (-1)%R "" "rel" "grad")) [h_1; h_2; h_3].
Proof. apply C30_one_ignores_lambda; [left; reflexivity|left; reflexivity|apply negative_tolerance]. Qed.
Definition cond_theta0 : oc := {| tol_theta := Fin 0%R; tol_lambda := Fin 1%R; monitoring := "one"; mode := "rel"; metric := "grad"; max_iter := 0;
  l_mem := None; t_mem := None; l_0 := None; t_0 := None; l_grad_0 := None; t_grad_0 := None; delta_l_1 := None; delta_t_1 := None |}.
Example C30_one_ignores_theta_case : evals abs1 (monitor "one" cond_theta0) [h_1; h_2; h_3] = evals abs1 (monitor "lambda" cond_theta0) [h_1; h_2; h_3].
Proof. apply C30_one_ignores_theta; [left; reflexivity|left; reflexivity|]. simpl. unfold xle; simpl. assert (E : Rltb 0 0 = false) by (apply Rltb_false; lra). rewrite E. apply Reqb_true. reflexivity. Qed.
Example C30_both_never_stops_case : ~ In (Ok true) (evals abs1 (cond_ (-1)%R "both" "rel" "grad") [h_1; h_2; h_3]).
Proof. apply C30_both_never_stops; [left; reflexivity|left; apply negative_tolerance|budget]. Qed.
Example C31_lambda_parameter_case : evals abs1 (cond_ 1%R "lambda" "abs" "param") [h_1; h_2; h_3] = [Ok false; Ok false; Ok true] /\
  evals abs1 (cond_ 1%R "lambda" "rel" "param") [h_1; h_2; h_3] = [Ok false; Ok false; Ok false].
Proof.
  split; [rewrite (C31_lambda_parameter abs1 (cond_ 1%R "lambda" "abs" "param") Abs) with (r := 0%nat)|rewrite (C31_lambda_parameter abs1 (cond_ 1%R "lambda" "rel" "param") Rel) with (r := 0%nat)];
  try reflexivity; try apply cond_fresh; try (left; reflexivity); try (simpl; apply Rltb_true; lra); try budget; repeat constructor.
Qed.
(* the second fit starts with gradient 1, which passes against the 4 of the first fit *)
Example C32_second_fit_case : evals abs1 (oc_after abs1 (cond_ 1%R "theta" "rel" "grad") [h_1; h_2]) [h_3] = [Ok true].
Proof.
  rewrite (C32_second_fit abs1 (cond_ 1%R "theta" "rel" "grad") Rel) with (g0 := [Fin 4%R]) (gs2 := [[Fin 1%R]]);
    [|apply cond_fresh|left; reflexivity|reflexivity|reflexivity|simpl; apply Rltb_true; lra|eexists [_]; repeat split; discriminate|shows|budget].
  simpl. rewrite !Rabs_right by lra. repeat f_equal. apply Rltb_true. lra.
Qed.
Example C32_reuse_other_size_case : evals abs1 (cond_ 0%R "theta" "rel" "param") [(shot2 [1; 2]%R, 0%Z); (shot2 [1; 3]%R, 1%Z); (shot2 [1; 2; 3]%R, 0%Z)] = [Ok false; Ok false; Raise RuntimeError].
Proof.
  destruct C32_other_size_case as (A & B & C & D & E & F & _ & _).
  refine (proj1 (C32_reuse_other_size abs1 (cond_ 0%R "theta" "rel" "param") Rel _ _ _ _ _ _ A (or_introl eq_refl) eq_refl eq_refl B _ C D E _ _ F _) _ _); try reflexivity; try discriminate; simpl; try lia; unfold in_budget; simpl; lia.
Qed.
Example C66_max_iter_ignored_case : evals abs1 (set_max_iter 1 (cond_ 1%R "theta" "rel" "grad")) [h_1; h_2; h_3] = [Ok false; Ok false; Ok true].
Proof. rewrite C66_max_iter_ignored. exact C28_theta_gradient_case. Qed.
Example C66_budget_stops_case : snd (oc_call abs1 (cond_ 1%R "theta" "rel" "grad") (fst h_1) 10) = Ok true.
Proof.
  destruct (snd (oc_call abs1 (cond_ 1%R "theta" "rel" "grad") (fst h_1) 10)) as [b|e] eqn:E.
  - rewrite (C66_budget_stops abs1 (cond_ 1%R "theta" "rel" "grad") (fst h_1) 10 b); [reflexivity|simpl; lia|exact E].
  - (* the same evaluation within the budget does not raise, and the budget does not enter the tests *)
    exfalso. assert (A : evals abs1 (cond_ 1%R "theta" "rel" "grad") [h_1] = [Ok false])
      by (apply (C28_theta_gradient abs1 (cond_ 1%R "theta" "rel" "grad") Rel) with (g0 := [Fin 4%R]) (gs := []); [apply cond_fresh|left; reflexivity|reflexivity|reflexivity|simpl; apply Rltb_true; lra|shows|budget]).
    unfold evals, h_1 in A. unfold h_1, fst in E. unfold oc_call in A, E. destruct (check_all_params _ _ _) as [c1 [x|y]]; [discriminate E|discriminate A].
Qed.
