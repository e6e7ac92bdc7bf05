(* C132: misspelt options of the stopping condition are reported. *)
From Coq Require Import Reals List Bool String ZArith Lra Lia.
From Verif Require Import PyBase XReal OptCond_Model OptCond_Spec OptCond_Proofs Measure_Proofs.
Import ListNotations.
Local Open Scope string_scope.

(* something is watched with a positive tolerance *)
Definition watching (c : oc) : Prop :=
  ((watches_both (monitoring c) \/ watches_lambda (monitoring c)) /\ xlt (Fin 0) (tol_lambda c) = true) \/
  ((watches_both (monitoring c) \/ watches_theta (monitoring c)) /\ xlt (Fin 0) (tol_theta c) = true).

Lemma pos_not_le x : xlt (Fin 0) x = true -> xle x (Fin 0) = false.
Proof.
  destruct x as [r| | |]; cbn; intros H; try congruence. unfold xle. cbn. apply Rltb_true in H. apply orb_false_intro; [apply Rltb_false; lra|apply Reqb_false; lra].
Qed.
Lemma number_sign x : x <> NaN -> xlt (Fin 0) x = true \/ xle x (Fin 0) = true.
Proof. intros N. destruct (xle x (Fin 0)) eqn:E; [auto|]. left. apply Measure_Proofs.xle_pos; assumption. Qed.

Section Misspelt.
  Variable vnorm : list xr -> xr.

  Lemma wrong_metric_l c o : metric c <> "grad" -> metric c <> "param" -> check_l c o = (c, if xle (tol_lambda c) (Fin 0) then Ok false else Raise ValueError).
  Proof. intros G P. unfold check_l. destruct (xle _ _); [reflexivity|]. apply String.eqb_neq in G, P. rewrite G, P. reflexivity. Qed.
  Lemma wrong_metric_t c o : metric c <> "grad" -> metric c <> "param" -> check_t vnorm c o = (c, if xle (tol_theta c) (Fin 0) then Ok false else Raise ValueError).
  Proof. intros G P. unfold check_t. destruct (xle _ _); [reflexivity|]. apply String.eqb_neq in G, P. rewrite G, P. reflexivity. Qed.

  (* A metric that is neither "grad" nor "param": ValueError at every evaluation, in every state. *)
  Theorem metric_reported c o it : metric c <> "grad" -> metric c <> "param" -> watching c -> snd (oc_call vnorm c o it) = Raise ValueError.
  Proof.
    intros G P W. rewrite call_snd. set (c0 := set_max_iter _ c). assert (G0 : metric c0 <> "grad") by exact G. assert (P0 : metric c0 <> "param") by exact P.
    unfold check_all_params, combine. rewrite !(wrong_metric_l c0), !(wrong_metric_t c0) by assumption. cbn [monitoring set_max_iter tol_lambda tol_theta c0].
    destruct W as [[[B|B] T]|[[B|B] T]]; apply pos_not_le in T; rewrite ?T.
    - destruct (watch_both_cases _ B) as [E|[E F]]; rewrite E, ?F; reflexivity.
    - destruct (watch_lambda_case _ B) as (E1 & E2 & E3). rewrite E1, E2, E3. reflexivity.
    - destruct (xle (tol_lambda c) (Fin 0)); destruct (watch_both_cases _ B) as [E|[E F]]; rewrite E, ?F, ?(wrong_metric_t c0), ?T by assumption; try reflexivity; cbn [c0 set_max_iter tol_theta]; rewrite T; reflexivity.
    - destruct (watch_theta_case _ B) as (E1 & E2 & E3 & E4). rewrite E1, E2, E3, E4. reflexivity.
  Qed.

  (* how far each side is from its first comparison, which is made at stage 2 *)
  Definition stage_l (c : oc) : nat :=
    if String.eqb (metric c) "grad" then match l_grad_0 c with None => 1 | Some _ => 2 end
    else match l_0 c, delta_l_1 c with None, _ => 0 | Some _, None => 1 | Some _, Some _ => 2 end.
  Definition stage_t (c : oc) : nat :=
    if String.eqb (metric c) "grad" then match t_grad_0 c with None => 1 | Some _ => 2 end
    else match t_0 c, delta_t_1 c with None, _ => 0 | Some _, None => 1 | Some _, Some _ => 2 end.

  Lemma wrong_mode c a b tol : mode c <> "rel" -> mode c <> "abs" -> xlt (Fin 0) tol = true -> check_metric c a b tol = Raise ValueError.
  Proof. intros R A T. unfold check_metric. rewrite T. cbn. apply String.eqb_neq in R, A. rewrite R, A. reflexivity. Qed.
  Definition ordered (n : nat) (c : oc) : Prop := sane n c /\ (delta_l_1 c <> None -> l_0 c <> None) /\ (delta_t_1 c <> None -> t_0 c <> None).
  Ltac fin := repeat split; auto; try discriminate; try (intros ? E; injection E as <-; assumption).

  Lemma stage_of_l n c o : (metric c = "grad" \/ metric c = "param") -> mode c <> "rel" -> mode c <> "abs" -> xlt (Fin 0) (tol_lambda c) = true -> ordered n c -> o_lgrad o <> None ->
    ((stage_l c < 2)%nat -> exists c', check_l c o = (c', Ok false) /\ stage_l c' = S (stage_l c) /\ stage_t c' = stage_t c /\ ordered n c' /\ same_settings c c') /\
    (stage_l c = 2%nat -> exists c', check_l c o = (c', Raise ValueError)).
  Proof.
    intros M R A T ((S1 & S2 & S3 & S4) & O1 & O2) G. unfold check_l, stage_l. rewrite (pos_not_le _ T). destruct M as [M|M]; rewrite M; cbn [String.eqb Ascii.eqb Bool.eqb].
    - unfold lam_grad. destruct (o_lgrad o) as [g|]; [|congruence]. destruct (l_grad_0 c) as [m|] eqn:L; split; try lia.
      + intros _. exists c. rewrite wrong_mode by assumption. reflexivity.
      + intros _. eexists. split; [reflexivity|]. unfold stage_l, stage_t. cbn [metric set_l]. rewrite M. cbn. unfold ordered, sane. cbn. fin.
    - destruct (l_0 c) as [z|] eqn:L0; [destruct (delta_l_1 c) as [d|] eqn:D|].
      + split; [lia|]. intros _. destruct (l_mem c) as [m|]; [|exfalso; apply S4; congruence]. eexists. rewrite wrong_mode by assumption. reflexivity.
      + split; [|lia]. intros _. eexists. split; [reflexivity|]. unfold stage_l, stage_t. cbn [metric set_l]. rewrite M. unfold ordered, sane. cbn. rewrite ?L0. fin.
      + split; [|lia]. intros _. destruct (delta_l_1 c) as [d|] eqn:D; [exfalso; apply O1; congruence|]. eexists. split; [reflexivity|]. unfold stage_l, stage_t. cbn [metric set_l]. rewrite M. unfold ordered, sane. cbn. rewrite ?D. fin.
  Qed.
  Lemma stage_of_t n c o it : (metric c = "grad" \/ metric c = "param") -> mode c <> "rel" -> mode c <> "abs" -> xlt (Fin 0) (tol_theta c) = true -> ordered n c -> measurable n (o, it) ->
    ((stage_t c < 2)%nat -> exists c', check_t vnorm c o = (c', Ok false) /\ stage_t c' = S (stage_t c) /\ stage_l c' = stage_l c /\ ordered n c' /\ same_settings c c') /\
    (stage_t c = 2%nat -> exists c', check_t vnorm c o = (c', Raise ValueError)).
  Proof.
    intros M R A T ((S1 & S2 & S3 & S4) & O1 & O2) (_ & Th & Len & G0 & G). cbn [fst] in *. unfold check_t, stage_t. rewrite (pos_not_le _ T). destruct M as [M|M]; rewrite M; cbn [String.eqb Ascii.eqb Bool.eqb].
    - unfold get_flat_grad. destruct (grads_present _ G) as (gs & E & L). rewrite E. cbn [bind]. destruct gs as [|g gs]; [destruct (o_tgrad o); [congruence|discriminate]|].
      destruct (t_grad_0 c) as [m|] eqn:L'; split; try lia.
      + intros _. exists c. rewrite wrong_mode by assumption. reflexivity.
      + intros _. eexists. split; [reflexivity|]. unfold stage_l, stage_t. cbn [metric set_t]. rewrite M. unfold ordered, sane. cbn. fin.
    - assert (F : get_flat_param o = Ok (List.concat (o_theta o))) by (unfold get_flat_param; destruct (o_theta o); [congruence|reflexivity]). rewrite F.
      destruct (t_0 c) as [z|] eqn:L0; [destruct (delta_t_1 c) as [d|] eqn:D|].
      + split; [lia|]. intros _. destruct (t_mem c) as [m|] eqn:Q; [|exfalso; apply S3; congruence]. unfold tsub. rewrite Len, (S2 m eq_refl), Nat.eqb_refl. eexists. rewrite wrong_mode by assumption. reflexivity.
      + split; [|lia]. intros _. unfold tsub. rewrite Len, (S1 z eq_refl), Nat.eqb_refl. eexists. split; [reflexivity|]. unfold stage_l, stage_t. cbn [metric set_t]. rewrite M. unfold ordered, sane. cbn. rewrite ?L0. fin.
      + split; [|lia]. intros _. destruct (delta_t_1 c) as [d|] eqn:D; [exfalso; apply O2; congruence|]. eexists. split; [reflexivity|]. unfold stage_l, stage_t. cbn [metric set_t]. rewrite M. unfold ordered, sane. cbn. rewrite ?D. fin.
  Qed.

  Definition on_l (c : oc) : Prop := (watches_both (monitoring c) \/ watches_lambda (monitoring c)) /\ xlt (Fin 0) (tol_lambda c) = true.
  Definition on_t (c : oc) : Prop := (watches_both (monitoring c) \/ watches_theta (monitoring c)) /\ xlt (Fin 0) (tol_theta c) = true.
  Definition wrong (c : oc) : Prop :=
    (watches_both (monitoring c) \/ watches_lambda (monitoring c) \/ watches_theta (monitoring c)) /\ (metric c = "grad" \/ metric c = "param") /\ mode c <> "rel" /\ mode c <> "abs" /\ tol_theta c <> NaN /\ tol_lambda c <> NaN.
  Definition at_stage (k : nat) (c : oc) : Prop := (on_l c -> stage_l c = k) /\ (on_t c -> stage_t c = k).
  Lemma wrong_same c c' : same_settings c c' -> wrong c -> wrong c'.
  Proof. intros (A & B & C & D & E). unfold wrong. rewrite A, B, C, D, E. auto. Qed.
  Lemma on_same c c' : same_settings c c' -> (on_l c' <-> on_l c) /\ (on_t c' <-> on_t c).
  Proof. intros (A & B & C & D & E). unfold on_l, on_t. rewrite A, D, E. tauto. Qed.

  (* one side, whichever: either it is not on and nothing happens, or it advances *)
  Lemma side_l n c o it k : wrong c -> (watches_both (monitoring c) \/ watches_lambda (monitoring c)) -> ordered n c -> measurable n (o, it) -> (on_l c -> stage_l c = k) -> (k < 2)%nat ->
    exists c', check_l c o = (c', Ok false) /\ (on_l c -> stage_l c' = S k) /\ stage_t c' = stage_t c /\ ordered n c' /\ same_settings c c'.
  Proof.
    intros (_ & M & R & A & _ & N) W O Ms St K. destruct (number_sign _ N) as [P|P].
    - destruct (stage_of_l n c o M R A P O (proj1 Ms)) as [H _]. rewrite (St (conj W P)) in H. destruct (H K) as (c' & E & S1 & S2 & Q). exists c'. auto.
    - exists c. unfold check_l. rewrite P. split; [reflexivity|]. split; [intros [_ X]; apply pos_not_le in X; congruence|]. repeat split; apply O.
  Qed.
  Lemma side_t n c o it k : wrong c -> (watches_both (monitoring c) \/ watches_theta (monitoring c)) -> ordered n c -> measurable n (o, it) -> (on_t c -> stage_t c = k) -> (k < 2)%nat ->
    exists c', check_t vnorm c o = (c', Ok false) /\ (on_t c -> stage_t c' = S k) /\ stage_l c' = stage_l c /\ ordered n c' /\ same_settings c c'.
  Proof.
    intros (_ & M & R & A & N & _) W O Ms St K. destruct (number_sign _ N) as [P|P].
    - destruct (stage_of_t n c o it M R A P O Ms) as [H _]. rewrite (St (conj W P)) in H. destruct (H K) as (c' & E & S1 & S2 & Q). exists c'. auto.
    - exists c. unfold check_t. rewrite P. split; [reflexivity|]. split; [intros [_ X]; apply pos_not_le in X; congruence|]. repeat split; apply O.
  Qed.

  Lemma both_early f n c o it k : wrong c -> watches_both (monitoring c) -> ordered n c -> measurable n (o, it) -> at_stage k c -> (k < 2)%nat -> f false false = false ->
    exists c', combine vnorm f c o = (c', Ok false) /\ at_stage (S k) c' /\ ordered n c' /\ same_settings c c'.
  Proof.
    intros W B O Ms [A1 A2] K F. destruct (side_l n c o it k W (or_introl B) O Ms A1 K) as (c1 & E1 & P1 & Q1 & O1 & S1).
    assert (B1 : watches_both (monitoring c1)) by (rewrite (proj1 S1); exact B). destruct (on_same _ _ S1) as [X1 X2].
    assert (A1' : on_t c1 -> stage_t c1 = k) by (intros X; rewrite Q1; apply A2, X2, X).
    destruct (side_t n c1 o it k (wrong_same _ _ S1 W) (or_introl B1) O1 Ms A1' K) as (c2 & E2 & P2 & Q2 & O2 & S2). destruct (on_same _ _ S2) as [Y1 Y2].
    exists c2. unfold combine. rewrite E1, E2, F. split; [reflexivity|]. split; [split|split; [exact O2|exact (same_trans _ _ _ S1 S2)]].
    - intros H. rewrite Q2. apply P1, X1, Y1, H.
    - intros H. apply P2, Y2, H.
  Qed.
  Lemma both_late f n c o it : wrong c -> watches_both (monitoring c) -> ordered n c -> measurable n (o, it) -> at_stage 2 c -> on_l c \/ on_t c -> exists c', combine vnorm f c o = (c', Raise ValueError).
  Proof.
    intros (W & M & R & A & N1 & N2) B O Ms [A1 A2] On. unfold combine. destruct (number_sign _ N2) as [P|P].
    - destruct (stage_of_l n c o M R A P O (proj1 Ms)) as [_ H]. destruct (H (A1 (conj (or_introl B) P))) as [c' E]. rewrite E. eauto.
    - unfold check_l. rewrite P. destruct On as [[_ X]|[X T]]; [apply pos_not_le in X; congruence|]. destruct (stage_of_t n c o it M R A T O Ms) as [_ H]. destruct (H (A2 (conj X T))) as [c' E]. rewrite E. eauto.
  Qed.

  Lemma all_early n c o it k : wrong c -> ordered n c -> measurable n (o, it) -> at_stage k c -> (k < 2)%nat ->
    exists c', check_all_params vnorm c o = (c', Ok false) /\ at_stage (S k) c' /\ ordered n c' /\ same_settings c c'.
  Proof.
    intros W O Ms A K. unfold check_all_params. pose proof W as ([B|[B|B]] & _).
    - destruct (watch_both_cases _ B) as [E|[E F]]; rewrite E, ?F; eapply both_early; eauto.
    - destruct (watch_lambda_case _ B) as (E1 & E2 & E3). rewrite E1, E2, E3. destruct (side_l n c o it k W (or_intror B) O Ms (proj1 A) K) as (c1 & E & P & Q & O1 & S1). exists c1. split; [exact E|].
      split; [|split; assumption]. destruct (on_same _ _ S1) as [X1 X2]. split; [intros H; apply P, X1, H|]. intros H. apply X2 in H. destruct H as [[H|H] _]; exfalso.
      + destruct (watch_both_cases _ H) as [G|[_ G]]; congruence.
      + destruct (watch_theta_case _ H) as (_ & _ & G & _). congruence.
    - destruct (watch_theta_case _ B) as (E1 & E2 & E3 & E4). rewrite E1, E2, E3, E4. destruct (side_t n c o it k W (or_intror B) O Ms (proj2 A) K) as (c1 & E & P & Q & O1 & S1). exists c1. split; [exact E|].
      split; [|split; assumption]. destruct (on_same _ _ S1) as [X1 X2]. split; [|intros H; apply P, X2, H]. intros H. apply X1 in H. destruct H as [[H|H] _]; exfalso.
      + destruct (watch_both_cases _ H) as [G|[_ G]]; congruence.
      + destruct (watch_lambda_case _ H) as (_ & _ & G). congruence.
  Qed.
  Lemma all_late n c o it : wrong c -> ordered n c -> measurable n (o, it) -> at_stage 2 c -> on_l c \/ on_t c -> exists c', check_all_params vnorm c o = (c', Raise ValueError).
  Proof.
    intros W O Ms A On. unfold check_all_params. pose proof W as ([B|[B|B]] & M & R & Ab & N1 & N2).
    - destruct (watch_both_cases _ B) as [E|[E F]]; rewrite E, ?F; eapply both_late; eauto.
    - destruct (watch_lambda_case _ B) as (E1 & E2 & E3). rewrite E1, E2, E3. destruct On as [[X T]|[[H|H] T]].
      + destruct (stage_of_l n c o M R Ab T O (proj1 Ms)) as [_ H]. exact (H (proj1 A (conj X T))).
      + exfalso. destruct (watch_both_cases _ H) as [G|[_ G]]; congruence.
      + exfalso. destruct (watch_theta_case _ H) as (_ & _ & G & _). congruence.
    - destruct (watch_theta_case _ B) as (E1 & E2 & E3 & E4). rewrite E1, E2, E3, E4. destruct On as [[[H|H] T]|[X T]].
      + exfalso. destruct (watch_both_cases _ H) as [G|[_ G]]; congruence.
      + exfalso. destruct (watch_lambda_case _ H) as (_ & _ & G). congruence.
      + destruct (stage_of_t n c o it M R Ab T O Ms) as [_ H]. exact (H (proj2 A (conj X T))).
  Qed.

  Lemma call_early n c o it k : wrong c -> ordered n c -> measurable n (o, it) -> at_stage k c -> (k < 2)%nat ->
    exists c' b, oc_call vnorm c o it = (c', Ok b) /\ at_stage (S k) c' /\ ordered n c' /\ same_settings c c'.
  Proof.
    intros W O Ms A K. unfold oc_call. destruct (all_early n (set_max_iter (train_steps (o_niter o)) c) o it k W O Ms A K) as (c' & E & A' & O' & S'). rewrite E. do 2 eexists. split; [reflexivity|]. auto.
  Qed.
  Lemma call_late n c o it : wrong c -> ordered n c -> measurable n (o, it) -> at_stage 2 c -> on_l c \/ on_t c -> exists c', oc_call vnorm c o it = (c', Raise ValueError).
  Proof. intros W O Ms A On. unfold oc_call. destruct (all_late n (set_max_iter (train_steps (o_niter o)) c) o it W O Ms A On) as (c' & E). rewrite E. eauto. Qed.
  Lemma fresh_stage c : fresh c -> stage_l c = (if String.eqb (metric c) "grad" then 1 else 0)%nat /\ stage_t c = (if String.eqb (metric c) "grad" then 1 else 0)%nat.
  Proof. intros (H1 & H2 & H3 & H4 & H5 & H6 & H7 & H8). unfold stage_l, stage_t. rewrite H3, H4, H5, H6. destruct (String.eqb _ _); auto. Qed.
  Lemma fresh_ordered n c : fresh c -> ordered n c.
  Proof. intros F. split; [apply fresh_sane; exact F|]. destruct F as (H1 & H2 & H3 & H4 & H5 & H6 & H7 & H8). rewrite H7, H8. split; congruence. Qed.
End Misspelt.

Theorem C132_metric : forall vnorm c o it, metric c <> "grad" -> metric c <> "param" -> watching c -> snd (oc_call vnorm c o it) = Raise ValueError.
Proof. exact metric_reported. Qed.
Print Assumptions C132_metric.

(* A mode that is neither "rel" nor "abs": ValueError at the first comparison, that is the second evaluation with the gradient metric and the third with the
   parameter metric; the evaluations before it answer as if nothing was wrong. *)
Theorem C132_mode : forall vnorm c n h1 h2 h3 hs, fresh c -> wrong c -> watching c -> Forall (measurable n) (h1 :: h2 :: h3 :: hs) ->
  (metric c = "grad" -> exists b, firstn 2 (evals vnorm c (h1 :: h2 :: h3 :: hs)) = [Ok b; Raise ValueError]) /\
  (metric c = "param" -> exists b b', firstn 3 (evals vnorm c (h1 :: h2 :: h3 :: hs)) = [Ok b; Ok b'; Raise ValueError]).
Proof.
  intros vnorm c n [o1 i1] [o2 i2] [o3 i3] hs F W On Ms. inversion Ms as [|? ? M1 Ms' E1]; subst. inversion Ms' as [|? ? M2 Ms'' E2]; subst. inversion Ms'' as [|? ? M3 _ E3]; subst.
  destruct (fresh_stage c F) as [Sl St]. assert (On' : on_l c \/ on_t c) by (destruct On; auto). split; intros M; rewrite M in Sl, St; cbn in Sl, St; cbn [evals].
  - destruct (call_early vnorm n c o1 i1 1 W (fresh_ordered n c F) M1) as (c1 & b & E & A & O & S); [split; auto|lia|]. rewrite E. exists b. pose proof (on_same _ _ S) as [X1 X2].
    destruct (call_late vnorm n c1 o2 i2 (wrong_same _ _ S W) O M2 A) as (c2 & E'); [tauto|]. rewrite E'. destruct (oc_call vnorm c2 o3 i3) as [c3 r]. reflexivity.
  - destruct (call_early vnorm n c o1 i1 0 W (fresh_ordered n c F) M1) as (c1 & b & E & A & O & S); [split; auto|lia|]. rewrite E. pose proof (on_same _ _ S) as [X1 X2].
    destruct (call_early vnorm n c1 o2 i2 1 (wrong_same _ _ S W) O M2 A) as (c2 & b' & E' & A' & O' & S'); [lia|]. rewrite E'. pose proof (on_same _ _ S') as [Y1 Y2]. exists b, b'.
    destruct (call_late vnorm n c2 o3 i3 (wrong_same _ _ S' (wrong_same _ _ S W)) O' M3 A') as (c3 & E''); [tauto|]. rewrite E''. reflexivity.
Qed.
Print Assumptions C132_mode.

(* With nothing watched a misspelt mode or metric is never reported, in any state and on any history, gradients or not. *)
Theorem C132_never_reported : forall vnorm l c,
  In (monitoring c) (L_AND_T ++ L_OR_T ++ JUST_L ++ JUST_T) -> xle (tol_theta c) (Fin 0) = true -> xle (tol_lambda c) (Fin 0) = true ->
  Forall (fun r => exists b, r = Ok b) (evals vnorm c l).
Proof.
  intros vnorm l. induction l as [|[o it] l IH]; intros c I T L; [constructor|]. cbn [evals].
  assert (E : exists b, oc_call vnorm c o it = (set_max_iter (train_steps (o_niter o)) c, Ok b)).
  { unfold oc_call. set (c0 := set_max_iter _ c). assert (H1 : check_l c0 o = (c0, Ok false)) by (unfold check_l; cbn [c0 set_max_iter tol_lambda]; rewrite L; reflexivity).
    assert (H2 : check_t vnorm c0 o = (c0, Ok false)) by (unfold check_t; cbn [c0 set_max_iter tol_theta]; rewrite T; reflexivity).
    assert (H : check_all_params vnorm c0 o = (c0, Ok false)).
    { unfold check_all_params, combine. rewrite H1, H2. cbn [c0 set_max_iter monitoring]. destruct (mem _ L_AND_T) eqn:Q1; [reflexivity|]. destruct (mem _ L_OR_T) eqn:Q2; [reflexivity|].
      destruct (mem _ JUST_L) eqn:Q3; [reflexivity|]. destruct (mem _ JUST_T) eqn:Q4; [reflexivity|]. exfalso. rewrite !in_app_iff in I. destruct I as [I|[I|[I|I]]]; apply mem_in in I; congruence. }
    rewrite H. eauto. }
  destruct E as [b E]. rewrite E. constructor; [eauto|]. apply IH; assumption.
Qed.
Print Assumptions C132_never_reported.

(* so neither a misspelt metric nor a misspelt mode is always reported, even when something is watched: *)
Definition cond_w (tol : R) (mo me : string) : oc :=
  {| tol_theta := Fin tol; tol_lambda := Fin tol; monitoring := "both"; mode := mo; metric := me; max_iter := 0%Z;
     l_mem := None; t_mem := None; l_0 := None; t_0 := None; l_grad_0 := None; t_grad_0 := None; delta_l_1 := None; delta_t_1 := None |}.
Definition loss_w (v : R) : obs :=
  {| o_mem := fun _ => Fin v; o_lam := 0; o_lgrad := Some (Fin v); o_theta := [[Fin v; Fin 2]]; o_tgrad := [Some [Fin v; Fin 1]]; o_niter := SInt 100 |}.
Lemma loss_w_measurable v it : measurable 2 (loss_w v, it).
Proof. unfold measurable. cbn. repeat split; try discriminate. constructor; [discriminate|constructor]. Qed.
Lemma one_pos : xlt (Fin 0) (Fin 1) = true.
Proof. cbn. apply Rltb_true. lra. Qed.
Lemma cond_w_wrong mo me : mo <> "rel" -> mo <> "abs" -> me = "grad" \/ me = "param" -> wrong (cond_w 1 mo me) /\ watching (cond_w 1 mo me).
Proof.
  intros R A M. assert (B : watches_both "both") by (left; reflexivity). split; [split; [left; exact B|]; repeat split; auto; discriminate|]. left. split; [left; exact B|apply one_pos].
Qed.
Theorem C132_mode_refuted : exists vnorm c l, fresh c /\ wrong c /\ watching c /\ Forall (measurable 2) l /\ List.length l = 2%nat /\ Forall (fun r => exists b, r = Ok b) (evals vnorm c l).
Proof.
  exists (fun _ => Fin 0), (cond_w 1 "relative" "param"), [(loss_w 1, 0%Z); (loss_w 2, 1%Z)]. destruct (cond_w_wrong "relative" "param") as [W O]; [discriminate|discriminate|auto|].
  split; [repeat split|]. split; [exact W|]. split; [exact O|]. split; [constructor; [apply loss_w_measurable|constructor; [apply loss_w_measurable|constructor]]|]. split; [reflexivity|].
  assert (Ms : Forall (measurable 2) [(loss_w 1, 0%Z); (loss_w 2, 1%Z); (loss_w 3, 2%Z)]) by (repeat (constructor; [apply loss_w_measurable|]); constructor).
  destruct (proj2 (C132_mode (fun _ => Fin 0) (cond_w 1 "relative" "param") 2 (loss_w 1, 0%Z) (loss_w 2, 1%Z) (loss_w 3, 2%Z) [] ltac:(repeat split) W O Ms) eq_refl) as (b & b' & E).
  cbn [evals] in E |- *. destruct (oc_call _ _ (loss_w 1) 0) as [c1 r1]. destruct (oc_call _ c1 (loss_w 2) 1) as [c2 r2]. destruct (oc_call _ c2 (loss_w 3) 2) as [c3 r3]. cbn in E. injection E as -> -> ->.
  constructor; [eauto|]. constructor; [eauto|constructor].
Qed.
Print Assumptions C132_mode_refuted.
Theorem C132_metric_refuted : exists c, fresh c /\ In (monitoring c) L_AND_T /\ metric c = "gradient" /\ mode c = "relative" /\ forall vnorm l, Forall (fun r => exists b, r = Ok b) (evals vnorm c l).
Proof.
  exists (cond_w 0 "relative" "gradient"). assert (Z : xle (Fin 0) (Fin 0) = true) by (unfold xle; cbn; apply orb_true_intro; right; apply Reqb_true; reflexivity).
  split; [repeat split|]. split; [left; reflexivity|]. split; [reflexivity|]. split; [reflexivity|]. intros vnorm l. apply C132_never_reported; [left; reflexivity|exact Z|exact Z].
Qed.
Print Assumptions C132_metric_refuted.

(* What tests/torch_tests/test_optim_cond.py checks on random losses, for every loss: a new condition with documented settings does not stop at its first
   evaluation within the budget, stops when the iteration reaches n_iter, and goes on answering. *)
Theorem C132_suite : forall vnorm c n o1 o2 k hs, fresh c -> documented c -> Forall (measurable n) ((o1, 1%Z) :: (o2, k) :: hs) ->
  (1 < train_steps (o_niter o1))%Z -> (0 < train_steps (o_niter o2) <= k)%Z ->
  exists rest, evals vnorm c ((o1, 1%Z) :: (o2, k) :: hs) = Ok false :: Ok true :: rest /\ Forall (fun r => exists b, r = Ok b) rest.
Proof.
  intros vnorm c n o1 o2 k hs F D Ms B1 B2. assert (A : Forall (fun r => exists b, r = Ok b) (evals vnorm c ((o1, 1%Z) :: (o2, k) :: hs))) by (eapply evals_ok; [exact Ms|apply fresh_sane; exact F|exact D]). pose proof (first_evaluation vnorm c (o1, 1%Z) ((o2, k) :: hs) F B1) as N1.
  cbn [evals] in A, N1 |- *. destruct (oc_call vnorm c o1 1) as [c1 r1]. destruct (oc_call vnorm c1 o2 k) as [c2 r2] eqn:E. inversion A as [|? ? [b1 ->] A']; subst. inversion A' as [|? ? [b2 ->] A'']; subst.
  exists (evals vnorm c2 hs). split; [|exact A'']. f_equal; [destruct b1; [exfalso; apply N1; reflexivity|reflexivity]|]. f_equal. f_equal.
  unfold oc_call in E. destruct (check_all_params _ _ _) as [c' [cp|e]]; [|discriminate]. injection E as _ <-. unfold check_iter. cbn [max_iter set_max_iter].
  replace (train_steps (o_niter o2) <=? 0)%Z with false by (symmetry; apply Z.leb_gt; lia). replace (train_steps (o_niter o2) <=? k)%Z with true by (symmetry; apply Z.leb_le; lia). reflexivity.
Qed.
Print Assumptions C132_suite.

Example C132_metric_case : snd (oc_call (fun _ => Fin 0) (cond_w 1 "rel" "gradient") (loss_w 1) 5) = Raise ValueError.
Proof. apply C132_metric; [discriminate|discriminate|]. left. split; [left; left; reflexivity|apply one_pos]. Qed.
Example C132_mode_case : exists b, firstn 2 (evals (fun _ => Fin 0) (cond_w 1 "relative" "grad") [(loss_w 1, 0%Z); (loss_w 2, 1%Z); (loss_w 3, 2%Z)]) = [Ok b; Raise ValueError].
Proof.
  destruct (cond_w_wrong "relative" "grad") as [W O]; [discriminate|discriminate|auto|]. refine (proj1 (C132_mode (fun _ => Fin 0) (cond_w 1 "relative" "grad") 2 (loss_w 1, 0%Z) (loss_w 2, 1%Z) (loss_w 3, 2%Z) [] _ W O _) eq_refl).
  - repeat split.
  - repeat (constructor; [apply loss_w_measurable|]); constructor.
Qed.
Example C132_never_reported_case : Forall (fun r => exists b, r = Ok b) (evals (fun _ => Fin 0) (cond_w (-1) "x" "y") [(loss_w 1, 0%Z); (loss_w 2, 1%Z)]).
Proof. apply C132_never_reported; [left; reflexivity| |]; unfold xle; cbn; apply orb_true_intro; left; apply Rltb_true; lra. Qed.
Example C132_suite_case : exists rest, evals (fun _ => Fin 0) (cond_w 1 "abs" "grad") [(loss_w 1, 1%Z); (loss_w 1000, 1000%Z); (loss_w 1, 2%Z)] = Ok false :: Ok true :: rest /\ Forall (fun r => exists b, r = Ok b) rest.
Proof.
  apply C132_suite with (n := 2%nat); [repeat split| |repeat (constructor; [apply loss_w_measurable|]); constructor|cbn; lia|cbn; lia].
  split; [left; left; reflexivity|]. cbn. repeat split; auto; discriminate.
Qed.
