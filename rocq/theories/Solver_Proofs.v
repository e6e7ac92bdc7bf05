From Coq Require Import Reals List Bool String ZArith Lra Lia.
From Verif Require Import PyBase XReal OptCond_Model Solver_Model Solver_Spec.
Import ListNotations.

(* ---- step specification ---- *)
Lemma int_steps n : (0 <= n)%Z ->
  let '(pre, train) := interpret_steps (SInt n) in (0 <= pre <= train)%Z /\ train = n /\ (10 * pre <= 3 * n < 10 * pre + 10)%Z.
Proof.
  intros H. cbn [interpret_steps]. rewrite Z.quot_div_nonneg by lia. pose proof (Z.div_mod (3 * n) 10 ltac:(lia)). pose proof (Z.mod_pos_bound (3 * n) 10 ltac:(lia)).
  lia.
Qed.
Lemma train_is_snd s : train_steps s = snd (interpret_steps s).
Proof. destruct s; reflexivity. Qed.

(* ---- logs ---- *)
Lemma n_steps_app a b : n_steps (a ++ b) = (n_steps a + n_steps b)%nat.
Proof. unfold n_steps. rewrite filter_app, app_length. reflexivity. Qed.
Lemma recorded_app a b : recorded (a ++ b) = recorded a ++ recorded b.
Proof. induction a as [|e a IH]; simpl; [reflexivity|]. destruct e; simpl; rewrite IH; reflexivity. Qed.

Section S.
Variable W : Type.
Variable fwd : bool -> bool -> bool -> W -> W * Result xr.
Variable step_with : (W -> W * Result xr) -> W -> W * option exn.
Variables zero_grad plain_step generate guess : W -> W * option exn.
Variable reset : option (W -> W * option exn).
Variable cond : Z -> W -> W * Result bool.
Variable metric_grad : bool.
Variable n_iter : steps.
Variables (theta : W -> list R) (intercept : W -> option (list R)) (lam : W -> list R).
Notation st := (st W).
Notation bnd := (bnd W).
Notation closure := (closure W fwd zero_grad).
Notation step_closure := (step_closure W fwd step_with zero_grad).
Notation pre_body := (pre_body W fwd step_with zero_grad cond metric_grad).
Notation post_step := (post_step W fwd zero_grad plain_step).
Notation post_body := (post_body W fwd zero_grad plain_step cond).
Notation loop := (loop W).
Notation optim_presample := (optim_presample W fwd step_with zero_grad generate guess reset cond metric_grad n_iter).
Notation optim_postsample := (optim_postsample W fwd zero_grad plain_step guess reset cond n_iter).
Notation pretrain_post := (pretrain_post W fwd zero_grad plain_step).
Notation solve := (solve W fwd step_with zero_grad plain_step generate guess reset cond metric_grad n_iter theta intercept lam).

Lemma bnd_ok {A B} (m : M W A) (k : A -> M W B) s s' b :
  bnd m k s = (s', Ok b) -> exists s1 a, m s = (s1, Ok a) /\ k a s1 = (s', Ok b).
Proof. unfold Solver_Model.bnd. destruct (m s) as [s1 [a|e]]; [|discriminate]. intros H. exists s1, a. auto. Qed.

Lemma run_ok f (s s' : st) u : run W f s = (s', Ok u) -> s_erm s' = s_erm s /\ s_imp s' = s_imp s /\ s_log s' = s_log s.
Proof. unfold run. destruct (f (s_w s)) as [w [e|]]; [discriminate|]. intros H. injection H as <- _. auto. Qed.
Lemma ask_ok {A} (f : W -> W * Result A) (s s' : st) a : ask W f s = (s', Ok a) -> s_erm s' = s_erm s /\ s_imp s' = s_imp s /\ s_log s' = s_log s.
Proof. unfold ask. destruct (f (s_w s)) as [w r]. intros H. injection H as <- _. auto. Qed.
Lemma log_ok e (s s' : st) u : log W e s = (s', Ok u) -> s_erm s' = s_erm s /\ s_imp s' = s_imp s /\ s_log s' = s_log s ++ [e] /\ s_w s' = s_w s.
Proof. unfold log. intros H. injection H as <- _. auto. Qed.
Lemma erm_ok b (s s' : st) u : set_erm W b s = (s', Ok u) -> s_erm s' = b /\ s_imp s' = s_imp s /\ s_log s' = s_log s.
Proof. unfold set_erm. intros H. injection H as <- _. auto. Qed.
Lemma imp_ok b (s s' : st) u : set_imp W b s = (s', Ok u) -> s_erm s' = s_erm s /\ s_imp s' = b /\ s_log s' = s_log s /\ s_w s' = s_w s.
Proof. unfold set_imp. intros H. injection H as <- _. auto. Qed.

Notation reset_lbd := (reset_lbd W reset).
Definition resets : list ev := match reset with Some _ => [EReset] | None => [] end.
Ltac steps H := let s := fresh "s" in let a := fresh "a" in let E := fresh "E" in apply bnd_ok in H; destruct H as (s & a & E & H).

Lemma reset_ok (s s' : st) u : reset_lbd s = (s', Ok u) -> s_erm s' = s_erm s /\ s_imp s' = s_imp s /\ s_log s' = s_log s ++ resets.
Proof.
  unfold Solver_Model.reset_lbd, resets. intros H. destruct reset as [f|].
  - steps H. apply run_ok in E as (A & B & C). apply log_ok in H as (A' & B' & C' & _). repeat split; congruence.
  - unfold ret in H. injection H as <- _. rewrite app_nil_r. auto.
Qed.
Lemma reset_off (s s' : st) u : s_erm s = false -> (if s_erm s then reset_lbd else ret W tt) s = (s', Ok u) -> s' = s.
Proof. intros He H. rewrite He in H. unfold ret in H. injection H as <- _. reflexivity. Qed.

Lemma step_closure_ok (s s' : st) u : step_closure s = (s', Ok u) ->
  s_erm s' = s_erm s /\ s_imp s' = s_imp s /\ s_log s' = s_log s ++ [EStep (s_erm s) (s_imp s)].
Proof.
  unfold Solver_Model.step_closure. intros H. steps H. apply run_ok in E as (A & B & C). apply log_ok in H as (A' & B' & C' & _).
  repeat split; congruence.
Qed.

Lemma closure_ok back (s s' : st) x : closure back s = (s', Ok x) ->
  let e := if back then s_erm s else false in
  s_erm s' = e /\ s_imp s' = s_imp s /\ s_log s' = s_log s ++ [EFwd e (s_imp s)] /\
  exists w, closure_w W fwd zero_grad e (s_imp s) back w = (s_w s', Ok x) /\ w = s_w s.
Proof.
  unfold Solver_Model.closure. intros H. steps H.
  assert (F : s_erm s0 = (if back then s_erm s else false) /\ s_imp s0 = s_imp s /\ s_log s0 = s_log s /\ s_w s0 = s_w s).
  { destruct back; unfold ret, set_erm in E; injection E as <- _; simpl; auto. }
  clear E. destruct F as (F1 & F2 & F3 & F4). steps H. apply log_ok in E as (A & B & C & D).
  unfold ask in H. destruct (closure_w W fwd zero_grad (s_erm s0) (s_imp s0) back (s_w s1)) as [w r] eqn:Ec. injection H as <- ->. simpl.
  rewrite F1 in *. rewrite F2 in *. cbv zeta. repeat split; try congruence. exists (s_w s). split; [|reflexivity]. congruence.
Qed.

Lemma post_step_ok (s s' : st) x : post_step s = (s', Ok x) ->
  s_erm s' = s_erm s /\ s_imp s' = s_imp s /\
  s_log s' = s_log s ++ [EFwd (s_erm s) (s_imp s); EStep (s_erm s) (s_imp s); ELoss x].
Proof.
  unfold Solver_Model.post_step. intros H. steps H. apply run_ok in E as (A1 & B1 & C1).
  steps H. steps E. apply log_ok in E0 as (A2 & B2 & C2 & _). apply ask_ok in E as (A3 & B3 & C3).
  steps H. apply run_ok in E as (A4 & B4 & C4). steps H. apply log_ok in E as (A5 & B5 & C5 & _).
  steps H. apply log_ok in E as (A6 & B6 & C6 & _). unfold ret in H. injection H as <- <-.
  split; [congruence|]. split; [congruence|]. rewrite C6, C5, C4, C3, C2, C1. rewrite <- !app_assoc. simpl.
  apply f_equal. rewrite ?A5, ?A4, ?A3, ?A2, ?A1, ?B5, ?B4, ?B3, ?B2, ?B1. reflexivity.
Qed.

Lemma stop_test_ok it x (s s' : st) b : stop_test W cond it x s = (s', Ok b) ->
  s_erm s' = s_erm s /\ s_imp s' = s_imp s /\
  ((x = NaN /\ b = true /\ s_log s' = s_log s) \/ (x <> NaN /\ s_log s' = s_log s ++ [ECond it b])).
Proof.
  unfold stop_test. intros H. destruct (isnan x) eqn:En.
  - unfold ret in H. injection H as <- <-. destruct x; try discriminate. split; [reflexivity|]. split; [reflexivity|]. left. auto.
  - assert (x <> NaN) by (intros ->; discriminate). steps H. apply ask_ok in E as (A1 & B1 & C1). steps H.
    apply log_ok in E as (A2 & B2 & C2 & _). unfold ret in H. injection H as <- <-.
    split; [congruence|]. split; [congruence|]. right. split; [assumption|]. congruence.
Qed.

(* what one robust iteration does: [hd] then the recorded loss then the stopping test *)
Definition tail_of (it : Z) (x : xr) (b : bool) : list ev := match x with NaN => [] | _ => [ECond it b] end.
Definition body_spec (body : Z -> M W (xr * bool)) : Prop :=
  forall it s s' x b, s_erm s = false -> body it s = (s', Ok (x, b)) ->
    s_erm s' = false /\ s_imp s' = s_imp s /\ (x = NaN -> b = true) /\
    exists hd, s_log s' = s_log s ++ hd ++ ELoss x :: tail_of it x b /\ n_steps hd = 1%nat /\ recorded hd = [] /\
      Forall (fun e => exists erm imp, (e = EStep erm imp \/ e = EFwd erm imp) /\ erm = false) hd.

Lemma tail_log it x b (l1 l2 : list ev) :
  ((x = NaN /\ b = true /\ l2 = l1) \/ (x <> NaN /\ l2 = l1 ++ [ECond it b])) -> l2 = l1 ++ tail_of it x b /\ (x = NaN -> b = true).
Proof.
  intros [(-> & -> & ->)|(Hx & ->)].
  - simpl. rewrite app_nil_r. auto.
  - destruct x; try contradiction; simpl; split; auto; discriminate.
Qed.

Lemma post_body_spec : body_spec post_body.
Proof.
  intros it s s' x b He H. unfold Solver_Model.post_body in H. steps H. apply post_step_ok in E as (A1 & B1 & C1).
  steps H. apply stop_test_ok in E as (A2 & B2 & C2). unfold ret in H. injection H as <- <- <-.
  apply tail_log in C2 as [C2 Hn]. split; [congruence|]. split; [congruence|]. split; [exact Hn|].
  exists [EFwd (s_erm s) (s_imp s); EStep (s_erm s) (s_imp s)]. split; [|split; [reflexivity|split; [reflexivity|]]].
  - rewrite C2, C1, <- !app_assoc. reflexivity.
  - repeat constructor; exists (s_erm s), (s_imp s); auto.
Qed.

Lemma pre_body_spec : body_spec pre_body.
Proof.
  intros it s s' x b He H. unfold Solver_Model.pre_body in H. steps H. apply step_closure_ok in E as (A1 & B1 & C1).
  steps H.
  assert (Hm : s_erm s1 = false /\ s_imp s1 = s_imp s0 /\ exists i, s_log s1 = s_log s0 ++ [EFwd false i]).
  { destruct metric_grad.
    - steps E. unfold get_imp in E0. injection E0 as <- <-. steps E. apply closure_ok in E0 as (A2 & B2 & C2 & _).
      steps E. apply imp_ok in E0 as (A3 & B3 & C3 & _). unfold ret in E. injection E as <- <-. simpl in *.
      split; [congruence|]. split; [congruence|]. exists (s_imp s0). rewrite C3, C2. repeat f_equal. congruence.
    - steps E. unfold get_imp in E0. injection E0 as <- <-. steps E. apply imp_ok in E0 as (A2 & B2 & C2 & _).
      steps E. apply closure_ok in E0 as (A3 & B3 & C3 & _). steps E. apply imp_ok in E0 as (A4 & B4 & C4 & _).
      unfold ret in E. injection E as <- <-. simpl in *. split; [congruence|]. split; [congruence|]. exists (s_imp s2). rewrite C4, C3, C2. reflexivity. }
  destruct Hm as (A2 & B2 & i & C2). steps H. apply log_ok in E0 as (A3 & B3 & C3 & _). steps H.
  apply stop_test_ok in E0 as (A4 & B4 & C4). unfold ret in H. injection H as <- <- <-.
  apply tail_log in C4 as [C4 Hn]. split; [congruence|]. split; [congruence|]. split; [exact Hn|].
  exists [EStep (s_erm s) (s_imp s); EFwd false i]. split; [|split; [reflexivity|split; [reflexivity|]]].
  - rewrite C4, C3, C2, C1, <- !app_assoc. reflexivity.
  - repeat constructor; [exists (s_erm s), (s_imp s); auto|exists false, i; auto].
Qed.

(* ---- the loop ---- *)
Definition no_end_before (tr : list ev) : Prop := forall a e b, tr = a ++ e :: b -> ends e -> b = [].
Definition not_erm (e : ev) : Prop := match e with EStep erm _ | EFwd erm _ => erm = false | _ => True end.

Lemma head_no_end hd : Forall (fun e => exists erm imp, (e = EStep erm imp \/ e = EFwd erm imp) /\ erm = false) hd ->
  Forall (fun e => ~ ends e) hd /\ Forall not_erm hd.
Proof.
  intros H. split; eapply Forall_impl; try exact H; intros e (a & b & [->| ->] & Ha); simpl; auto; intros [K|[i K]]; discriminate.
Qed.

Lemma split_end (p q a b : list ev) e : Forall (fun e => ~ ends e) p -> p ++ q = a ++ e :: b -> ends e ->
  exists a', q = a' ++ e :: b.
Proof.
  revert a. induction p as [|x p IH]; intros a Hp H He; [exists a; exact H|]. inversion Hp as [|? ? Hx Hp']; subst.
  destruct a as [|y a]; simpl in H; injection H as -> H; [contradiction|]. apply (IH a); assumption.
Qed.

Lemma loop_spec body : body_spec body -> forall n it losses s s' l,
  s_erm s = false -> loop body it n losses s = (s', Ok l) ->
  exists tr xs, s_log s' = s_log s ++ tr /\ l = losses ++ xs /\ recorded tr = xs /\ n_steps tr = List.length xs /\
    (List.length xs <= n)%nat /\ ((List.length xs < n)%nat -> exists tr' e, tr = tr' ++ [e] /\ ends e) /\
    no_end_before tr /\ s_erm s' = false /\ s_imp s' = s_imp s /\ Forall not_erm tr.
Proof.
  intros Hb. induction n as [|n IH]; intros it losses s s' l He H; cbn [Solver_Model.loop] in H.
  - unfold ret in H. injection H as <- <-. exists [], []. rewrite !app_nil_r. repeat split; auto; try (simpl; lia).
    intros a e b Hab. destruct a; discriminate.
  - steps H. destruct a as [x b]. destruct (Hb it s s0 x b He E) as (A1 & B1 & Hn & hd & C1 & S1 & R1 & F1).
    destruct (head_no_end hd F1) as [F2 F3].
    destruct b.
    + unfold ret in H. injection H as <- <-. exists (hd ++ ELoss x :: tail_of it x true), [x].
      assert (Htail : exists tr' e, hd ++ ELoss x :: tail_of it x true = tr' ++ [e] /\ ends e).
      { destruct (isnan x) eqn:En.
        - destruct x; try discriminate. exists hd, (ELoss NaN). split; [reflexivity|left; reflexivity].
        - exists (hd ++ [ELoss x]), (ECond it true). split; [|right; eauto]. destruct x; try discriminate; simpl; rewrite <- app_assoc; reflexivity. }
      repeat split; auto.
      * rewrite recorded_app, R1. simpl. destruct x; reflexivity.
      * rewrite n_steps_app, S1. simpl. destruct x; reflexivity.
      * simpl. lia.
      * intros a e b' Hab Hend. destruct (split_end hd _ a b' e F2 Hab Hend) as [a' Ha'].
        destruct a' as [|y a']; simpl in Ha'; injection Ha' as Hy Ha'; symmetry in Hy.
        -- rewrite Hy in Hend. destruct Hend as [K|[i K]]; [|discriminate]. injection K as K. rewrite K in Ha'. symmetry. exact Ha'.
        -- destruct x; simpl in Ha'; try (destruct a' as [|z a']; simpl in Ha'; [injection Ha' as _ <-; reflexivity|injection Ha' as _ Ha'; destruct a'; discriminate]).
           destruct a'; discriminate.
      * apply Forall_app. split; [exact F3|]. constructor; [exact I|]. destruct x; simpl; repeat constructor.
    + destruct (IH (it + 1)%Z (losses ++ [x]) s0 s' l A1 H) as (tr & xs & L1 & L2 & L3 & L4 & L5 & L6 & L7 & L8 & L9 & L10).
      assert (Hx : x <> NaN) by (intros K; specialize (Hn K); discriminate).
      assert (Etl : tail_of it x false = [ECond it false]) by (destruct x; try reflexivity; contradiction).
      rewrite Etl in C1.
      exists (hd ++ ELoss x :: ECond it false :: tr), (x :: xs).
      assert (Fp : Forall (fun e => ~ ends e) (hd ++ [ELoss x; ECond it false])).
      { apply Forall_app. split; [exact F2|]. constructor; [|constructor; [|constructor]].
        - intros [K|[i K]]; [injection K as K; contradiction|discriminate].
        - intros [K|[i K]]; discriminate. }
      assert (Esp : hd ++ ELoss x :: ECond it false :: tr = (hd ++ [ELoss x; ECond it false]) ++ tr) by (rewrite <- app_assoc; reflexivity).
      repeat split; auto.
      * rewrite L1, C1, <- !app_assoc. reflexivity.
      * rewrite L2, <- app_assoc. reflexivity.
      * rewrite recorded_app, R1. simpl. rewrite L3. reflexivity.
      * rewrite n_steps_app, S1. simpl. unfold n_steps in *. simpl. rewrite L4. reflexivity.
      * simpl. lia.
      * intros Hlt. simpl in Hlt. destruct (L6 ltac:(lia)) as (tr' & e & -> & Hend).
        exists (hd ++ ELoss x :: ECond it false :: tr'), e. split; [rewrite <- app_assoc; reflexivity|exact Hend].
      * intros a e b' Hab Hend. rewrite Esp in Hab. destruct (split_end _ _ a b' e Fp Hab Hend) as [a' Ha']. exact (L7 a' e b' Ha' Hend).
      * congruence.
      * apply Forall_app. split; [exact F3|]. constructor; [exact I|]. constructor; [exact I|exact L10].
Qed.

(* ---- pretraining ---- *)
Lemma pretrain_post_spec n : forall losses (s s' : st) l, pretrain_post n losses s = (s', Ok l) ->
  exists tr xs, s_log s' = s_log s ++ tr /\ l = losses ++ xs /\ recorded tr = xs /\ n_steps tr = List.length xs /\ List.length xs = n /\
    s_erm s' = s_erm s /\ s_imp s' = s_imp s /\ (s_erm s = false -> Forall not_erm tr) /\ ~ In EGuess tr.
Proof.
  induction n as [|n IH]; intros losses s s' l H; cbn [Solver_Model.pretrain_post] in H.
  - unfold ret in H. injection H as <- <-. exists [], []. rewrite !app_nil_r. repeat split; auto.
  - steps H. apply post_step_ok in E as (A1 & B1 & C1).
    destruct (IH _ _ _ _ H) as (tr & xs & L1 & L2 & L3 & L4 & L5 & L6 & L7 & L8 & L9).
    exists ([EFwd (s_erm s) (s_imp s); EStep (s_erm s) (s_imp s); ELoss a] ++ tr), (a :: xs). repeat split.
    + rewrite L1, C1, <- app_assoc. reflexivity.
    + rewrite L2, <- app_assoc. reflexivity.
    + simpl. rewrite L3. reflexivity.
    + unfold n_steps in *. simpl. rewrite L4. reflexivity.
    + simpl. congruence.
    + congruence.
    + congruence.
    + intros He. repeat constructor; try (simpl; congruence). apply L8. congruence.
    + simpl. intros [K|[K|[K|K]]]; try discriminate. exact (L9 K).
Qed.

Lemma repeat_steps n : forall (s s' : st) u, repeat_m W n step_closure s = (s', Ok u) ->
  s_log s' = s_log s ++ repeat (EStep (s_erm s) (s_imp s)) n /\ s_erm s' = s_erm s /\ s_imp s' = s_imp s.
Proof.
  induction n as [|n IH]; intros s s' u H; cbn [Solver_Model.repeat_m] in H.
  - unfold ret in H. injection H as <- _. rewrite app_nil_r. auto.
  - steps H. apply step_closure_ok in E as (A1 & B1 & C1). apply IH in H as (A2 & B2 & C2). repeat split; try congruence.
    rewrite A2, C1, A1, B1, <- app_assoc. reflexivity.
Qed.

Lemma n_steps_repeat e i n : n_steps (repeat (EStep e i) n) = n.
Proof. unfold n_steps. induction n; simpl; congruence. Qed.
Lemma recorded_repeat e i n : recorded (repeat (EStep e i) n) = [].
Proof. induction n; simpl; congruence. Qed.

(* ---- whole solves ---- *)
Definition pre_n : nat := Z.to_nat (fst (interpret_steps n_iter)).
Definition train_n : nat := Z.to_nat (snd (interpret_steps n_iter)).

Lemma postsample_spec (s s' : st) l :
  optim_postsample s = (s', Ok l) ->
  exists before after, s_log s' = s_log s ++ before ++ EGuess :: after /\ ~ In EGuess before /\
    recorded (before ++ EGuess :: after) = l /\
    n_steps before = pre_n /\ List.length (recorded before) = pre_n /\
    n_steps after = List.length (recorded after) /\ (n_steps after <= train_n)%nat /\
    ((n_steps after < train_n)%nat -> exists tr e, after = tr ++ [e] /\ ends e) /\
    no_end_before after /\ s_erm s' = false /\ s_imp s' = s_imp s /\ Forall not_erm (before ++ after).
Proof.
  intros H. unfold Solver_Model.optim_postsample in H. unfold pre_n, train_n. rewrite <- train_is_snd.
  destruct (interpret_steps n_iter) as [pre tr0]. cbn [fst] in *.
  steps H. apply erm_ok in E as (A1 & B1 & C1). steps H.
  destruct (pretrain_post_spec _ _ _ _ _ E) as (tr & xs & L1 & L2 & L3 & L4 & L5 & L6 & L7 & L8 & L9). simpl in L2.
  steps H. apply run_ok in E0 as (A2 & B2 & C2). steps H. apply log_ok in E0 as (A3 & B3 & C3 & _). steps H.
  apply reset_off in E0; [|congruence]. match type of E0 with ?x = _ => subst x end. steps H.
  apply erm_ok in E0 as (A4 & B4 & C4).
  destruct (loop_spec _ post_body_spec _ _ _ _ _ _ A4 H) as (tr2 & xs2 & K1 & K2 & K3 & K4 & K5 & K6 & K7 & K8 & K9 & K10).
  exists tr, tr2. repeat split; auto.
  - rewrite K1, C4, C3, C2, L1, C1, <- !app_assoc. reflexivity.
  - rewrite recorded_app, L3. simpl. rewrite K3, K2, L2. reflexivity.
  - congruence.
  - congruence.
  - rewrite K4, K3. reflexivity.
  - rewrite K4. exact K5.
  - rewrite K4. exact K6.
  - congruence.
  - apply Forall_app. split; [apply L8; congruence|exact K10].
Qed.

Lemma presample_spec (s s' : st) l :
  optim_presample s = (s', Ok l) ->
  exists after, s_log s' = s_log s ++ repeat (EStep true (s_imp s)) pre_n ++ EGuess :: after /\
    recorded after = l /\
    n_steps after = List.length (recorded after) /\ (n_steps after <= train_n)%nat /\
    ((n_steps after < train_n)%nat -> exists tr e, after = tr ++ [e] /\ ends e) /\
    no_end_before after /\ s_erm s' = false /\ s_imp s' = s_imp s /\ Forall not_erm after.
Proof.
  intros H. unfold Solver_Model.optim_presample in H. unfold pre_n, train_n. rewrite <- train_is_snd.
  steps H. apply run_ok in E as (A0 & B0 & C0).
  destruct (interpret_steps n_iter) as [pre tr0]. cbn [fst] in *.
  steps H. apply erm_ok in E as (A1 & B1 & C1). steps H. apply repeat_steps in E as (L1 & L2 & L3).
  steps H. apply run_ok in E as (A2 & B2 & C2). steps H. apply log_ok in E as (A3 & B3 & C3 & _). steps H.
  apply erm_ok in E as (A4 & B4 & C4). steps H. apply reset_ok in E as (A5 & B5 & C5).
  assert (He : s_erm s6 = false) by congruence.
  destruct (loop_spec _ pre_body_spec _ _ _ _ _ _ He H) as (tr2 & xs2 & K1 & K2 & K3 & K4 & K5 & K6 & K7 & K8 & K9 & K10).
  simpl in K2. exists (resets ++ tr2).
  assert (Hr : recorded (resets ++ tr2) = recorded tr2) by (rewrite recorded_app; unfold resets; destruct reset; reflexivity).
  assert (Hs : n_steps (resets ++ tr2) = n_steps tr2) by (rewrite n_steps_app; unfold resets; destruct reset; reflexivity).
  assert (He2 : Forall (fun e => ~ ends e) resets).
  { unfold resets. destruct reset; repeat constructor. intros [K|[i K]]; discriminate. }
  rewrite Hr, Hs. repeat split; auto.
  - rewrite K1, C5, C4, C3, C2, L1, C1, C0, A1, B1, B0, <- !app_assoc. reflexivity.
  - congruence.
  - rewrite K4, K3. reflexivity.
  - rewrite K4. exact K5.
  - rewrite K4. intros Hl. destruct (K6 Hl) as (tr' & e & -> & Ee). exists (resets ++ tr'), e. rewrite <- app_assoc. auto.
  - intros x e b Hab Ee. destruct (split_end _ _ x b e He2 Hab Ee) as [x' Hx']. exact (K7 x' e b Hx' Ee).
  - congruence.
  - apply Forall_app. split; [|exact K10]. unfold resets. destruct reset; repeat constructor.
Qed.

(* ---- solve ---- *)
Lemma solve_spec pres opt rho (s s' : st) r :
  solve pres opt rho s = (s', Ok r) ->
  opt = true /\ exists losses, (if pres then optim_presample else optim_postsample) s = (s', Ok losses) /\
    (exists l', losses = l' ++ [r_loss r]) /\ r_theta r = theta (s_w s') /\ r_intercept r = intercept (s_w s') /\
    r_lam r = (if xlt (Fin 0) rho then lam (s_w s') else [0%R]).
Proof.
  intros H. unfold Solver_Model.solve in H. steps H. destruct opt; [|discriminate]. injection E as <- _. split; [reflexivity|].
  steps H. unfold read in H. steps H. injection E0 as <- <-. steps H. unfold last_item in E0.
  destruct (rev a0) as [|x rl] eqn:Er; [discriminate|]. injection E0 as <- <-. unfold ret in H. injection H as <- <-. simpl.
  exists a0. split; [exact E|]. split; [|auto]. exists (rev rl). rewrite <- (rev_involutive a0), Er. reflexivity.
Qed.

Lemma solve_log pres opt rho (s s' : st) r :
  solve pres opt rho s = (s', Ok r) ->
  exists tr, s_log s' = s_log s ++ tr /\ (exists l, recorded tr = l ++ [r_loss r]) /\ s_erm s' = false /\ s_imp s' = s_imp s.
Proof.
  intros H. apply solve_spec in H as (_ & losses & H & [l' Hl] & _). destruct pres.
  - apply presample_spec in H as (after & L1 & L2 & _ & _ & _ & _ & L3 & L4 & _).
    eexists. split; [exact L1|]. split; [|auto]. exists l'. rewrite recorded_app, recorded_repeat. simpl. congruence.
  - apply postsample_spec in H as (before & after & L1 & _ & L2 & _ & _ & _ & _ & _ & _ & L3 & L4 & _).
    eexists. split; [exact L1|]. split; [|auto]. exists l'. congruence.
Qed.

(* nothing recorded: no result *)
Lemma nothing_recorded (pres : bool) rho (s s1 : st) : 
  (if pres then optim_presample else optim_postsample) s = (s1, Ok (@nil xr)) -> snd (solve pres true rho s) = Raise IndexError.
Proof.
  intros H. unfold Solver_Model.solve, Solver_Model.bnd at 1. cbv beta iota. unfold Solver_Model.bnd at 1. rewrite H. reflexivity.
Qed.

Lemma presample_no_training (s s1 : st) l : (train_steps n_iter <= 0)%Z -> optim_presample s = (s1, Ok l) -> l = [].
Proof.
  intros Hn H. apply presample_spec in H as (after & _ & L2 & L3 & L4 & _). unfold train_n in L4. rewrite <- train_is_snd in L4.
  replace (Z.to_nat (train_steps n_iter)) with 0%nat in L4 by lia. rewrite L3, L2 in L4. destruct l; [reflexivity|simpl in L4; lia].
Qed.

(* ---- flags on every path, exceptions included ---- *)
Definition keeps_imp {A} (m : M W A) : Prop := forall s, s_imp (fst (m s)) = s_imp s.
Lemma keeps_bnd {A B} (m : M W A) (k : A -> M W B) : keeps_imp m -> (forall a, keeps_imp (k a)) -> keeps_imp (bnd m k).
Proof.
  intros H1 H2 s. unfold Solver_Model.bnd. specialize (H1 s). destruct (m s) as [s1 [a|e]]; simpl in *; [|exact H1]. rewrite (H2 a s1). exact H1.
Qed.
Lemma keeps_ret {A} (a : A) : keeps_imp (ret W a). Proof. intros s; reflexivity. Qed.
Lemma keeps_log e : keeps_imp (log W e). Proof. intros s; reflexivity. Qed.
Lemma keeps_erm b : keeps_imp (set_erm W b). Proof. intros s; reflexivity. Qed.
Lemma keeps_run f : keeps_imp (run W f). Proof. intros s. unfold run. destruct (f (s_w s)) as [w [e|]]; reflexivity. Qed.
Lemma keeps_ask {A} (f : W -> W * Result A) : keeps_imp (ask W f). Proof. intros s. unfold ask. destruct (f (s_w s)); reflexivity. Qed.
Hint Resolve keeps_ret keeps_log keeps_erm keeps_run keeps_ask : keeps.

Lemma keeps_dep {A} (m : st -> M W A) : (forall s, keeps_imp (m s)) -> keeps_imp (fun s => m s s).
Proof. intros H s. apply (H s). Qed.
Lemma keeps_step_closure : keeps_imp step_closure.
Proof. unfold Solver_Model.step_closure. apply (keeps_dep (fun s => bnd _ _)). intros s. apply keeps_bnd; auto with keeps. Qed.
Lemma keeps_closure b : keeps_imp (closure b).
Proof.
  unfold Solver_Model.closure. apply keeps_bnd; [destruct b; auto with keeps|]. intros _.
  apply (keeps_dep (fun s => bnd _ _)). intros s. apply keeps_bnd; auto with keeps.
Qed.
Lemma keeps_post_step : keeps_imp post_step.
Proof.
  unfold Solver_Model.post_step. apply keeps_bnd; auto with keeps. intros _. apply keeps_bnd.
  - apply (keeps_dep (fun s => bnd _ _)). intros s. apply keeps_bnd; auto with keeps.
  - intros x. apply keeps_bnd; auto with keeps. intros _. apply keeps_bnd; auto with keeps.
    + apply (keeps_dep (fun s => log W _)). auto with keeps.
    + intros _. apply keeps_bnd; auto with keeps.
Qed.
Lemma keeps_stop it x : keeps_imp (stop_test W cond it x).
Proof. unfold stop_test. destruct (isnan x); auto with keeps. apply keeps_bnd; auto with keeps. intros b. apply keeps_bnd; auto with keeps. Qed.
Lemma keeps_post_body it : keeps_imp (post_body it).
Proof. unfold Solver_Model.post_body. apply keeps_bnd; [apply keeps_post_step|]. intros x. apply keeps_bnd; [apply keeps_stop|]. auto with keeps. Qed.

Lemma keeps_pre_body it : metric_grad = true -> keeps_imp (pre_body it).
Proof.
  intros Hm s. unfold Solver_Model.pre_body. rewrite Hm. revert s. change (keeps_imp (bnd step_closure (fun _ =>
    bnd (bnd (get_imp W) (fun is => bnd (closure true) (fun x => bnd (set_imp W is) (fun _ => ret W x))))
     (fun x => bnd (log W (ELoss x)) (fun _ => bnd (stop_test W cond it x) (fun b => ret W (x, b))))))).
  apply keeps_bnd; [apply keeps_step_closure|]. intros _. apply keeps_bnd.
  - intros s. unfold get_imp, Solver_Model.bnd. cbv beta iota. pose proof (keeps_closure true s) as K.
    destruct (closure true s) as [s1 [x|e]]; simpl in *; [reflexivity|exact K].
  - intros x. apply keeps_bnd; auto with keeps. intros _. apply keeps_bnd; [apply keeps_stop|]. auto with keeps.
Qed.

Lemma keeps_loop body : (forall it, keeps_imp (body it)) -> forall n it l, keeps_imp (loop body it n l).
Proof.
  intros H. induction n as [|n IH]; intros it l; cbn [Solver_Model.loop]; auto with keeps.
  apply keeps_bnd; [apply H|]. intros [x b]. destruct b; auto with keeps.
Qed.
Lemma keeps_pretrain n : forall l, keeps_imp (pretrain_post n l).
Proof. induction n as [|n IH]; intros l; cbn [Solver_Model.pretrain_post]; auto with keeps. apply keeps_bnd; [apply keeps_post_step|]. auto. Qed.
Lemma keeps_repeat n m : keeps_imp m -> keeps_imp (repeat_m W n m).
Proof. intros H. induction n as [|n IH]; cbn [Solver_Model.repeat_m]; auto with keeps. apply keeps_bnd; auto. Qed.

Lemma keeps_reset : keeps_imp reset_lbd.
Proof. unfold Solver_Model.reset_lbd. destruct reset; [apply keeps_bnd|]; auto with keeps. Qed.
Hint Resolve keeps_reset : keeps.
Lemma keeps_reset_if : keeps_imp (fun s => (if s_erm s then reset_lbd else ret W tt) s).
Proof. apply (keeps_dep (fun s => if s_erm s then reset_lbd else ret W tt)). intros s. destruct (s_erm s); auto with keeps. Qed.
Hint Resolve keeps_reset_if : keeps.
Lemma keeps_postsample : keeps_imp optim_postsample.
Proof.
  unfold Solver_Model.optim_postsample. destruct (interpret_steps n_iter) as [pre tr]. apply keeps_bnd; auto with keeps. intros _.
  apply keeps_bnd; [apply keeps_pretrain|]. intros l. apply keeps_bnd; auto with keeps. intros _. apply keeps_bnd; auto with keeps. intros _.
  apply keeps_bnd; auto with keeps. intros _. apply keeps_bnd; auto with keeps. intros _. apply keeps_loop. apply keeps_post_body.
Qed.
Lemma keeps_presample : metric_grad = true -> keeps_imp optim_presample.
Proof.
  intros Hm. unfold Solver_Model.optim_presample. apply keeps_bnd; auto with keeps. intros _. destruct (interpret_steps n_iter) as [pre tr].
  apply keeps_bnd; auto with keeps. intros _. apply keeps_bnd; [apply keeps_repeat, keeps_step_closure|]. intros _.
  apply keeps_bnd; auto with keeps. intros _. apply keeps_bnd; auto with keeps. intros _.
  apply keeps_bnd; auto with keeps. intros _. apply keeps_bnd; auto with keeps. intros _. apply keeps_loop. intros it. apply keeps_pre_body, Hm.
Qed.

Lemma imp_survives pres opt rho : pres = false \/ metric_grad = true -> keeps_imp (solve pres opt rho).
Proof.
  intros H. unfold Solver_Model.solve. apply keeps_bnd; [intros s; reflexivity|]. intros _.
  apply keeps_bnd. { destruct pres; [apply keeps_presample; destruct H; [discriminate|assumption]|apply keeps_postsample]. }
  intros l. apply keeps_bnd; [intros s; reflexivity|]. intros w. apply keeps_bnd; [intros s; reflexivity|]. auto with keeps.
Qed.

(* ---- the value recorded last ---- *)
Lemma loop_last body : body_spec body -> forall n it losses s s' l,
  s_erm s = false -> loop body it n losses s = (s', Ok l) ->
  (l = losses /\ s' = s) \/
  exists it' s1 x b l', l = l' ++ [x] /\ body it' s1 = (s', Ok (x, b)) /\ s_erm s1 = false /\ s_imp s1 = s_imp s.
Proof.
  intros Hb. induction n as [|n IH]; intros it losses s s' l He H; cbn [Solver_Model.loop] in H.
  - unfold ret in H. injection H as <- <-. left. auto.
  - steps H. destruct a as [x b]. destruct (Hb it s s0 x b He E) as (A1 & B1 & _). right. destruct b.
    + unfold ret in H. injection H as <- <-. exists it, s, x, true, losses. auto.
    + destruct (IH _ _ _ _ _ A1 H) as [[-> ->]|(it' & s1 & x' & b & l' & K1 & K2 & K3 & K4)].
      * exists it, s, x, false, losses. auto.
      * exists it', s1, x', b, l'. repeat split; auto. congruence.
Qed.

Definition same_params (w w' : W) : Prop := theta w' = theta w /\ intercept w' = intercept w /\ lam w' = lam w.
Lemma same_trans a b c : same_params a b -> same_params b c -> same_params a c.
Proof. intros (H1 & H2 & H3) (K1 & K2 & K3). repeat split; congruence. Qed.

Lemma stop_params it x (s s' : st) b : (forall i w, same_params w (fst (cond i w))) ->
  stop_test W cond it x s = (s', Ok b) -> same_params (s_w s) (s_w s').
Proof.
  intros Hc H. unfold stop_test in H. destruct (isnan x).
  - unfold ret in H. injection H as <- _. repeat split.
  - steps H. steps H. apply log_ok in E0 as (_ & _ & _ & D). unfold ret in H. injection H as <- _. rewrite D.
    unfold ask in E. specialize (Hc it (s_w s)). destruct (cond it (s_w s)) as [w r]. injection E as <- _. exact Hc.
Qed.

(* the loss is evaluated after the last step, at the parameters that are returned *)
Lemma pre_body_value it (s s' : st) x b : 
  (forall i w, same_params w (fst (cond i w))) -> (forall e i k w, same_params w (fst (fwd e i k w))) ->
  s_erm s = false -> pre_body it s = (s', Ok (x, b)) ->
  exists w, same_params w (s_w s') /\ snd (fwd false (metric_grad && s_imp s) metric_grad w) = Ok x.
Proof.
  intros Hc Hf He H. unfold Solver_Model.pre_body in H. steps H. apply step_closure_ok in E as (A1 & B1 & C1).
  steps H.
  assert (Hm : exists w, same_params w (s_w s1) /\ snd (fwd false (metric_grad && s_imp s) metric_grad w) = Ok a0).
  { assert (K : forall e i k w w' x', closure_w W fwd zero_grad e i k w = (w', Ok x') -> exists w1, same_params w1 w' /\ snd (fwd e i k w1) = Ok x').
    { intros e i k w w' x' Hk. unfold closure_w in Hk. destruct (zero_grad w) as [w1 [ee|]]; [discriminate|]. exists w1.
      rewrite Hk. split; [|reflexivity]. specialize (Hf e i k w1). rewrite Hk in Hf. exact Hf. }
    destruct metric_grad; steps E; unfold get_imp in E0; injection E0 as <- <-.
    - steps E. apply closure_ok in E0 as (A2 & B2 & C2 & w & Ew & _). steps E. apply imp_ok in E0 as (_ & _ & _ & D).
      unfold ret in E. injection E as <- <-. rewrite D. rewrite A1, He, B1 in Ew. exact (K _ _ _ _ _ _ Ew).
    - steps E. apply imp_ok in E0 as (A2 & B2 & C2 & D2). steps E. apply closure_ok in E0 as (A3 & B3 & C3 & w & Ew & _).
      steps E. apply imp_ok in E0 as (_ & _ & _ & D). unfold ret in E. injection E as <- <-. rewrite D. rewrite B2 in Ew. exact (K _ _ _ _ _ _ Ew). }
  destruct Hm as (w & Hw & Hx). steps H. apply log_ok in E0 as (_ & _ & _ & D). steps H. unfold ret in H. injection H as <- <- <-.
  exists w. split; [|exact Hx]. apply same_trans with (s_w s1); [exact Hw|]. rewrite <- D. exact (stop_params _ _ _ _ _ Hc E0).
Qed.

Lemma presample_value rho (s s' : st) r :
  (forall i w, same_params w (fst (cond i w))) -> (forall e i k w, same_params w (fst (fwd e i k w))) ->
  solve true true rho s = (s', Ok r) ->
  exists w, same_params w (s_w s') /\ snd (fwd false (metric_grad && s_imp s) metric_grad w) = Ok (r_loss r).
Proof.
  intros Hc Hf H. apply solve_spec in H as (_ & losses & H & [l' Hl] & _).
  unfold Solver_Model.optim_presample in H. steps H. apply run_ok in E as (A0 & B0 & C0).
  destruct (interpret_steps n_iter) as [pre tr0].
  steps H. apply erm_ok in E as (A1 & B1 & C1). steps H. apply repeat_steps in E as (L1 & L2 & L3).
  steps H. apply run_ok in E as (A2 & B2 & C2). steps H. apply log_ok in E as (A3 & B3 & C3 & _). steps H.
  apply erm_ok in E as (A4 & B4 & C4). steps H. apply reset_ok in E as (A5 & B5 & C5).
  assert (He : s_erm s6 = false) by congruence.
  destruct (loop_last _ pre_body_spec _ _ _ _ _ _ He H) as [[-> _]|(it & s1' & x & b & l2 & K1 & K2 & K3 & K4)].
  - destruct l'; discriminate.
  - rewrite Hl in K1. apply app_inj_tail in K1 as [_ ->].
    destruct (pre_body_value _ _ _ _ _ Hc Hf K3 K2) as (w & Hw & Hx). exists w. split; [exact Hw|].
    replace (s_imp s) with (s_imp s1') by congruence. exact Hx.
Qed.

(* ---- statements used by Props_Solver ---- *)
Lemma no_end_all tr n : (n_steps tr <= n)%nat -> ((n_steps tr < n)%nat -> exists tr' e, tr = tr' ++ [e] /\ ends e) ->
  Forall (fun e => ~ ends e) tr -> n_steps tr = n.
Proof.
  intros H1 H2 H3. destruct (Nat.eq_dec (n_steps tr) n) as [|Hn]; [assumption|]. destruct H2 as (tr' & e & -> & He); [lia|].
  apply Forall_app in H3 as [_ H3]. inversion H3; subst. contradiction.
Qed.

Lemma post_steps rho (s s' : st) r : solve false true rho s = (s', Ok r) ->
  exists before after, s_log s' = s_log s ++ before ++ EGuess :: after /\
    n_steps before = pre_n /\ List.length (recorded before) = pre_n /\
    n_steps after = List.length (recorded after) /\ (n_steps after <= train_n)%nat /\
    (Forall (fun e => ~ ends e) after -> n_steps after = train_n).
Proof.
  intros H. apply solve_spec in H as (_ & losses & H & _). apply postsample_spec in H as (b & a & H1 & _ & _ & H2 & H3 & H4 & H5 & H6 & _).
  exists b, a. repeat split; auto. apply no_end_all; assumption.
Qed.
Lemma pre_steps rho (s s' : st) r : solve true true rho s = (s', Ok r) ->
  exists before after, s_log s' = s_log s ++ before ++ EGuess :: after /\
    n_steps before = pre_n /\ recorded before = [] /\
    n_steps after = List.length (recorded after) /\ (n_steps after <= train_n)%nat /\
    (Forall (fun e => ~ ends e) after -> n_steps after = train_n).
Proof.
  intros H. apply solve_spec in H as (_ & losses & H & _). apply presample_spec in H as (a & H1 & _ & H4 & H5 & H6 & _).
  eexists _, a. split; [exact H1|]. rewrite n_steps_repeat, recorded_repeat. repeat split; auto. apply no_end_all; assumption.
Qed.

Lemma solve_result pres opt rho (s s' : st) r : solve pres opt rho s = (s', Ok r) ->
  (exists tr l, s_log s' = s_log s ++ tr /\ recorded tr = l ++ [r_loss r]) /\
  r_theta r = theta (s_w s') /\ r_intercept r = intercept (s_w s') /\
  (xlt (Fin 0) rho = true -> r_lam r = lam (s_w s')) /\ (xlt (Fin 0) rho = false -> r_lam r = [0%R]).
Proof.
  intros H. destruct (solve_log _ _ _ _ _ _ H) as (tr & H1 & [l H2] & _). apply solve_spec in H as (_ & _ & _ & _ & H3 & H4 & H5).
  split; [exists tr, l; auto|]. repeat split; auto; intros E; rewrite E in H5; exact H5.
Qed.

Lemma no_iterations pres rho (s : st) : (train_steps n_iter <= 0)%Z -> (pres = false -> (fst (interpret_steps n_iter) <= 0)%Z) ->
  is_ok (snd (solve pres true rho s)) = false.
Proof.
  intros Hn Hp. destruct (solve pres true rho s) as [s' [r|e]] eqn:E; [|reflexivity]. exfalso.
  apply solve_spec in E as (_ & l & H & [l' Hl] & _). destruct pres.
  - apply presample_no_training in H; [|exact Hn]. subst. destruct l'; discriminate.
  - apply postsample_spec in H as (b & a & _ & _ & H2 & H3 & H4 & H5 & H6 & _). specialize (Hp eq_refl).
    unfold pre_n, train_n in *. rewrite <- train_is_snd in H6.
    replace (Z.to_nat (train_steps n_iter)) with 0%nat in H6 by lia. replace (Z.to_nat (fst (interpret_steps n_iter))) with 0%nat in * by lia.
    rewrite recorded_app in H2. simpl in H2. destruct (recorded b); [|discriminate]. destruct (recorded a); [|simpl in H5; lia]. subst. destruct l'; discriminate.
Qed.

Lemma nan_stops pres rho (s s' : st) r : solve pres true rho s = (s', Ok r) ->
  exists before after, s_log s' = s_log s ++ before ++ EGuess :: after /\ ~ In EGuess before /\
    forall a b, after = a ++ ELoss NaN :: b -> b = [].
Proof.
  intros H. apply solve_spec in H as (_ & losses & H & _). destruct pres.
  - apply presample_spec in H as (a & H1 & _ & _ & _ & _ & H6 & _). eexists _, a. split; [exact H1|]. split.
    + intros K. apply repeat_spec in K. discriminate.
    + intros a' b E. apply (H6 a' _ b E). left. reflexivity.
  - apply postsample_spec in H as (b & a & H1 & H2 & _ & _ & _ & _ & _ & _ & H6 & _). exists b, a. split; [exact H1|]. split; [exact H2|].
    intros a' b' E. apply (H6 a' _ b' E). left. reflexivity.
Qed.

Lemma flags_after pres opt rho (s s' : st) r : solve pres opt rho s = (s', Ok r) -> s_imp s' = s_imp s /\ s_erm s' = false.
Proof. intros H. apply solve_log in H as (_ & _ & _ & H1 & H2). auto. Qed.

Lemma pretraining_modes pres rho (s s' : st) r : solve pres true rho s = (s', Ok r) ->
  exists before after, s_log s' = s_log s ++ before ++ EGuess :: after /\ n_steps before = pre_n /\
    Forall (fun e => match e with EStep erm _ => erm = pres | _ => True end) before /\
    Forall (fun e => match e with EStep erm _ => erm = false | _ => True end) after.
Proof.
  intros H. apply solve_spec in H as (_ & losses & H & _). destruct pres.
  - apply presample_spec in H as (a & H1 & _ & _ & _ & _ & _ & _ & _ & H7). eexists _, a. split; [exact H1|]. split; [apply n_steps_repeat|]. split.
    + apply Forall_forall. intros e K. apply repeat_spec in K. subst. reflexivity.
    + eapply Forall_impl; [|exact H7]. intros []; simpl; auto.
  - apply postsample_spec in H as (b & a & H1 & _ & _ & H3 & _ & _ & _ & _ & _ & _ & _ & H7). exists b, a. split; [exact H1|]. split; [exact H3|].
    apply Forall_app in H7 as [K1 K2]. split; (eapply Forall_impl; [|eassumption]); intros []; simpl; auto.
Qed.

(* ERM mode is off on every path of the post-sampled solver *)
Definition erm_off {A} (m : M W A) : Prop := forall s, s_erm s = false -> s_erm (fst (m s)) = false.
Lemma off_bnd {A B} (m : M W A) (k : A -> M W B) : erm_off m -> (forall a, erm_off (k a)) -> erm_off (bnd m k).
Proof.
  intros H1 H2 s Hs. unfold Solver_Model.bnd. specialize (H1 s Hs). destruct (m s) as [s1 [a|e]]; simpl in *; [|exact H1]. apply (H2 a s1 H1).
Qed.
Lemma off_ret {A} (a : A) : erm_off (ret W a). Proof. intros s H; exact H. Qed.
Lemma off_log e : erm_off (log W e). Proof. intros s H; exact H. Qed.
Lemma off_set : erm_off (set_erm W false). Proof. intros s H; reflexivity. Qed.
Lemma off_run f : erm_off (run W f). Proof. intros s H. unfold run. destruct (f (s_w s)) as [w [e|]]; exact H. Qed.
Lemma off_ask {A} (f : W -> W * Result A) : erm_off (ask W f). Proof. intros s H. unfold ask. destruct (f (s_w s)); exact H. Qed.
Lemma off_dep {A} (m : st -> M W A) : (forall s, erm_off (m s)) -> erm_off (fun s => m s s).
Proof. intros H s. apply (H s). Qed.
Hint Resolve off_ret off_log off_set off_run off_ask : keeps.
Lemma off_post_step : erm_off post_step.
Proof.
  unfold Solver_Model.post_step. apply off_bnd; auto with keeps. intros _. apply off_bnd.
  - apply (off_dep (fun s => bnd _ _)). intros s. apply off_bnd; auto with keeps.
  - intros x. apply off_bnd; auto with keeps. intros _. apply off_bnd; auto with keeps.
    + apply (off_dep (fun s => log W _)). auto with keeps.
    + intros _. apply off_bnd; auto with keeps.
Qed.
Lemma off_stop it x : erm_off (stop_test W cond it x).
Proof. unfold stop_test. destruct (isnan x); auto with keeps. apply off_bnd; auto with keeps. intros b. apply off_bnd; auto with keeps. Qed.
Lemma off_post_body it : erm_off (post_body it).
Proof. unfold Solver_Model.post_body. apply off_bnd; [apply off_post_step|]. intros x. apply off_bnd; [apply off_stop|]. auto with keeps. Qed.
Lemma off_loop body : (forall it, erm_off (body it)) -> forall n it l, erm_off (loop body it n l).
Proof.
  intros H. induction n as [|n IH]; intros it l; cbn [Solver_Model.loop]; auto with keeps.
  apply off_bnd; [apply H|]. intros [x b]. destruct b; auto with keeps.
Qed.
Lemma off_pretrain n : forall l, erm_off (pretrain_post n l).
Proof. induction n as [|n IH]; intros l; cbn [Solver_Model.pretrain_post]; auto with keeps. apply off_bnd; [apply off_post_step|]. auto. Qed.
Lemma off_reset_if : erm_off (fun s => (if s_erm s then reset_lbd else ret W tt) s).
Proof. intros s H. rewrite H. exact H. Qed.
Hint Resolve off_reset_if : keeps.
Lemma postsample_erm_off rho (s : st) : s_erm (fst (solve false true rho s)) = false.
Proof.
  unfold Solver_Model.solve, Solver_Model.bnd at 1. cbv beta iota.
  set (k := fun losses : list xr => bnd (read W) _).
  assert (Hk : forall l, erm_off (k l)).
  { intros l. unfold k. apply off_bnd; [intros s0 H; exact H|]. intros w. apply off_bnd; [intros s0 H; exact H|]. auto with keeps. }
  unfold Solver_Model.optim_postsample. destruct (interpret_steps n_iter) as [pre tr].
  assert (E : forall (B : Type) (m : M W B), erm_off m -> s_erm (fst (bnd (set_erm W false) (fun _ => m) s)) = false).
  { intros B m Hm. unfold Solver_Model.bnd, set_erm. apply Hm. reflexivity. }
  set (m1 := bnd (pretrain_post (Z.to_nat pre) []) _).
  assert (H1 : erm_off m1).
  { unfold m1. apply off_bnd; [apply off_pretrain|]. intros l. apply off_bnd; auto with keeps. intros _. apply off_bnd; auto with keeps. intros _.
    apply off_bnd; auto with keeps. intros _. apply off_bnd; auto with keeps. intros _. apply off_loop. apply off_post_body. }
  specialize (E _ m1 H1). change (fun _ : unit => m1) with (fun _ : unit => m1) in E.
  unfold Solver_Model.bnd at 1. destruct (bnd (set_erm W false) (fun _ => m1) s) as [s1 [l|e]]; simpl in *; [|exact E].
  exact (Hk l s1 E).
Qed.
(* ---- the reset of the multiplier's optimiser, on every path ---- *)
Definition quiet {A} (m : M W A) : Prop := forall s, exists tr, s_log (fst (m s)) = s_log s ++ tr /\ ~ In EReset tr.
Lemma quiet_bnd {A B} (m : M W A) (k : A -> M W B) : quiet m -> (forall a, quiet (k a)) -> quiet (bnd m k).
Proof.
  intros H1 H2 s. unfold Solver_Model.bnd. destruct (H1 s) as (t1 & E1 & N1). destruct (m s) as [s1 [a|e]]; simpl in *.
  - destruct (H2 a s1) as (t2 & E2 & N2). exists (t1 ++ t2). rewrite E2, E1, app_assoc. split; [reflexivity|]. rewrite in_app_iff. tauto.
  - exists t1. auto.
Qed.
Lemma quiet_same {A} (m : M W A) : (forall s, s_log (fst (m s)) = s_log s) -> quiet m.
Proof. intros H s. exists []. rewrite app_nil_r. auto. Qed.
Lemma quiet_ret {A} (a : A) : quiet (ret W a). Proof. apply quiet_same. reflexivity. Qed.
Lemma quiet_log e : e <> EReset -> quiet (log W e).
Proof. intros H s. exists [e]. split; [reflexivity|]. intros [K|[]]. contradiction. Qed.
Lemma quiet_erm b : quiet (set_erm W b). Proof. apply quiet_same. reflexivity. Qed.
Lemma quiet_imp b : quiet (set_imp W b). Proof. apply quiet_same. reflexivity. Qed.
Lemma quiet_get : quiet (get_imp W). Proof. apply quiet_same. reflexivity. Qed.
Lemma quiet_run f : quiet (run W f). Proof. apply quiet_same. intros s. unfold run. destruct (f (s_w s)) as [w [e|]]; reflexivity. Qed.
Lemma quiet_ask {A} (f : W -> W * Result A) : quiet (ask W f). Proof. apply quiet_same. intros s. unfold ask. destruct (f (s_w s)); reflexivity. Qed.
Lemma quiet_dep {A} (m : st -> M W A) : (forall s, quiet (m s)) -> quiet (fun s => m s s).
Proof. intros H s. apply (H s). Qed.
Hint Resolve quiet_ret quiet_erm quiet_imp quiet_get quiet_run quiet_ask : quiet.
Hint Extern 1 (quiet (log W _)) => (apply quiet_log; discriminate) : quiet.
Hint Extern 3 (quiet (bnd _ _)) => (apply quiet_bnd; [|intros]) : quiet.
Lemma quiet_step_closure : quiet step_closure.
Proof. unfold Solver_Model.step_closure. apply (quiet_dep (fun s => bnd _ _)). auto with quiet. Qed.
Lemma quiet_closure b : quiet (closure b).
Proof.
  unfold Solver_Model.closure. apply quiet_bnd; [destruct b; auto with quiet|]. intros _.
  apply (quiet_dep (fun s => bnd _ _)). auto with quiet.
Qed.
Lemma quiet_post_step : quiet post_step.
Proof.
  unfold Solver_Model.post_step. apply quiet_bnd; auto with quiet. intros _. apply quiet_bnd.
  - apply (quiet_dep (fun s => bnd _ _)). auto with quiet.
  - intros x. apply quiet_bnd; auto with quiet. intros _. apply quiet_bnd; auto with quiet.
    apply (quiet_dep (fun s => log W _)). auto with quiet.
Qed.
Lemma quiet_stop it x : quiet (stop_test W cond it x).
Proof. unfold stop_test. destruct (isnan x); auto with quiet. Qed.
Hint Resolve quiet_step_closure quiet_closure quiet_post_step quiet_stop : quiet.
Lemma quiet_post_body it : quiet (post_body it).
Proof. unfold Solver_Model.post_body. auto with quiet. Qed.
Lemma quiet_pre_body it : quiet (pre_body it).
Proof. unfold Solver_Model.pre_body. apply quiet_bnd; auto with quiet. intros _. apply quiet_bnd; auto with quiet. destruct metric_grad; auto 10 with quiet. Qed.
Lemma quiet_loop body : (forall it, quiet (body it)) -> forall n it l, quiet (loop body it n l).
Proof.
  intros H. induction n as [|n IH]; intros it l; cbn [Solver_Model.loop]; auto with quiet.
  apply quiet_bnd; [apply H|]. intros [x b]. destruct b; auto with quiet.
Qed.
Lemma quiet_pretrain n : forall l, quiet (pretrain_post n l).
Proof. induction n as [|n IH]; intros l; cbn [Solver_Model.pretrain_post]; auto with quiet. Qed.
Lemma quiet_repeat n m : quiet m -> quiet (repeat_m W n m).
Proof. intros H. induction n as [|n IH]; cbn [Solver_Model.repeat_m]; auto with quiet. Qed.

Definition post_plain (s : st) : st * Result (list xr) :=
  let '(pre, _) := interpret_steps n_iter in
  (bnd (set_erm W false) (fun _ => bnd (pretrain_post (Z.to_nat pre) []) (fun losses => bnd (run W guess) (fun _ =>
   bnd (log W EGuess) (fun _ => bnd (set_erm W false) (fun _ => loop post_body 0 (Z.to_nat (train_steps n_iter)) losses)))))) s.
Lemma bnd_cong {A B} (m : M W A) (k k' : A -> M W B) s :
  (forall s1 a, m s = (s1, Ok a) -> k a s1 = k' a s1) -> bnd m k s = bnd m k' s.
Proof. intros H. unfold Solver_Model.bnd. destruct (m s) as [s1 [a|e]]; auto. Qed.
Lemma postsample_plain (s : st) : optim_postsample s = post_plain s.
Proof.
  unfold Solver_Model.optim_postsample, post_plain. destruct (interpret_steps n_iter) as [pre tr].
  apply bnd_cong. intros s1 a E. apply erm_ok in E as (A1 & _).
  apply bnd_cong. intros s2 l E. apply pretrain_post_spec in E as (_ & _ & _ & _ & _ & _ & _ & A2 & _).
  apply bnd_cong. intros s3 u E. apply run_ok in E as (A3 & _).
  apply bnd_cong. intros s4 v E. apply log_ok in E as (A4 & _).
  unfold Solver_Model.bnd at 1. replace (s_erm s4) with false by congruence. reflexivity.
Qed.

Lemma postsample_never_resets opt rho (s : st) : exists tr, s_log (fst (solve false opt rho s)) = s_log s ++ tr /\ ~ In EReset tr.
Proof.
  revert s. change (quiet (solve false opt rho)). unfold Solver_Model.solve. apply quiet_bnd; [apply quiet_same; reflexivity|]. intros _.
  apply quiet_bnd.
  - intros s. rewrite postsample_plain. revert s. change (quiet post_plain). unfold post_plain. destruct (interpret_steps n_iter) as [pre tr].
    apply quiet_bnd; auto with quiet. intros _. apply quiet_bnd; [apply quiet_pretrain|]. intros l. apply quiet_bnd; auto with quiet.
    intros _. apply quiet_bnd; auto with quiet. intros _. apply quiet_bnd; auto with quiet. intros _. apply quiet_loop, quiet_post_body.
  - intros l. apply quiet_bnd; [apply quiet_same; reflexivity|]. intros w. apply quiet_bnd; [apply quiet_same; reflexivity|]. auto with quiet.
Qed.

Lemma presample_resets rho (s s' : st) r : solve true true rho s = (s', Ok r) ->
  exists pretraining robust, s_log s' = s_log s ++ pretraining ++ EGuess :: resets ++ robust /\
    ~ In EReset pretraining /\ ~ In EGuess pretraining /\ ~ In EReset robust /\ n_steps pretraining = pre_n /\ (0 < n_steps robust)%nat.
Proof.
  intros H. pose proof H as H'. apply solve_spec in H as (_ & losses & H & [l' Hl] & _).
  unfold Solver_Model.optim_presample in H. steps H. apply run_ok in E as (A0 & B0 & C0). unfold pre_n.
  destruct (interpret_steps n_iter) as [pre tr0]. cbn [fst].
  steps H. apply erm_ok in E as (A1 & B1 & C1). steps H. apply repeat_steps in E as (L1 & L2 & L3).
  steps H. apply run_ok in E as (A2 & B2 & C2). steps H. apply log_ok in E as (A3 & B3 & C3 & _). steps H.
  apply erm_ok in E as (A4 & B4 & C4). steps H. apply reset_ok in E as (A5 & B5 & C5).
  assert (He : s_erm s6 = false) by congruence.
  destruct (loop_spec _ pre_body_spec _ _ _ _ _ _ He H) as (tr2 & xs2 & K1 & K2 & K3 & K4 & _).
  destruct (quiet_loop _ quiet_pre_body (Z.to_nat (train_steps n_iter)) 0%Z [] s6) as (tr3 & Q1 & Q2). rewrite H in Q1. cbn [fst] in Q1.
  rewrite K1 in Q1. apply app_inv_head in Q1. subst tr3.
  exists (repeat (EStep true (s_imp s)) (Z.to_nat pre)), tr2.
  split. { rewrite K1, C5, C4, C3, C2, L1, C1, C0, A1, B1, B0, <- !app_assoc. reflexivity. }
  split; [intros K; apply repeat_spec in K; discriminate|]. split; [intros K; apply repeat_spec in K; discriminate|].
  split; [exact Q2|]. split; [apply n_steps_repeat|]. rewrite K4. simpl in K2. rewrite K2 in Hl. rewrite Hl, app_length. simpl. lia.
Qed.
End S.

Lemma postsample_ignores_reset W fwd step_with zero_grad plain_step generate guess r1 r2 cond metric_grad n_iter theta intercept lam opt rho s :
  solve W fwd step_with zero_grad plain_step generate guess r1 cond metric_grad n_iter theta intercept lam false opt rho s =
  solve W fwd step_with zero_grad plain_step generate guess r2 cond metric_grad n_iter theta intercept lam false opt rho s.
Proof.
  unfold solve, Solver_Model.bnd. destruct opt; [|reflexivity]. rewrite !postsample_plain. reflexivity.
Qed.

(* a small world for the examples: one integer parameter, the loss is its value (not a number once it is 0), each step decreases it by 1 *)
Definition toy_fwd (e i k : bool) (w : Z) : Z * Result xr := (w, Ok (if (w <=? 0)%Z then NaN else Fin (IZR w))).
Definition toy_step (clo : Z -> Z * Result xr) (w : Z) : Z * option exn := ((w - 1)%Z, None).
Definition toy_plain (w : Z) : Z * option exn := ((w - 1)%Z, None).
Definition toy_nop (w : Z) : Z * option exn := (w, None).
Definition toy_cond (it : Z) (w : Z) : Z * Result bool := (w, Ok false).
Definition toy (grad : bool) (n : steps) (pres : bool) (w : Z) :=
  solve Z toy_fwd toy_step toy_nop toy_plain toy_nop toy_nop (Some toy_nop) toy_cond grad n
    (fun w => [IZR w]) (fun _ => None) (fun w => [IZR (2 * w)]) pres true PInf {| s_w := w; s_erm := false; s_imp := true; s_log := [] |}.

Ltac run_toy t :=
  let v := eval vm_compute in t in
  match v with (?s, Ok ?r) => exists s, r end; split; [vm_compute; reflexivity|]; vm_compute.
