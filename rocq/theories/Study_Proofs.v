From Coq Require Import Reals List Bool ZArith Lra Lia.
From Verif Require Import PyBase XReal OptCond_Model Solver_Model Solver_Spec Solver_Proofs Study_Model.
Import ListNotations.

Section S.
Variable W : Type.
Variable fwd : bool -> bool -> bool -> W -> W * Result xr.
Variable step_with : (W -> W * Result xr) -> W -> W * option exn.
Variables zero_grad plain_step generate guess : W -> W * option exn.
Variable reset : option (W -> W * option exn).
Variable cond : Z -> W -> W * Result bool.
Variable n_iter : steps.
Variables pos_grad lam_grad lam_item : W -> Result xr.
Variables open_figure draw_curves : W -> W * option exn.
Variables (theta : W -> list R) (intercept : W -> option (list R)) (lam : W -> list R).
Notation st := (st W).
Notation bnd := (bnd W).
Notation study_step := (study_step W fwd zero_grad plain_step).
Notation study_pretrain := (study_pretrain W fwd zero_grad plain_step pos_grad).
Notation study_loop := (study_loop W fwd zero_grad plain_step cond pos_grad lam_grad lam_item).
Notation study_postsample := (study_postsample W fwd zero_grad plain_step guess reset cond n_iter pos_grad lam_grad lam_item).
Notation study := (study W fwd step_with zero_grad plain_step generate guess reset cond n_iter pos_grad lam_grad lam_item open_figure draw_curves theta intercept lam).

Ltac steps H := let s := fresh "s" in let a := fresh "a" in let E := fresh "E" in apply bnd_ok in H; destruct H as (s & a & E & H).

Lemma presample_never opt rho (s : st) : is_ok (snd (study true opt rho s)) = false.
Proof.
  destruct (study true opt rho s) as [s' [r|e]] eqn:E; [|reflexivity]. exfalso. unfold Study_Model.study in E.
  steps E. steps E. steps E. steps E. unfold lift in E. discriminate.
Qed.

Lemma look_ok f (s s' : st) x : look W f s = (s', Ok x) -> s' = s /\ f (s_w s) = Ok x.
Proof. unfold look. intros H. injection H as -> H. auto. Qed.

Lemma study_step_ok (s s' : st) x : study_step s = (s', Ok x) ->
  s_erm s' = s_erm s /\ s_imp s' = s_imp s /\ s_log s' = s_log s ++ [EFwd (s_erm s) (s_imp s); EStep (s_erm s) (s_imp s)] /\
  exists w w', fwd (s_erm s) (s_imp s) true w = (w', Ok x).
Proof.
  unfold Study_Model.study_step. intros H. steps H. apply run_ok in E as (A1 & B1 & C1).
  steps H. steps E. apply log_ok in E0 as (A2 & B2 & C2 & _). pose proof E as E'. apply ask_ok in E as (A3 & B3 & C3).
  steps H. apply run_ok in E as (A4 & B4 & C4). steps H. apply log_ok in E as (A5 & B5 & C5 & _).
  unfold ret in H. injection H as <- <-. split; [congruence|]. split; [congruence|]. split.
  - rewrite C5, C4, C3, C2, C1, <- !app_assoc. simpl. apply f_equal. rewrite A4, A3, A2, A1, B4, B3, B2, B1. reflexivity.
  - unfold ask in E'. destruct (fwd (s_erm s0) (s_imp s0) true (s_w s2)) as [w' r] eqn:Ef. injection E' as _ ->.
    rewrite A1, B1 in Ef. eauto.
Qed.

Definition steps_in (erm imp : bool) (tr : list ev) : Prop :=
  Forall (fun e => match e with EStep a b | EFwd a b => a = erm /\ b = imp | _ => True end) tr.
Lemma steps_in_app e i a b : steps_in e i a -> steps_in e i b -> steps_in e i (a ++ b).
Proof. intros. apply Forall_app. auto. Qed.

Lemma pretrain_spec n : forall c (s s' : st) c', study_pretrain n c s = (s', Ok c') ->
  exists tr, s_log s' = s_log s ++ tr /\ n_steps tr = n /\ List.length (recorded tr) = n /\
    c_loss c' = c_loss c ++ recorded tr /\ c_lgrad c' = c_lgrad c /\ c_lam c' = c_lam c /\
    List.length (c_tgrad c') = (List.length (c_tgrad c) + n)%nat /\
    s_erm s' = s_erm s /\ s_imp s' = s_imp s /\ steps_in (s_erm s) (s_imp s) tr /\ ~ In EGuess tr.
Proof.
  induction n as [|n IH]; intros c s s' c' H; cbn [Study_Model.study_pretrain] in H.
  - unfold ret in H. injection H as <- <-. exists []. simpl. rewrite !app_nil_r, Nat.add_0_r. repeat split; auto. constructor.
  - steps H. apply study_step_ok in E as (A1 & B1 & C1 & _). steps H. apply log_ok in E as (A2 & B2 & C2 & _).
    steps H. apply look_ok in E as [-> _]. apply IH in H as (tr & L1 & L2 & L3 & L4 & L5 & L6 & L7 & L8 & L9 & L10 & L11).
    cbn [c_loss c_lgrad c_tgrad c_lam] in *.
    exists ([EFwd (s_erm s) (s_imp s); EStep (s_erm s) (s_imp s); ELoss a] ++ tr). repeat split.
    + rewrite L1, C2, C1, <- !app_assoc. reflexivity.
    + rewrite n_steps_app, L2. reflexivity.
    + rewrite recorded_app. simpl. congruence.
    + rewrite L4, recorded_app, <- app_assoc. reflexivity.
    + exact L5.
    + exact L6.
    + rewrite L7, app_length. simpl. lia.
    + congruence.
    + congruence.
    + apply steps_in_app; [repeat constructor|]. rewrite <- A1, <- B1, <- A2, <- B2. exact L10.
    + intros K. apply in_app_or in K as [K|K]; [|exact (L11 K)]. simpl in K. repeat (destruct K as [K|K]; [discriminate|]). exact K.
Qed.

Definition stopped (tr : list ev) : Prop := exists it, In (ECond it true) tr.
Lemma loop_study n : forall it c (s s' : st) c', study_loop it n c s = (s', Ok c') ->
  exists tr, s_log s' = s_log s ++ tr /\ (n_steps tr <= n)%nat /\
    c_loss c' = c_loss c ++ recorded tr /\
    List.length (c_lgrad c') = (List.length (c_lgrad c) + List.length (recorded tr))%nat /\
    List.length (c_lam c') = (List.length (c_lam c) + List.length (recorded tr))%nat /\
    List.length (c_tgrad c') = (List.length (c_tgrad c) + List.length (recorded tr))%nat /\
    ((~ stopped tr /\ n_steps tr = n /\ List.length (recorded tr) = n) \/
     (exists tr' it', tr = tr' ++ [ECond it' true] /\ ~ stopped tr' /\ n_steps tr = S (List.length (recorded tr)))) /\
    Forall (fun x => exists y, x = xabs y) (recorded tr) /\
    s_erm s' = s_erm s /\ s_imp s' = s_imp s /\ steps_in (s_erm s) (s_imp s) tr /\ ~ In EGuess tr /\ ~ In EReset tr.
Proof.
  induction n as [|n IH]; intros it c s s' c' H; cbn [Study_Model.study_loop] in H.
  - unfold ret in H. injection H as <- <-. exists []. simpl. rewrite !app_nil_r, !Nat.add_0_r. repeat split; auto; try apply Forall_nil.
    left. split; [|auto]. intros [i []].
  - steps H. apply study_step_ok in E as (A1 & B1 & C1 & _). steps H. apply ask_ok in E as (A2 & B2 & C2).
    steps H. apply log_ok in E as (A3 & B3 & C3 & _).
    destruct a0.
    + unfold ret in H. injection H as <- <-.
      exists [EFwd (s_erm s) (s_imp s); EStep (s_erm s) (s_imp s); ECond it true]. cbn [recorded]. rewrite app_nil_r. simpl.
      rewrite !Nat.add_0_r. repeat split; try congruence; try apply Forall_nil.
      * rewrite C3, C2, C1, <- !app_assoc. reflexivity.
      * unfold n_steps. simpl. lia.
      * right. exists [EFwd (s_erm s) (s_imp s); EStep (s_erm s) (s_imp s)], it. split; [reflexivity|]. split; [|reflexivity].
        intros [i K]. simpl in K. repeat (destruct K as [K|K]; [discriminate|]). exact K.
      * repeat constructor.
      * intros K. repeat (destruct K as [K|K]; [discriminate|]). exact K.
      * intros K. repeat (destruct K as [K|K]; [discriminate|]). exact K.
    + steps H. apply log_ok in E as (A4 & B4 & C4 & _). steps H. apply look_ok in E as [-> _]. steps H. apply look_ok in E as [-> _].
      steps H. apply look_ok in E as [-> _].
      apply IH in H as (tr & L1 & L2 & L3 & L4 & L5 & L6 & L7 & L8 & L9 & L10 & L11 & L12 & L13).
      cbn [c_loss c_lgrad c_tgrad c_lam] in *.
      set (hd := [EFwd (s_erm s) (s_imp s); EStep (s_erm s) (s_imp s); ECond it false; ELoss (xabs a)]).
      assert (Hr : recorded (hd ++ tr) = xabs a :: recorded tr) by reflexivity.
      assert (Hs : n_steps (hd ++ tr) = S (n_steps tr)) by reflexivity.
      assert (Hst : stopped (hd ++ tr) -> stopped tr).
      { intros [i K]. exists i. apply in_app_or in K as [K|K]; [|exact K]. exfalso. simpl in K.
        repeat (destruct K as [K|K]; [discriminate|]). exact K. }
      exists (hd ++ tr). rewrite Hr, Hs. rewrite app_length in L4, L5, L6. cbn [List.length] in *. repeat split; try congruence; try lia.
      * rewrite L1, C4, C3, C2, C1. unfold hd. rewrite <- !app_assoc. reflexivity.
      * rewrite L3, <- app_assoc. reflexivity.
      * destruct L7 as [(K1 & K2 & K3)|(tr' & it' & K1 & K2 & K3)].
        -- left. split; [intros K; exact (K1 (Hst K))|]. split; congruence.
        -- right. exists (hd ++ tr'), it'. split; [rewrite K1, <- app_assoc; reflexivity|]. split; [|congruence].
           intros [i K]. apply K2. exists i. apply in_app_or in K as [K|K]; [|exact K]. exfalso. simpl in K.
           repeat (destruct K as [K|K]; [discriminate|]). exact K.
      * constructor; [eauto|exact L8].
      * apply steps_in_app; [repeat constructor|]. replace (s_erm s) with (s_erm s3) by congruence. replace (s_imp s) with (s_imp s3) by congruence. exact L11.
      * intros K. apply in_app_or in K as [K|K]; [|exact (L12 K)]. simpl in K. repeat (destruct K as [K|K]; [discriminate|]). exact K.
      * intros K. apply in_app_or in K as [K|K]; [|exact (L13 K)]. simpl in K. repeat (destruct K as [K|K]; [discriminate|]). exact K.
Qed.

Lemma study_post rho (s s' : st) r : study false true rho s = (s', Ok r) ->
  exists before after l,
    s_log s' = s_log s ++ before ++ EGuess :: resets W reset ++ after /\ ~ In EGuess before /\ ~ In EGuess after /\ ~ In EReset after /\
    n_steps before = Z.to_nat (fst (interpret_steps n_iter)) /\ List.length (recorded before) = n_steps before /\
    steps_in true (s_imp s) before /\ steps_in false (s_imp s) after /\
    (n_steps after <= Z.to_nat (snd (interpret_steps n_iter)))%nat /\
    ((~ stopped after /\ n_steps after = Z.to_nat (snd (interpret_steps n_iter)) /\ List.length (recorded after) = n_steps after) \/
     (exists after' it, after = after' ++ [ECond it true] /\ ~ stopped after' /\ n_steps after = S (List.length (recorded after)))) /\
    Forall (fun x => exists y, x = xabs y) (recorded after) /\
    recorded before ++ recorded after = l ++ [r_loss r] /\
    r_theta r = theta (s_w s') /\ r_intercept r = intercept (s_w s').
Proof.
  intros H. unfold Study_Model.study in H. steps H. unfold lift in E. injection E as <- _. steps H.
  steps H. apply run_ok in E0 as (A1 & B1 & C1). steps H. apply run_ok in E0 as (A2 & B2 & C2).
  steps H. unfold read in E0. injection E0 as <- <-. steps H. unfold last_item in E0.
  destruct (rev (c_loss a0)) as [|x rl] eqn:Er; [discriminate|]. injection E0 as <- <-. unfold ret in H. injection H as <- <-. cbn [r_loss r_theta r_intercept].
  unfold Study_Model.study_postsample in E. destruct (interpret_steps n_iter) as [pre tr0]. cbn [fst snd].
  steps E. apply erm_ok in E0 as (A3 & B3 & C3). steps E. apply pretrain_spec in E0 as (tr & L1 & L2 & L3 & L4 & L5 & L6 & L7 & L8 & L9 & L10 & L11).
  steps E. apply run_ok in E0 as (A5 & B5 & C5). steps E. apply log_ok in E0 as (A6 & B6 & C6 & _).
  steps E. replace (s_erm s6) with true in E0 by congruence. apply reset_ok in E0 as (A7 & B7 & C7).
  steps E. apply erm_ok in E0 as (A8 & B8 & C8).
  apply loop_study in E as (tr2 & K1 & K2 & K3 & K4 & K5 & K6 & K7 & K8 & K9 & K10 & K11 & K12 & K13).
  exists tr, tr2, (rev rl). split. { rewrite C2, C1, K1, C8, C7, C6, C5, L1, C3, <- !app_assoc. reflexivity. }
  cbn [c_loss] in L4. simpl in L4.
  split; [exact L11|]. split; [exact K12|]. split; [exact K13|]. split; [congruence|]. split; [congruence|].
  split. { replace true with (s_erm s3) by congruence. replace (s_imp s) with (s_imp s3) by congruence. exact L10. }
  split. { replace false with (s_erm s8) by congruence. replace (s_imp s) with (s_imp s8) by congruence. exact K11. }
  split; [congruence|]. split. { destruct K7 as [(Q1 & Q2 & Q3)|Q]; [left; repeat split; congruence|right; exact Q]. }
  split; [exact K8|]. split; [|auto].
  rewrite <- L4, <- K3, <- (rev_involutive (c_loss a0)), Er. reflexivity.
Qed.
(* the pre-sampled phase: steps see the importance-sampling flag, the recorded losses its negation *)
Definition pre_modes (imp : bool) (tr : list ev) : Prop :=
  Forall (fun e => match e with EStep a b => a = false /\ b = imp | EFwd a b => a = false /\ b = negb imp | _ => True end) tr.
Lemma pre_body_study it (s s' : st) o : study_pre_body W fwd step_with zero_grad cond it s = (s', Ok o) ->
  s_erm s' = s_erm s /\ s_imp s' = s_imp s /\
  s_log s' = s_log s ++ EStep (s_erm s) (s_imp s) ::
    match o with None => [ECond it true] | Some x => [ECond it false; EFwd (s_erm s) (negb (s_imp s)); ELoss x] end.
Proof.
  unfold study_pre_body. intros H. steps H. apply step_closure_ok in E as (A1 & B1 & C1).
  steps H. apply ask_ok in E as (A2 & B2 & C2). steps H. apply log_ok in E as (A3 & B3 & C3 & _). destruct a0.
  - unfold ret in H. injection H as <- <-. split; [congruence|]. split; [congruence|]. rewrite C3, C2, C1, <- app_assoc. reflexivity.
  - steps H. unfold get_imp in E. injection E as <- <-. steps H. apply imp_ok in E as (A4 & B4 & C4 & _).
    steps H. unfold study_closure in E. steps E. apply log_ok in E0 as (A5 & B5 & C5 & _). apply ask_ok in E as (A6 & B6 & C6).
    steps H. apply imp_ok in E as (A7 & B7 & C7 & _). steps H. apply log_ok in E as (A8 & B8 & C8 & _). unfold ret in H. injection H as <- <-.
    split; [congruence|]. split; [congruence|]. rewrite C8, C7, C6, C5, C4, C3, C2, C1, <- !app_assoc. cbn [app].
    replace (s_erm s3) with (s_erm s) by congruence. replace (s_imp s3) with (negb (s_imp s)) by congruence. reflexivity.
Qed.
Lemma pre_loop_study n : forall it losses (s s' : st) l, s_erm s = false -> study_pre_loop W fwd step_with zero_grad cond it n losses s = (s', Ok l) ->
  exists tr, s_log s' = s_log s ++ tr /\ l = losses ++ recorded tr /\ (n_steps tr <= n)%nat /\
    ((~ stopped tr /\ n_steps tr = n /\ List.length (recorded tr) = n) \/
     (exists tr' it', tr = tr' ++ [ECond it' true] /\ ~ stopped tr' /\ n_steps tr = S (List.length (recorded tr)))) /\
    pre_modes (s_imp s) tr /\ ~ In EGuess tr /\ ~ In EReset tr.
Proof.
  induction n as [|n IH]; intros it losses s s' l He H; cbn [study_pre_loop] in H.
  - unfold ret in H. injection H as <- <-. exists []. rewrite !app_nil_r. repeat split; auto; try apply Forall_nil.
    left. split; [|auto]. intros [i []].
  - steps H. apply pre_body_study in E as (A1 & B1 & C1). rewrite He in *. destruct a as [x|].
    + apply IH in H as (tr & L1 & L2 & L3 & L4 & L5 & L6 & L7); [|congruence].
      set (hd := [EStep false (s_imp s); ECond it false; EFwd false (negb (s_imp s)); ELoss x]).
      assert (Hst : forall t, stopped (hd ++ t) -> stopped t).
      { intros t [i K]. exists i. apply in_app_or in K as [K|K]; [|exact K]. exfalso. simpl in K. repeat (destruct K as [K|K]; [discriminate|]). exact K. }
      exists (hd ++ tr). split; [rewrite L1, C1, <- app_assoc; reflexivity|]. split; [rewrite L2, <- app_assoc; reflexivity|].
      replace (n_steps (hd ++ tr)) with (S (n_steps tr)) by reflexivity. replace (recorded (hd ++ tr)) with (x :: recorded tr) by reflexivity. cbn [List.length].
      split; [lia|]. split.
      { destruct L4 as [(K1 & K2 & K3)|(tr' & it' & K1 & K2 & K3)].
        - left. split; [intros K; exact (K1 (Hst _ K))|]. split; congruence.
        - right. exists (hd ++ tr'), it'. split; [rewrite K1, <- app_assoc; reflexivity|]. split; [intros K; exact (K2 (Hst _ K))|congruence]. }
      split. { apply Forall_app. split; [repeat constructor|]. rewrite <- B1. exact L5. }
      split; intros K; apply in_app_or in K as [K|K]; auto; simpl in K; repeat (destruct K as [K|K]; [discriminate|]); exact K.
    + unfold ret in H. injection H as <- <-. exists [EStep false (s_imp s); ECond it true]. split; [exact C1|].
      split; [cbn [recorded]; rewrite app_nil_r; reflexivity|]. split; [unfold n_steps; simpl; lia|]. split.
      { right. exists [EStep false (s_imp s)], it. split; [reflexivity|]. split; [|reflexivity].
        intros [i K]. simpl in K. destruct K as [K|K]; [discriminate|exact K]. }
      split; [repeat constructor|]. split; intros K; simpl in K; repeat (destruct K as [K|K]; [discriminate|]); exact K.
Qed.
Lemma study_pre (s s' : st) l : study_presample W fwd step_with zero_grad generate guess reset cond n_iter s = (s', Ok l) ->
  exists after,
    s_log s' = s_log s ++ repeat (EStep true (s_imp s)) (Z.to_nat (fst (interpret_steps n_iter))) ++ EGuess :: resets W reset ++ after /\
    ~ In EGuess after /\ ~ In EReset after /\ pre_modes (s_imp s) after /\ recorded after = l /\
    (n_steps after <= Z.to_nat (snd (interpret_steps n_iter)))%nat /\
    ((~ stopped after /\ n_steps after = Z.to_nat (snd (interpret_steps n_iter)) /\ List.length l = n_steps after) \/
     (exists after' it, after = after' ++ [ECond it true] /\ ~ stopped after' /\ n_steps after = S (List.length l))).
Proof.
  unfold study_presample. intros H. destruct (interpret_steps n_iter) as [pre tr0]. cbn [fst snd].
  steps H. apply run_ok in E as (A1 & B1 & C1). steps H. apply erm_ok in E as (A2 & B2 & C2).
  steps H. apply repeat_steps in E as (C3 & A3 & B3). steps H. apply run_ok in E as (A4 & B4 & C4). steps H. apply log_ok in E as (A5 & B5 & C5 & _).
  steps H. apply erm_ok in E as (A6 & B6 & C6). steps H. apply reset_ok in E as (A7 & B7 & C7).
  apply pre_loop_study in H as (tr & L1 & L2 & L3 & L4 & L5 & L6 & L7); [|congruence]. simpl in L2.
  exists tr. split. { rewrite L1, C7, C6, C5, C4, C3, C2, C1, <- !app_assoc, A2, B2, B1. reflexivity. }
  split; [exact L6|]. split; [exact L7|]. split. { replace (s_imp s) with (s_imp s6) by congruence. exact L5. }
  split; [congruence|]. split; [exact L3|]. subst l. destruct L4 as [(Q1 & Q2 & Q3)|Q]; [left; repeat split; congruence|right; exact Q].
Qed.
End S.

(* examples: the world of Solver_Proofs, with the opposite objective *)
Definition neg_fwd (e i k : bool) (w : Z) : Z * Result xr := (w, Ok (Fin (IZR (- w)))).
Definition toy_study (stop_at : Z) (n : steps) (w : Z) :=
  study Z neg_fwd toy_step toy_nop toy_plain toy_nop toy_nop (Some toy_nop) (fun it w => (w, Ok (Z.eqb it stop_at))) n
    (fun w => Ok (Fin (IZR w))) (fun w => Ok (Fin (IZR w))) (fun w => Ok (Fin (IZR w))) toy_nop toy_nop
    (fun w => [IZR w]) (fun _ => None) (fun w => [IZR (2 * w)]) false true PInf {| s_w := w; s_erm := false; s_imp := true; s_log := [] |}.
