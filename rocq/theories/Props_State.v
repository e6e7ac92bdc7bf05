(* Properties C96-C98: checkpoints, copies and resets of the composite optimiser; and the recursion behind the schedules of
   C64. *)
From Coq Require Import Reals List Bool String ZArith Lra Lia.
From Verif Require Import PyBase RList Oracle_Model State_Model State_Proofs.
Import ListNotations.
Local Open Scope R_scope.

(* C64. Whatever the inner optimisers do, torch's recursion gives after n steps the point n of the two cosine curves. *)
Theorem C64_recursion :
  forall A H S (o0 : H) (ps : list A) lbd pre train (fs : list (upd A H S * upd A H S)),
    (pre + train <> 0)%Z -> (train <> 0)%Z ->
    exists c, comp_run (steps_of fs) (comp_init o0 ps lbd pre train true) = (c, None) /\
      i_lr (k_params c) = cosine_factor (pre + train) (Z.of_nat (List.length fs)) /\
      i_lr (k_lbd c) = cosine_factor train (Z.of_nat (List.length fs)).
Proof.
  intros A H S o0 ps lbd pre train fs H1 H2. destruct (init_curve A H S o0 ps lbd pre train fs H1 H2) as (c & E & L1 & L2 & _). eauto.
Qed.
Print Assumptions C64_recursion.

(* a run with pretraining steps only cannot take its first step *)
Theorem C64_pretraining_only_refuted :
  exists pre train, (0 < pre)%Z /\ (0 <= train)%Z /\
    forall A H S (o0 : H) (ps : list A) lbd (f g : upd A H S),
      snd (comp_step f g (comp_init o0 ps lbd pre train true)) = Some ZeroDivisionError.
Proof.
  exists 10%Z, 0%Z. split; [lia|]. split; [lia|]. intros. apply no_training_steps. lia.
Qed.
Print Assumptions C64_pretraining_only_refuted.

Definition idle {A H S} : upd A H S := fun o => (i_opts o, i_state o).

Example C64_recursion_case :
  exists c, comp_run (steps_of [(idle, idle); (idle, idle)]) (comp_init (S := nat) tt [1%nat; 2%nat] 0%nat 2 2 true) = (c, None) /\
    i_lr (k_params c) = / 2 /\ i_lr (k_lbd c) = 0.
Proof.
  destruct (C64_recursion nat unit nat tt [1%nat; 2%nat] 0%nat 2 2 [(idle, idle); (idle, idle)] ltac:(lia) ltac:(lia)) as (c & E & L1 & L2).
  exists c. split; [exact E|]. rewrite L1, L2. unfold cosine_factor. cbn [List.length Z.of_nat Pos.of_succ_nat Pos.succ Z.add Pos.add]. split.
  - replace (PI * 2 / 4) with (PI / 2) by field. rewrite cos_PI2. field.
  - replace (PI * 2 / 2) with PI by field. rewrite cos_PI. field.
Qed.

(* C96. A checkpoint of one optimiser, loaded into any optimiser over as many parameters, gives it the rates, options and
   states saved; nothing else changes. *)
Theorem C96_roundtrip :
  forall A H S (c c' : comp A H S),
    List.length (i_params (k_params c)) = List.length (i_params (k_params c')) ->
    List.length (i_params (k_lbd c)) = List.length (i_params (k_lbd c')) ->
    exists c2, comp_load (comp_state_dict c) c' = (c2, None) /\
      same_state (k_params c2) (k_params c) /\ same_state (k_lbd c2) (k_lbd c) /\
      i_params (k_params c2) = i_params (k_params c') /\ i_params (k_lbd c2) = i_params (k_lbd c') /\
      k_sched c2 = k_sched c' /\ k_init c2 = k_init c'.
Proof. exact load_saved. Qed.
Print Assumptions C96_roundtrip.

Theorem C96_own_checkpoint : forall A H S (c : comp A H S), comp_load (comp_state_dict c) c = (c, None).
Proof. exact load_own. Qed.
Print Assumptions C96_own_checkpoint.

(* a checkpoint taken after a step holds the options and states that step produced, whatever the schedulers do *)
Theorem C96_after_step :
  forall A H S (f g : upd A H S) (c : comp A H S),
    let d := comp_state_dict (fst (comp_step f g c)) in
    exists sp sl, lookup "params" d = Some sp /\ lookup "lbd" d = Some sl /\
      (v_opts sp, v_state sp) = f (k_params c) /\ (v_opts sl, v_state sl) = g (k_lbd c) /\
      v_count sp = List.length (i_params (k_params c)) /\ v_count sl = List.length (i_params (k_lbd c)).
Proof. intros. apply saved_after_step. Qed.
Print Assumptions C96_after_step.

(* without schedulers (every optimiser but Prodigy) the training can be resumed: after any history, failed calls included, the
   checkpoint loaded into a new optimiser over the same parameters gives back the whole optimiser *)
Theorem C96_resume_without_schedule :
  forall A H S (o0 : H) (ps : list A) lbd pre train pre' train' (l : list (act A H S)),
    let c := comp_acts l (comp_init o0 ps lbd pre train false) in
    comp_load (comp_state_dict c) (comp_init o0 ps lbd pre' train' false) = (c, None).
Proof. intros. apply resume_plain. Qed.
Print Assumptions C96_resume_without_schedule.

Example C96_resume_case :
  let f : upd nat nat nat := fun o => (Datatypes.S (i_opts o), [Some 7%nat]) in
  let c := comp_acts [AStep f f; AReset; AStep f f] (comp_init 0%nat [1%nat] 2%nat 0 5 false) in
  i_opts (k_params c) = 2%nat /\ i_opts (k_lbd c) = 1%nat /\ i_state (k_lbd c) = [Some 7%nat] /\
  comp_load (comp_state_dict c) (comp_init 0%nat [1%nat] 2%nat 3 1 false) = (c, None).
Proof. repeat split. Qed.

(* any other dictionary is refused *)
Theorem C96_refused :
  forall A H S d (c : comp A H S),
    (lookup "params" d = None \/ lookup "lbd" d = None -> exists e, snd (comp_load d c) = Some e /\ (e = KeyError \/ e = ValueError)) /\
    (forall sp sl, lookup "params" d = Some sp -> lookup "lbd" d = Some sl ->
       (snd (comp_load d c) = None <->
        v_count sp = List.length (i_params (k_params c)) /\ v_count sl = List.length (i_params (k_lbd c)))).
Proof. intros. split; [apply load_missing|intros; apply load_sizes; assumption]. Qed.
Print Assumptions C96_refused.

(* refuted: training resumed from a checkpoint is not the uninterrupted training, since the schedulers are not saved. Here the
   checkpoint is taken after one step and loaded into a new optimiser built the same way. *)
Theorem C96_resume_refuted :
  exists train (f : upd nat unit nat) c1 c2 fresh resumed r1 r2, (0 < train)%Z /\
    comp_run (steps_of [(f, f)]) (comp_init tt [1%nat] 0%nat 0 train true) = (c1, None) /\
    comp_run (steps_of [(f, f)]) c1 = (c2, None) /\
    fresh = comp_init tt [1%nat] 0%nat 0 train true /\
    comp_load (comp_state_dict c1) fresh = (resumed, None) /\
    comp_run (steps_of [(f, f)]) resumed = (r2, None) /\
    r1 = i_lr (k_lbd r2) /\ i_lr (k_lbd c2) = 0 /\ r1 = / 4.
Proof.
  exists 2%Z, idle.
  destruct (init_curve nat unit nat tt [1%nat] 0%nat 0 2 [(idle, idle)] ltac:(lia) ltac:(lia)) as (c1 & E1 & P1 & L1 & S1 & I1 & Q1 & Q2).
  destruct (run_on_curve nat unit nat [(idle, idle)] 2 2 ltac:(lia) ltac:(lia) c1 1 S1 P1 L1) as (c2 & E2 & _ & L2 & _).
  destruct (load_saved nat unit nat c1 (comp_init tt [1%nat] 0%nat 0 2 true)) as (r & E3 & (Lp & _) & (Ll & _) & _ & _ & S3 & _).
  { rewrite Q1. reflexivity. } { rewrite Q2. reflexivity. }
  assert (H1 : cosine_factor 2 1 = / 2).
  { unfold cosine_factor. replace (PI * 1 / 2) with (PI / 2) by field. rewrite cos_PI2. field. }
  assert (Hn : forall x, cosine_next 2 1 x = Ok (/ 2 * x)).
  { intros x. destruct (next_regular 2 1 x ltac:(lia) ltac:(discriminate)) as [-> _]. cbn [Z.sub Z.add Z.opp Z.pos_sub].
    rewrite H1, curve_start. f_equal. field. }
  destruct (comp_step_ok nat unit nat idle idle r 2 2 0 0 _ _ S3 (Hn _) (Hn _)) as (r2 & E4 & _ & R2 & _).
  exists c1, c2, (comp_init tt [1%nat] 0%nat 0 2 true), r, (i_lr (k_lbd r2)), r2.
  split; [lia|]. split; [exact E1|]. split; [exact E2|]. split; [reflexivity|]. split; [exact E3|]. split.
  - cbn [steps_of map fst snd comp_run comp_act]. rewrite E4. reflexivity.
  - split; [reflexivity|]. split.
    + rewrite L2. cbn. unfold cosine_factor. replace (PI * 2 / 2) with PI by field. rewrite cos_PI. field.
    + rewrite R2, Ll, L1. cbn [List.length Z.of_nat Pos.of_succ_nat]. rewrite H1. field.
Qed.
Print Assumptions C96_resume_refuted.

(* refuted: a refused checkpoint leaves the optimiser as it was (the part 'params' has been loaded) *)
Theorem C96_all_or_nothing_refuted :
  exists d (c : comp nat unit nat), snd (comp_load d c) = Some KeyError /\ fst (comp_load d c) <> c.
Proof.
  exists [("params"%string, {| v_count := 1; v_lr := 2; v_opts := tt; v_state := [] |})],
    (comp_init tt [1%nat] 0%nat 1 1 true).
  split; [reflexivity|]. intros E. apply (f_equal (fun c => i_lr (k_params c))) in E. cbn in E. lra.
Qed.
Print Assumptions C96_all_or_nothing_refuted.

Example C96_case :
  let c := comp_init (S := nat) tt [1%nat; 2%nat] 0%nat 2 3 true in
  let c' := comp_init tt [5%nat; 6%nat] 7%nat 2 3 true in
  snd (comp_load (comp_state_dict c) c') = None /\ snd (comp_load (comp_state_dict (comp_init tt [1%nat] 0%nat 2 3 true)) c') = Some ValueError.
Proof. split; reflexivity. Qed.

(* C97. No method of a copied or unpickled optimiser can be called, and it cannot be copied again. *)
Theorem C97_copy_unusable :
  forall A H S (a : act A H S) lbd c, exists o, copy_obj (to_obj lbd c) = Ok o /\ obj_act lbd a o = Raise AttributeError /\
    copy_obj o = Raise AttributeError.
Proof. intros A H S a lbd [p l h s]. eexists. split; [reflexivity|]. split; reflexivity. Qed.
Print Assumptions C97_copy_unusable.

Theorem C97_copy_refuted :
  exists (c : comp nat unit nat) o, copy_obj (to_obj 0%nat c) = Ok o /\
    is_ok (obj_act 0%nat (AStep idle idle) (to_obj 0%nat c)) = true /\ is_ok (obj_act 0%nat (AStep idle idle) o) = false.
Proof. exists (comp_init tt [1%nat] 0%nat 2 3 false). eexists. repeat split. Qed.
Print Assumptions C97_copy_refuted.

(* C98. Whatever happened before, even failed calls, reset_lbd_state gives the multiplier's optimiser its initial rate, options
   and states back, and touches nothing else. *)
Theorem C98_reset :
  forall A H S (o0 : H) (ps : list A) lbd pre train prodigy (l : list (act A H S)),
    let c0 := comp_init o0 ps lbd pre train prodigy in
    let c := comp_acts l c0 in
    exists c', comp_reset c = (c', None) /\ k_lbd c' = k_lbd c0 /\ k_params c' = k_params c /\ k_sched c' = k_sched c.
Proof. intros. apply reset_initial. Qed.
Print Assumptions C98_reset.

(* its schedule goes on: after pre < train steps and a reset, the rates follow the rescaled end of the curve, then the curve
   again *)
Theorem C98_schedule_goes_on :
  forall A H S (o0 : H) (ps : list A) lbd pre train (fs gs : list (upd A H S * upd A H S)),
    (0 <= pre < train)%Z -> Z.of_nat (List.length fs) = pre ->
    exists c, comp_run (steps_of fs ++ AReset :: steps_of gs) (comp_init o0 ps lbd pre train true) = (c, None) /\
      ((pre + Z.of_nat (List.length gs) <= train)%Z ->
         i_lr (k_lbd c) = cosine_factor train (pre + Z.of_nat (List.length gs)) / cosine_factor train pre) /\
      ((train <= pre + Z.of_nat (List.length gs))%Z -> i_lr (k_lbd c) = cosine_factor train (pre + Z.of_nat (List.length gs))).
Proof. exact reset_short. Qed.
Print Assumptions C98_schedule_goes_on.

(* with as many pretraining as robust steps the rate after a reset grows instead of decaying, and ends above 1 + 4 T^2 / pi^2 *)
Theorem C98_rate_explodes :
  forall A H S (o0 : H) (ps : list A) lbd T (fs gs : list (upd A H S * upd A H S)),
    (0 < T)%Z -> Z.of_nat (List.length fs) = T -> Z.of_nat (List.length gs) = T ->
    exists c, comp_run (steps_of fs ++ AReset :: steps_of gs) (comp_init o0 ps lbd T T true) = (c, None) /\
      1 + 4 * (IZR T / PI) * (IZR T / PI) <= i_lr (k_lbd c).
Proof. exact reset_explodes. Qed.
Print Assumptions C98_rate_explodes.

Theorem C98_restart_refuted :
  exists T (fs : list (upd nat unit nat * upd nat unit nat)) c c', (0 < T)%Z /\ Z.of_nat (List.length fs) = T /\
    comp_run (steps_of fs) (comp_init tt [1%nat] 0%nat 0 T true) = (c, None) /\ i_lr (k_lbd c) = 0 /\
    comp_run (steps_of fs ++ AReset :: steps_of fs) (comp_init tt [1%nat] 0%nat T T true) = (c', None) /\ i_lr (k_lbd c') = 3.
Proof.
  exists 2%Z, [(idle, idle); (idle, idle)].
  destruct (init_curve nat unit nat tt [1%nat] 0%nat 0 2 [(idle, idle); (idle, idle)] ltac:(lia) ltac:(lia)) as (c & E & _ & L & _).
  destruct (reset_equal nat unit nat tt [1%nat] 0%nat 2 [(idle, idle); (idle, idle)] (idle, idle) [(idle, idle)] ltac:(lia) eq_refl ltac:(cbn; lia)) as (c' & E' & L').
  exists c, c'. split; [lia|]. split; [reflexivity|]. split; [exact E|]. split.
  - rewrite L. unfold cosine_factor. cbn. replace (PI * 2 / 2) with PI by field. rewrite cos_PI. field.
  - split; [exact E'|]. rewrite L'. cbn [List.length Z.of_nat Pos.of_succ_nat Z.add Pos.add].
    replace (PI * 2 / 2) with PI by field. rewrite cos_PI, cos_PI2. field.
Qed.
Print Assumptions C98_restart_refuted.

Example C98_case : (0 <= 200 < 2800)%Z /\ exists c, comp_reset (comp_init (S := nat) tt [1%nat] 0%nat 200 2800 true) = (c, None).
Proof. split; [lia|]. eexists. reflexivity. Qed.

(* ---------- concrete cases of the theorems above, one each ---------- *)
Definition grow : upd nat nat nat := fun o => (Datatypes.S (i_opts o), [Some 7%nat]).
Definition trained : comp nat nat nat := comp_acts [AStep grow grow; AReset; AStep grow grow] (comp_init 0%nat [1%nat] 2%nat 0 5 true).
Example C96_roundtrip_case : exists c2, comp_load (comp_state_dict trained) (comp_init 0%nat [9%nat] 8%nat 3 4 true) = (c2, None) /\
  same_state (k_params c2) (k_params trained) /\ i_params (k_params c2) = [9%nat].
Proof.
  destruct (C96_roundtrip nat nat nat trained (comp_init 0%nat [9%nat] 8%nat 3 4 true) eq_refl eq_refl) as (c2 & E & S & _ & P & _). exists c2. split; [exact E|]. split; [exact S|exact P].
Qed.
Example C96_refused_case : snd (comp_load (comp_state_dict trained) (comp_init 0%nat [9%nat; 1%nat] 8%nat 3 4 true)) <> None.
Proof. intros H. apply (proj2 (C96_refused nat nat nat (comp_state_dict trained) (comp_init 0%nat [9%nat; 1%nat] 8%nat 3 4 true)) _ _ eq_refl eq_refl) in H. destruct H as [H _]. discriminate. Qed.
Example C98_schedule_goes_on_case : exists c, comp_run (steps_of [(grow, grow)] ++ AReset :: steps_of [(grow, grow)]) (comp_init 0%nat [1%nat] 2%nat 1 3 true) = (c, None) /\
  i_lr (k_lbd c) = cosine_factor 3 2 / cosine_factor 3 1.
Proof.
  destruct (C98_schedule_goes_on nat nat nat 0%nat [1%nat] 2%nat 1 3 [(grow, grow)] [(grow, grow)] ltac:(lia) eq_refl) as (c & E & A & _). exists c. split; [exact E|]. apply A. simpl. lia.
Qed.
Example C98_rate_explodes_case : exists c, comp_run (steps_of [(grow, grow); (grow, grow)] ++ AReset :: steps_of [(grow, grow); (grow, grow)]) (comp_init 0%nat [1%nat] 2%nat 2 2 true) = (c, None) /\
  1 + 4 * (IZR 2 / PI) * (IZR 2 / PI) <= i_lr (k_lbd c).
Proof. apply C98_rate_explodes; try lia; reflexivity. Qed.
(* what a copy holds: the saved states of the two optimisers under their names (so [lbd] is no longer the multiplier), and none of
   the attributes the methods use *)
Theorem C97_copy_contents :
  forall A H S lbd (c : comp A H S), exists o sp sl, copy_obj (to_obj lbd c) = Ok o /\
    lookup "params" o = Some (VState A H S sp) /\ lookup "lbd" o = Some (VState A H S sl) /\
    (v_lr sp, v_opts sp, v_state sp) = (i_lr (k_params c), i_opts (k_params c), i_state (k_params c)) /\
    (v_lr sl, v_opts sl, v_state sl) = (i_lr (k_lbd c), i_opts (k_lbd c), i_state (k_lbd c)) /\
    forall k, lookup k o <> None <-> In k ["params"; "lbd"; "init_state_lbd"; "defaults"]%string.
Proof.
  intros A H S lbd c. eexists _, _, _. split; [reflexivity|]. split; [reflexivity|]. split; [reflexivity|]. split; [reflexivity|]. split; [reflexivity|].
  intros k. unfold lookup. cbn [find fst snd In]. split.
  - repeat match goal with |- context [String.eqb ?a ?b] => destruct (String.eqb_spec a b); subst; [tauto|] end. cbn. congruence.
  - intros [<-|[<-|[<-|[<-|[]]]]]; discriminate.
Qed.
Print Assumptions C97_copy_contents.
Example C97_copy_contents_case : exists o, copy_obj (to_obj 2%nat trained) = Ok o /\ lookup "opts" o = None.
Proof.
  destruct (C97_copy_contents nat nat nat 2%nat trained) as (o & _ & _ & E & _ & _ & _ & _ & K). exists o. split; [exact E|].
  destruct (lookup "opts" o) eqn:Q; [|reflexivity]. exfalso. assert (I : In "opts"%string ["params"; "lbd"; "init_state_lbd"; "defaults"]%string) by (apply K; congruence).
  simpl in I. intuition discriminate.
Qed.
