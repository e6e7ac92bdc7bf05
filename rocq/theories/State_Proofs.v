From Coq Require Import Reals List Bool String ZArith Lra Lia.
From Verif Require Import PyBase RList Oracle_Model State_Model.
Import ListNotations.
Local Open Scope R_scope.

(* ---- the recursion of the schedule and its closed form ---- *)
Lemma half_cos x : 1 + cos x = 2 * (cos (x / 2) * cos (x / 2)).
Proof. replace x with (2 * (x / 2)) at 1 by field. rewrite cos_2a_cos. ring. Qed.

Lemma cos_at_minus_one (T k : Z) : (T <> 0)%Z -> 1 + cos (PI * IZR k / IZR T) = 0 -> ((k - T) mod (2 * T) = 0)%Z.
Proof.
  intros HT H. assert (HT' : IZR T <> 0) by (apply not_0_IZR; exact HT).
  rewrite half_cos in H.
  assert (Hc : cos (PI * IZR k / IZR T / 2) = 0) by nra.
  destruct (cos_eq_0_0 _ Hc) as [n Hn]. pose proof PI_RGT_0 as Hp.
  assert (E : IZR k = IZR (2 * n * T + T)).
  { rewrite plus_IZR, !mult_IZR. apply Rmult_eq_reg_l with PI; [|lra].
    replace (PI * IZR k) with (PI * IZR k / IZR T / 2 * (2 * IZR T)) by (field; exact HT'). rewrite Hn. field. }
  apply eq_IZR in E. subst k. replace (2 * n * T + T - T)%Z with (n * (2 * T))%Z by ring. apply Z_mod_mult.
Qed.

Lemma mod_zero_inv a b : (b <> 0 -> a mod b = 0 -> exists m, a = m * b)%Z.
Proof. intros Hb H. exists (a / b)%Z. rewrite (Z_div_mod_eq_full a b) at 1. rewrite H. ring. Qed.

Lemma cos_period_Z x (m : Z) : cos (x + 2 * IZR m * PI) = cos x.
Proof.
  destruct (Z_le_gt_dec 0 m) as [H|H].
  - rewrite <- (Z2Nat.id m H) at 1. rewrite <- INR_IZR_INZ. apply cos_period.
  - rewrite <- (cos_period (x + 2 * IZR m * PI) (Z.to_nat (- m))). f_equal. rewrite INR_IZR_INZ, Z2Nat.id by lia.
    rewrite opp_IZR. ring.
Qed.

Lemma cos_odd T m : (T <> 0)%Z -> cos (PI * IZR (m * (2 * T) + T) / IZR T) = -1.
Proof.
  intros HT. assert (HT' : IZR T <> 0) by (apply not_0_IZR; exact HT).
  replace (PI * IZR (m * (2 * T) + T) / IZR T) with (PI + 2 * IZR m * PI) by (rewrite plus_IZR, !mult_IZR; field; exact HT').
  rewrite cos_period_Z. apply cos_PI.
Qed.

Lemma cos_after_odd T m : (T <> 0)%Z -> cos (PI * IZR (m * (2 * T) + T + 1) / IZR T) = - cos (PI / IZR T).
Proof.
  intros HT. assert (HT' : IZR T <> 0) by (apply not_0_IZR; exact HT).
  replace (PI * IZR (m * (2 * T) + T + 1) / IZR T) with (PI / IZR T + PI + 2 * IZR m * PI)
    by (rewrite !plus_IZR, !mult_IZR; field; exact HT').
  rewrite cos_period_Z. apply neg_cos.
Qed.

(* away from the restarts the rate is multiplied by the ratio of the closed form *)
Lemma next_regular T e r : (T <> 0)%Z -> ((e - 1 - T) mod (2 * T) <> 0)%Z ->
  cosine_next T e r = Ok (cosine_factor T e / cosine_factor T (e - 1) * r) /\ cosine_factor T (e - 1) <> 0.
Proof.
  intros HT Hm. unfold cosine_next, cosine_factor.
  assert (Hd : 1 + cos (PI * IZR (e - 1) / IZR T) <> 0) by (intros H; apply Hm, cos_at_minus_one; assumption).
  rewrite (proj2 (Z.eqb_neq T 0) HT), (proj2 (Z.eqb_neq _ 0) Hm). split; [|intros H0; apply Hd; lra]. f_equal. field. exact Hd.
Qed.

Lemma next_restart T e r : (T <> 0)%Z -> ((e - 1 - T) mod (2 * T) = 0)%Z ->
  cosine_next T e r = Ok (r + cosine_factor T e) /\ cosine_factor T (e - 1) = 0.
Proof.
  intros HT Hm. unfold cosine_next. rewrite (proj2 (Z.eqb_neq T 0) HT), Hm. cbn [Z.eqb].
  assert (H2 : (2 * T <> 0)%Z) by lia. destruct (mod_zero_inv _ _ H2 Hm) as [m E].
  unfold cosine_factor. replace e with (m * (2 * T) + T + 1)%Z by lia.
  replace (m * (2 * T) + T + 1 - 1)%Z with (m * (2 * T) + T)%Z by ring.
  rewrite cos_after_odd, cos_odd by exact HT. split; [f_equal; field|lra].
Qed.

(* from a rate on the curve, the next one is on the curve *)
Lemma next_on_curve T e : (T <> 0)%Z -> cosine_next T e (cosine_factor T (e - 1)) = Ok (cosine_factor T e).
Proof.
  intros HT. destruct (Z.eq_dec ((e - 1 - T) mod (2 * T)) 0) as [Hm|Hm].
  - destruct (next_restart T e (cosine_factor T (e - 1)) HT Hm) as [-> ->]. f_equal. ring.
  - destruct (next_regular T e (cosine_factor T (e - 1)) HT Hm) as [-> Hd]. f_equal. field. exact Hd.
Qed.

Lemma curve_start T : cosine_factor T 0 = 1.
Proof. unfold cosine_factor. replace (PI * 0 / IZR T) with 0 by (unfold Rdiv; ring). rewrite cos_0. field. Qed.

Section Composite.
Variables A H S : Type.
Notation inner := (inner A H S). Notation comp := (comp A H S). Notation act := (act A H S).
Notation saved := (saved H S).

Definition steps_of (fs : list (upd A H S * upd A H S)) : list act := map (fun p => AStep (fst p) (snd p)) fs.

Lemma inner_step_rate f (o : inner) : i_lr (inner_step f o) = i_lr o /\ i_params (inner_step f o) = i_params o.
Proof. unfold inner_step. destruct (f o); auto. Qed.

Lemma sched_step_ok h (o : inner) r : cosine_next (h_T h) (h_epoch h + 1) (i_lr o) = Ok r ->
  exists o', sched_step h o = ({| h_T := h_T h; h_epoch := h_epoch h + 1 |}, o', None) /\ i_lr o' = r /\ i_params o' = i_params o.
Proof. unfold sched_step. intros ->. eexists. repeat split. Qed.

Lemma comp_step_ok f g (c : comp) Tp Tl ep el rp rl :
  k_sched c = Some ({| h_T := Tp; h_epoch := ep |}, {| h_T := Tl; h_epoch := el |}) ->
  cosine_next Tp (ep + 1) (i_lr (k_params c)) = Ok rp -> cosine_next Tl (el + 1) (i_lr (k_lbd c)) = Ok rl ->
  exists c', comp_step f g c = (c', None) /\ i_lr (k_params c') = rp /\ i_lr (k_lbd c') = rl /\
    k_sched c' = Some ({| h_T := Tp; h_epoch := ep + 1 |}, {| h_T := Tl; h_epoch := el + 1 |}) /\ k_init c' = k_init c /\
    i_params (k_params c') = i_params (k_params c) /\ i_params (k_lbd c') = i_params (k_lbd c).
Proof.
  intros Hs Hp Hl. unfold comp_step. rewrite Hs.
  destruct (inner_step_rate f (k_params c)) as [R1 P1]. destruct (inner_step_rate g (k_lbd c)) as [R2 P2].
  rewrite <- R1 in Hp. rewrite <- R2 in Hl.
  destruct (sched_step_ok {| h_T := Tp; h_epoch := ep |} _ _ Hp) as (p' & E1 & L1 & Q1). rewrite E1.
  destruct (sched_step_ok {| h_T := Tl; h_epoch := el |} _ _ Hl) as (l' & E2 & L2 & Q2). rewrite E2.
  eexists. split; [reflexivity|]. cbn. repeat split; congruence.
Qed.

(* rates on the curve stay on the curve *)
Lemma run_on_curve fs Tp Tl : (Tp <> 0)%Z -> (Tl <> 0)%Z -> forall (c : comp) e,
  k_sched c = Some ({| h_T := Tp; h_epoch := e |}, {| h_T := Tl; h_epoch := e |}) ->
  i_lr (k_params c) = cosine_factor Tp e -> i_lr (k_lbd c) = cosine_factor Tl e ->
  exists c', comp_run (steps_of fs) c = (c', None) /\
    i_lr (k_params c') = cosine_factor Tp (e + Z.of_nat (List.length fs)) /\
    i_lr (k_lbd c') = cosine_factor Tl (e + Z.of_nat (List.length fs)) /\
    k_sched c' = Some ({| h_T := Tp; h_epoch := e + Z.of_nat (List.length fs) |}, {| h_T := Tl; h_epoch := e + Z.of_nat (List.length fs) |}) /\
    k_init c' = k_init c /\ i_params (k_params c') = i_params (k_params c) /\ i_params (k_lbd c') = i_params (k_lbd c).
Proof.
  intros HTp HTl. induction fs as [|[f g] fs IH]; intros c e Hs Hp Hl.
  - exists c. cbn. rewrite Z.add_0_r. repeat split; assumption.
  - cbn [steps_of map comp_run comp_act fst snd].
    destruct (comp_step_ok f g c Tp Tl e e (cosine_factor Tp (e + 1)) (cosine_factor Tl (e + 1)) Hs) as (c1 & E & Lp & Ll & Hs1 & I1 & P1 & P2).
    { rewrite Hp. replace e with (e + 1 - 1)%Z at 2 by ring. apply next_on_curve, HTp. }
    { rewrite Hl. replace e with (e + 1 - 1)%Z at 2 by ring. apply next_on_curve, HTl. }
    rewrite E. destruct (IH c1 (e + 1)%Z Hs1 Lp Ll) as (c' & E' & R).
    exists c'. split; [exact E'|]. cbn [List.length]. rewrite Nat2Z.inj_succ.
    replace (e + Z.succ (Z.of_nat (List.length fs)))%Z with (e + 1 + Z.of_nat (List.length fs))%Z by lia.
    rewrite I1, P1, P2 in R. exact R.
Qed.

Lemma init_curve (o0 : H) (ps : list A) lbd pre train fs : (pre + train <> 0)%Z -> (train <> 0)%Z ->
  exists c, comp_run (steps_of fs) (comp_init o0 ps lbd pre train true) = (c, None) /\
    i_lr (k_params c) = cosine_factor (pre + train) (Z.of_nat (List.length fs)) /\
    i_lr (k_lbd c) = cosine_factor train (Z.of_nat (List.length fs)) /\
    k_sched c = Some ({| h_T := pre + train; h_epoch := Z.of_nat (List.length fs) |}, {| h_T := train; h_epoch := Z.of_nat (List.length fs) |}) /\
    k_init c = inner_save (make_optim o0 [lbd]) /\ i_params (k_params c) = ps /\ i_params (k_lbd c) = [lbd].
Proof.
  intros H1 H2. destruct (run_on_curve fs _ _ H1 H2 (comp_init o0 ps lbd pre train true) 0) as (c & E & R).
  - reflexivity.
  - cbn. symmetry. apply curve_start.
  - cbn. symmetry. apply curve_start.
  - exists c. split; [exact E|]. exact R.
Qed.

Lemma no_training_steps (o0 : H) (ps : list A) lbd pre (f g : upd A H S) : (0 < pre)%Z ->
  snd (comp_step f g (comp_init (S := S) o0 ps lbd pre 0 true)) = Some ZeroDivisionError.
Proof.
  intros Hp. unfold comp_step, comp_init. cbn [k_params k_lbd k_sched k_init].
  unfold sched_step, cosine_next. cbn [h_T h_epoch]. rewrite (proj2 (Z.eqb_neq (pre + 0) 0)) by lia.
  cbn [Z.eqb snd]. reflexivity.
Qed.

(* ---- checkpoints ---- *)
Definition same_state (o o' : inner) : Prop := i_lr o = i_lr o' /\ i_opts o = i_opts o' /\ i_state o = i_state o'.

Lemma load_saved (c c' : comp) :
  List.length (i_params (k_params c)) = List.length (i_params (k_params c')) ->
  List.length (i_params (k_lbd c)) = List.length (i_params (k_lbd c')) ->
  exists c2, comp_load (comp_state_dict c) c' = (c2, None) /\
    same_state (k_params c2) (k_params c) /\ same_state (k_lbd c2) (k_lbd c) /\
    i_params (k_params c2) = i_params (k_params c') /\ i_params (k_lbd c2) = i_params (k_lbd c') /\
    k_sched c2 = k_sched c' /\ k_init c2 = k_init c'.
Proof.
  intros H1 H2. unfold comp_load, comp_state_dict, load_one, lookup. cbn [find fst snd option_map String.eqb Ascii.eqb Bool.eqb].
  unfold inner_load, inner_save. cbn [v_count v_lr v_opts v_state]. rewrite <- H1, Nat.eqb_refl. cbn.
  rewrite <- H2, Nat.eqb_refl. eexists. split; [reflexivity|]. cbn. unfold same_state. cbn. repeat split.
Qed.

Lemma load_own (c : comp) : comp_load (comp_state_dict c) c = (c, None).
Proof.
  unfold comp_load, comp_state_dict, load_one, lookup. cbn [find fst snd option_map String.eqb Ascii.eqb Bool.eqb].
  unfold inner_load, inner_save. cbn [v_count v_lr v_opts v_state]. rewrite Nat.eqb_refl. cbn.
  rewrite Nat.eqb_refl. destruct c as [[] [] ? ?]. reflexivity.
Qed.

Lemma load_missing d (c : comp) : lookup "params" d = None \/ lookup "lbd" d = None ->
  exists e, snd (comp_load d c) = Some e /\ (e = KeyError \/ e = ValueError).
Proof.
  unfold comp_load, load_one, inner_load. intros [->|Hn]; cbn; [eauto|].
  destruct (lookup "params" d) as [s|]; cbn; [|eauto]. destruct (Nat.eqb _ _); cbn; [|eauto]. rewrite Hn. cbn. eauto.
Qed.

Lemma load_sizes d sp sl (c : comp) : lookup "params" d = Some sp -> lookup "lbd" d = Some sl ->
  (snd (comp_load d c) = None <-> v_count sp = List.length (i_params (k_params c)) /\ v_count sl = List.length (i_params (k_lbd c))).
Proof.
  unfold comp_load, load_one, inner_load. intros -> ->.
  destruct (Nat.eqb_spec (List.length (i_params (k_params c))) (v_count sp)) as [E|E]; cbn.
  - destruct (Nat.eqb_spec (List.length (i_params (k_lbd c))) (v_count sl)) as [E'|E']; cbn; split; auto; try discriminate.
    intros [_ F]. congruence.
  - split; [discriminate|]. intros [F _]. congruence.
Qed.

(* ---- reset ---- *)
Definition wfc (o0 : H) (ps : list A) (lbd : A) (c : comp) : Prop :=
  k_init c = inner_save (make_optim o0 [lbd]) /\ i_params (k_params c) = ps /\ i_params (k_lbd c) = [lbd].

Lemma act_wf o0 ps lbd a c : wfc o0 ps lbd c -> wfc o0 ps lbd (fst (comp_act a c)).
Proof.
  intros (I & P & L). unfold wfc. destruct a; cbn [comp_act].
  - unfold comp_step. pose proof (inner_step_rate f (k_params c)) as [_ P1]. pose proof (inner_step_rate g (k_lbd c)) as [_ P2].
    destruct (k_sched c) as [[hp hl]|]; [|cbn; repeat split; congruence].
    unfold sched_step. destruct (cosine_next (h_T hp) _ _); cbn; [|repeat split; congruence].
    destruct (cosine_next (h_T hl) _ _); cbn; repeat split; congruence.
  - auto.
  - unfold comp_load, load_one, inner_load. destruct (lookup "params" d); cbn; [|auto]. destruct (Nat.eqb _ _); cbn; [|auto].
    destruct (lookup "lbd" d); cbn; [|auto]. destruct (Nat.eqb _ _); cbn; auto.
  - unfold comp_reset, inner_load. destruct (Nat.eqb _ _); cbn; auto.
  - auto.
Qed.

Lemma acts_wf o0 ps lbd l : forall c, wfc o0 ps lbd c -> wfc o0 ps lbd (comp_acts l c).
Proof. induction l as [|a l IH]; intros c W; cbn; [exact W|]. apply IH, act_wf, W. Qed.

Lemma reset_initial (o0 : H) (ps : list A) lbd pre train prodigy l :
  exists c', comp_reset (comp_acts l (comp_init o0 ps lbd pre train prodigy)) = (c', None) /\
    k_lbd c' = k_lbd (comp_init (S := S) o0 ps lbd pre train prodigy) /\
    k_params c' = k_params (comp_acts l (comp_init o0 ps lbd pre train prodigy)) /\
    k_sched c' = k_sched (comp_acts l (comp_init o0 ps lbd pre train prodigy)).
Proof.
  assert (W : wfc o0 ps lbd (comp_acts l (comp_init o0 ps lbd pre train prodigy))).
  { apply acts_wf. repeat split. }
  destruct W as (I & P & L). unfold comp_reset, inner_load. rewrite I, L. cbn. eexists. repeat split.
Qed.

(* ---- the schedule after a reset ---- *)
(* the multiplier's rate over a stretch without restart, the parameters' rate being on its curve *)
Lemma run_regular fs Tp Tl : (Tp <> 0)%Z -> (Tl <> 0)%Z -> forall (c : comp) e,
  k_sched c = Some ({| h_T := Tp; h_epoch := e |}, {| h_T := Tl; h_epoch := e |}) ->
  i_lr (k_params c) = cosine_factor Tp e ->
  (forall i, (0 <= i < Z.of_nat (List.length fs))%Z -> ((e + i - Tl) mod (2 * Tl) <> 0)%Z) ->
  exists c', comp_run (steps_of fs) c = (c', None) /\
    i_lr (k_params c') = cosine_factor Tp (e + Z.of_nat (List.length fs)) /\
    (fs = [] \/ cosine_factor Tl e <> 0) /\
    (cosine_factor Tl e <> 0 -> i_lr (k_lbd c') = cosine_factor Tl (e + Z.of_nat (List.length fs)) / cosine_factor Tl e * i_lr (k_lbd c)) /\
    k_sched c' = Some ({| h_T := Tp; h_epoch := e + Z.of_nat (List.length fs) |}, {| h_T := Tl; h_epoch := e + Z.of_nat (List.length fs) |}).
Proof.
  intros HTp HTl. induction fs as [|[f g] fs IH]; intros c e Hs Hp Hi.
  - exists c. cbn. rewrite Z.add_0_r. repeat split; auto. intros Hc. field. exact Hc.
  - cbn [steps_of map comp_run comp_act fst snd]. cbn [List.length] in Hi. rewrite Nat2Z.inj_succ in Hi.
    assert (Hm : ((e + 1 - 1 - Tl) mod (2 * Tl) <> 0)%Z).
    { replace (e + 1 - 1 - Tl)%Z with (e + 0 - Tl)%Z by ring. apply Hi. lia. }
    destruct (next_regular Tl (e + 1) (i_lr (k_lbd c)) HTl Hm) as [En Hd].
    replace (e + 1 - 1)%Z with e in En, Hd by ring.
    destruct (comp_step_ok f g c Tp Tl e e (cosine_factor Tp (e + 1)) _ Hs ltac:(rewrite Hp; replace e with (e + 1 - 1)%Z at 2 by ring; apply next_on_curve, HTp) En)
      as (c1 & E & Lp & Ll & Hs1 & _).
    rewrite E. destruct (IH c1 (e + 1)%Z Hs1 Lp) as (c' & E' & R1 & R2 & R3 & R4).
    { intros i Hb. replace (e + 1 + i - Tl)%Z with (e + (i + 1) - Tl)%Z by ring. apply Hi. lia. }
    exists c'. split; [exact E'|]. cbn [List.length]. rewrite Nat2Z.inj_succ.
    replace (e + Z.succ (Z.of_nat (List.length fs)))%Z with (e + 1 + Z.of_nat (List.length fs))%Z by lia.
    split; [exact R1|]. split; [right; exact Hd|]. split; [|exact R4].
    intros _. destruct R2 as [->|R2].
    + cbn in E'. injection E' as <-. rewrite Ll. cbn [List.length Z.of_nat]. rewrite Z.add_0_r. reflexivity.
    + rewrite (R3 R2), Ll. field. split; assumption.
Qed.

Lemma run_app (l1 l2 : list act) (c : comp) :
  comp_run (l1 ++ l2) c = match comp_run l1 c with (c', None) => comp_run l2 c' | x => x end.
Proof.
  revert c. induction l1 as [|a l1 IH]; intros c; cbn; [reflexivity|].
  destruct (comp_act a c) as [c' [e|]]; [reflexivity|]. apply IH.
Qed.

(* [pre] steps, a reset, then the steps [gs] *)
Definition reset_run (o0 : H) (ps : list A) (lbd : A) pre train (fs gs : list (upd A H S * upd A H S)) : comp * option exn :=
  comp_run (steps_of fs ++ AReset :: steps_of gs) (comp_init o0 ps lbd pre train true).

Lemma after_reset (o0 : H) (ps : list A) lbd pre train fs : (pre + train <> 0)%Z -> (train <> 0)%Z ->
  exists c, comp_run (steps_of fs ++ [AReset]) (comp_init (S := S) o0 ps lbd pre train true) = (c, None) /\
    i_lr (k_lbd c) = 1 /\ i_lr (k_params c) = cosine_factor (pre + train) (Z.of_nat (List.length fs)) /\
    k_sched c = Some ({| h_T := pre + train; h_epoch := Z.of_nat (List.length fs) |}, {| h_T := train; h_epoch := Z.of_nat (List.length fs) |}).
Proof.
  intros H1 H2. rewrite run_app. destruct (init_curve o0 ps lbd pre train fs H1 H2) as (c & E & Lp & Ll & Hs & I & P & L).
  rewrite E. cbn [comp_run comp_act]. unfold comp_reset, inner_load. rewrite I, L. cbn.
  eexists. split; [reflexivity|]. cbn. auto.
Qed.

Lemma reset_run_split o0 ps lbd pre train fs gs : (pre + train <> 0)%Z -> (train <> 0)%Z ->
  exists c, reset_run o0 ps lbd pre train fs gs = comp_run (steps_of gs) c /\
    i_lr (k_lbd c) = 1 /\ i_lr (k_params c) = cosine_factor (pre + train) (Z.of_nat (List.length fs)) /\
    k_sched c = Some ({| h_T := pre + train; h_epoch := Z.of_nat (List.length fs) |}, {| h_T := train; h_epoch := Z.of_nat (List.length fs) |}).
Proof.
  intros H1 H2. destruct (after_reset o0 ps lbd pre train fs H1 H2) as (c & E & R). exists c. split; [|exact R].
  unfold reset_run. change (AReset :: steps_of gs) with ([AReset] ++ steps_of gs : list act). rewrite app_assoc, run_app, E. reflexivity.
Qed.

(* fewer pretraining steps than robust steps *)
Lemma reset_short o0 ps lbd pre train fs gs :
  (0 <= pre < train)%Z -> Z.of_nat (List.length fs) = pre ->
  exists c, reset_run o0 ps lbd pre train fs gs = (c, None) /\
    ((pre + Z.of_nat (List.length gs) <= train)%Z ->
       i_lr (k_lbd c) = cosine_factor train (pre + Z.of_nat (List.length gs)) / cosine_factor train pre) /\
    ((train <= pre + Z.of_nat (List.length gs))%Z -> i_lr (k_lbd c) = cosine_factor train (pre + Z.of_nat (List.length gs))).
Proof.
  intros Hb Hl. destruct (reset_run_split o0 ps lbd pre train fs gs ltac:(lia) ltac:(lia)) as (c0 & -> & L1 & Lp & Hs).
  rewrite Hl in *.
  assert (Hne : cosine_factor train pre <> 0).
  { intros Hz. assert (Hm : ((pre - train) mod (2 * train) = 0)%Z).
    { apply cos_at_minus_one; [lia|]. unfold cosine_factor in Hz. lra. }
    apply mod_zero_inv in Hm; [|lia]. destruct Hm as [m Hm]. assert (m < 0 \/ m >= 0)%Z as [?|?] by lia; nia. }
  (* the regular stretch *)
  assert (Reg : forall gs, (pre + Z.of_nat (List.length gs) <= train)%Z ->
     exists c, comp_run (steps_of gs) c0 = (c, None) /\
       i_lr (k_lbd c) = cosine_factor train (pre + Z.of_nat (List.length gs)) / cosine_factor train pre /\
       i_lr (k_params c) = cosine_factor (pre + train) (pre + Z.of_nat (List.length gs)) /\
       k_sched c = Some ({| h_T := pre + train; h_epoch := pre + Z.of_nat (List.length gs) |}, {| h_T := train; h_epoch := pre + Z.of_nat (List.length gs) |})).
  { intros g0 Hg. destruct (run_regular g0 (pre + train) train ltac:(lia) ltac:(lia) c0 pre Hs Lp) as (c & E & R1 & _ & R3 & R4).
    { intros i Hi Hm. apply mod_zero_inv in Hm; [|lia]. destruct Hm as [m Hm]. assert (m < 0 \/ m >= 0)%Z as [?|?] by lia; nia. }
    exists c. split; [exact E|]. rewrite (R3 Hne), L1. repeat split; auto. field. exact Hne. }
  destruct (Z_le_gt_dec (pre + Z.of_nat (List.length gs)) train) as [Hg|Hg].
  - destruct (Reg gs Hg) as (c & E & R & _). exists c. split; [exact E|]. split; [intros _; exact R|].
    intros Hg'. assert (Ez : (pre + Z.of_nat (List.length gs) = train)%Z) by lia. rewrite R, Ez.
    assert (Hz : cosine_factor train train = 0).
    { unfold cosine_factor. replace (PI * IZR train / IZR train) with PI by (field; apply not_0_IZR; lia). rewrite cos_PI. field. }
    rewrite Hz. unfold Rdiv. ring.
  - set (n := Z.to_nat (train - pre)). assert (Hn : Z.of_nat n = (train - pre)%Z) by (unfold n; lia).
    assert (Hnl : (n <= List.length gs)%nat) by lia.
    assert (L1' : List.length (firstn n gs) = n) by (apply firstn_length_le; exact Hnl).
    destruct (Reg (firstn n gs)) as (c1 & E1 & R1 & P1 & S1); [rewrite L1'; lia|]. rewrite L1' in R1, P1, S1.
    replace (pre + Z.of_nat n)%Z with train in R1, P1, S1 by lia.
    assert (Hz : cosine_factor train train = 0).
    { unfold cosine_factor. replace (PI * IZR train / IZR train) with PI by (field; apply not_0_IZR; lia). rewrite cos_PI. field. }
    assert (R1' : i_lr (k_lbd c1) = cosine_factor train train) by (rewrite R1, Hz; unfold Rdiv; ring).
    destruct (run_on_curve (skipn n gs) (pre + train) train ltac:(lia) ltac:(lia) c1 train S1 P1 R1') as (c2 & E2 & _ & R2 & _).
    exists c2. split.
    + rewrite <- (firstn_skipn n gs). unfold steps_of. rewrite map_app. fold (steps_of (firstn n gs)) (steps_of (skipn n gs)).
      rewrite run_app, E1. exact E2.
    + split; [lia|]. intros _. rewrite R2. f_equal. rewrite skipn_length. lia.
Qed.

(* as many pretraining steps as robust steps *)
Lemma reset_equal o0 ps lbd T fs g gs :
  (0 < T)%Z -> Z.of_nat (List.length fs) = T -> (Z.of_nat (List.length gs) < 2 * T)%Z ->
  exists c, reset_run o0 ps lbd T T fs (g :: gs) = (c, None) /\
    i_lr (k_lbd c) = (1 - cos (PI * IZR (1 + Z.of_nat (List.length gs)) / IZR T)) * (/ (1 - cos (PI / IZR T)) + / 2).
Proof.
  intros HT Hl Hg. destruct (reset_run_split o0 ps lbd T T fs (g :: gs) ltac:(lia) ltac:(lia)) as (c0 & -> & L1 & Lp & Hs).
  rewrite Hl in *. assert (HT' : IZR T <> 0) by (apply not_0_IZR; lia).
  assert (Cf : forall k, cosine_factor T (T + k) = (1 - cos (PI * IZR k / IZR T)) / 2).
  { intros k. unfold cosine_factor. replace (PI * IZR (T + k) / IZR T) with (PI * IZR k / IZR T + PI) by (rewrite plus_IZR; field; exact HT').
    rewrite neg_cos. field. }
  destruct (next_restart T (T + 1) 1 ltac:(lia)) as [En _].
  { replace (T + 1 - 1 - T)%Z with 0%Z by ring. apply Zmod_0_l. }
  destruct g as [f g]. cbn [steps_of map comp_run comp_act fst snd].
  destruct (comp_step_ok f g c0 (T + T) T T T (cosine_factor (T + T) (T + 1)) (1 + cosine_factor T (T + 1)) Hs) as (c1 & E & Lp1 & Ll1 & Hs1 & _).
  { rewrite Lp. pose proof (next_on_curve (T + T) (T + 1) ltac:(lia)) as Hc. replace (T + 1 - 1)%Z with T in Hc by ring. exact Hc. }
  { rewrite L1. exact En. }
  rewrite E. fold (steps_of gs).
  destruct (run_regular gs (T + T) T ltac:(lia) ltac:(lia) c1 (T + 1) Hs1 Lp1) as (c & E' & _ & R2 & R3 & _).
  { intros i Hi Hm. apply mod_zero_inv in Hm; [|lia]. destruct Hm as [m Hm]. assert (m <= 0 \/ m > 0)%Z as [?|?] by lia; nia. }
  exists c. split; [exact E'|].
  assert (Hne : cosine_factor T (T + 1) <> 0).
  { intros Hz. assert (Hm : ((T + 1 - T) mod (2 * T) = 0)%Z).
    { apply cos_at_minus_one; [lia|]. unfold cosine_factor in Hz. lra. }
    apply mod_zero_inv in Hm; [|lia]. destruct Hm as [m Hm]. assert (m <= 0 \/ m > 0)%Z as [?|?] by lia; nia. }
  rewrite (R3 Hne), Ll1. rewrite <- Z.add_assoc, !Cf. rewrite Cf in Hne.
  replace (PI * 1 / IZR T) with (PI / IZR T) in * by (field; exact HT'). field. intros H0. apply Hne. lra.
Qed.

Lemma reset_explodes o0 ps lbd T fs gs :
  (0 < T)%Z -> Z.of_nat (List.length fs) = T -> Z.of_nat (List.length gs) = T ->
  exists c, reset_run o0 ps lbd T T fs gs = (c, None) /\ 1 + 4 * (IZR T / PI) * (IZR T / PI) <= i_lr (k_lbd c).
Proof.
  intros HT Hf Hg. destruct gs as [|g gs]; [cbn in Hg; lia|].
  cbn [List.length] in Hg. rewrite Nat2Z.inj_succ in Hg.
  destruct (reset_equal o0 ps lbd T fs g gs HT Hf ltac:(lia)) as (c & E & L). exists c. split; [exact E|].
  rewrite L. replace (1 + Z.of_nat (List.length gs))%Z with T by lia.
  assert (H1 : 1 <= IZR T) by (apply (IZR_le 1); lia).
  replace (PI * IZR T / IZR T) with PI by (field; lra). rewrite cos_PI.
  pose proof PI_RGT_0 as Hp. set (x := PI / IZR T).
  assert (Hx : 0 < x) by (apply Rdiv_lt_0_compat; lra).
  assert (Hx2 : x <= PI). { unfold x. apply Rmult_le_reg_r with (IZR T); [lra|]. unfold Rdiv. rewrite Rmult_assoc, Rinv_l by lra. nra. }
  assert (Ec : 1 - cos x = 2 * (sin (x / 2) * sin (x / 2))).
  { replace x with (2 * (x / 2)) at 1 by field. rewrite cos_2a_sin. ring. }
  assert (Hs0 : 0 < sin (x / 2)) by (apply sin_gt_0; lra).
  assert (Hs1 : sin (x / 2) < x / 2) by (apply sin_lt_x; lra).
  assert (Hc0 : 0 < 1 - cos x) by (rewrite Ec; nra).
  assert (Hc1 : 1 - cos x <= x * x / 2) by (rewrite Ec; nra).
  assert (Hi : / (x * x / 2) <= / (1 - cos x)) by (apply Rinv_le_contravar; assumption).
  replace (4 * (IZR T / PI) * (IZR T / PI)) with (2 * / (x * x / 2)) by (unfold x; field; lra).
  lra.
Qed.
(* ---- checkpoints and steps ---- *)
Lemma saved_after_step (f g : upd A H S) (c : comp) :
  let d := comp_state_dict (fst (comp_step f g c)) in
  exists sp sl, lookup "params" d = Some sp /\ lookup "lbd" d = Some sl /\
    (v_opts sp, v_state sp) = f (k_params c) /\ (v_opts sl, v_state sl) = g (k_lbd c) /\
    v_count sp = List.length (i_params (k_params c)) /\ v_count sl = List.length (i_params (k_lbd c)).
Proof.
  intros d. exists (inner_save (k_params (fst (comp_step f g c)))), (inner_save (k_lbd (fst (comp_step f g c)))).
  split; [reflexivity|]. split; [reflexivity|]. unfold comp_step, inner_step.
  destruct (f (k_params c)) as [h1 s1]. destruct (g (k_lbd c)) as [h2 s2].
  destruct (k_sched c) as [[hp hl]|]; [|repeat split]. unfold sched_step.
  destruct (cosine_next (h_T hp) _ _); [|repeat split]. destruct (cosine_next (h_T hl) _ _); repeat split.
Qed.

Lemma act_unscheduled a (c : comp) : k_sched c = None -> k_sched (fst (comp_act a c)) = None.
Proof.
  intros N. destruct a; cbn [comp_act]; auto.
  - unfold comp_step. rewrite N. reflexivity.
  - unfold comp_load. destruct (load_one "params" d (k_params c)); [|exact N]. destruct (load_one "lbd" d (k_lbd c)); exact N.
  - unfold comp_reset. destruct (inner_load (k_lbd c) (k_init c)); exact N.
Qed.
Lemma acts_unscheduled l : forall c : comp, k_sched c = None -> k_sched (comp_acts l c) = None.
Proof. induction l as [|a l IH]; intros c N; cbn; [exact N|]. apply IH, act_unscheduled, N. Qed.

Lemma resume_plain (o0 : H) (ps : list A) lbd pre train pre' train' (l : list act) :
  let c := comp_acts l (comp_init o0 ps lbd pre train false) in
  comp_load (comp_state_dict c) (comp_init o0 ps lbd pre' train' false) = (c, None).
Proof.
  intros c. assert (W : wfc o0 ps lbd c) by (apply acts_wf; repeat split).
  assert (N : k_sched c = None) by (apply acts_unscheduled; reflexivity).
  destruct W as (I & P & L). destruct c as [[p1 p2 p3 p4] [l1 l2 l3 l4] h i]. cbn in I, P, L, N. subst.
  unfold comp_load, load_one, comp_state_dict, inner_load, inner_save, comp_init, make_optim. cbn. rewrite Nat.eqb_refl. cbn. reflexivity.
Qed.
End Composite.
Arguments reset_run {A H S}.
Arguments steps_of {A H S}. Arguments same_state {A H S}.
