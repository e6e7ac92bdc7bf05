(* Properties C38-C40: the hybrid optimisers of solvers/hybrid_opt.py. *)
From Coq Require Import Reals List String Lra.
From Verif Require Import PyBase RList XReal HybridOpt_Model HybridOpt_Spec HybridOpt_Proofs.
Import ListNotations.
Open Scope R_scope.

(* C38. Whatever the inner optimiser does, 'mwu' parameters are positive after a step, 'mwu_simplex' ones moreover sum to one. *)
Theorem C38_mwu_positive :
  forall inner gs gs' i g, keeps_groups inner -> hstep inner gs = (gs', None) -> nth_error gs i = Some g -> only "mwu" g ->
    exists g', nth_error gs' i = Some g' /\ Forall positive (g_params g').
Proof. exact mwu_positive. Qed.
Print Assumptions C38_mwu_positive.

Theorem C38_simplex :
  forall inner gs gs' i g, keeps_groups inner -> hstep inner gs = (gs', None) -> nth_error gs i = Some g -> only "mwu_simplex" g ->
    exists g', nth_error gs' i = Some g' /\ Forall (fun p => positive p /\ (val p <> [] -> rsum (val p) = 1)) (g_params g').
Proof. exact simplex_spec. Qed.
Print Assumptions C38_simplex.

(* With plain gradient descent the step multiplies each entry by exp(-lr*grad) (and normalises). *)
Theorem C38_mwu_factor :
  forall gs gs' i g, hstep sgd gs = (gs', None) -> nth_error gs i = Some g -> only "mwu" g ->
    exists g', nth_error gs' i = Some g' /\
      Forall2 (fun p p' => positive p /\ val p' = mw (g_lr g) p /\ positive p') (g_params g) (g_params g').
Proof. exact mwu_step. Qed.
Print Assumptions C38_mwu_factor.

Theorem C38_simplex_factor :
  forall gs gs' i g, hstep sgd gs = (gs', None) -> nth_error gs i = Some g -> only "mwu_simplex" g ->
    exists g', nth_error gs' i = Some g' /\
      Forall2 (fun p p' => positive p /\ val p' = normalised (mw (g_lr g) p)) (g_params g) (g_params g').
Proof. exact simplex_step. Qed.
Print Assumptions C38_simplex_factor.

(* Training for any number of steps, with any gradients, from positive weights: no step fails, weights stay positive. *)
Theorem C38_training :
  forall hist gs,
    Forall (fun g => (only "mwu" g \/ only "mwu_simplex" g) /\ Forall positive (g_params g) \/ no_rule g \/ only "max" g \/ only "non_neg" g) gs ->
    Forall (fun ds => List.length ds = List.length gs) hist ->
    exists gs', train sgd hist gs = (gs', None) /\ map g_keys gs' = map g_keys gs /\
      Forall (fun g => only "mwu" g \/ only "mwu_simplex" g -> Forall positive (g_params g)) gs'.
Proof. exact train_positive. Qed.
Print Assumptions C38_training.

Definition grp k v d : group := {| g_keys := ["params"; "lr"; k]%string; g_lr := 1; g_params := [{| val := v; grad := Some d |}] |}.
Lemma grp_only k v d : In k rule_names -> only k (grp k v d).
Proof.
  intros H. split; [exact H|]. split; [right; right; left; reflexivity|]. intros k' H1 [<-|[<-|[H2|[]]]]; [| |congruence]; exfalso;
  simpl in H1; repeat (destruct H1 as [H1|H1]; [discriminate|]); exact H1.
Qed.

Example C38_case :
  only "mwu" (grp "mwu" [1; 2] [0; 0]) /\ only "mwu_simplex" (grp "mwu_simplex" [1; 2] [3; 4]) /\
  Forall positive (g_params (grp "mwu" [1; 2] [0; 0])) /\
  (exists gs', hstep sgd [grp "mwu" [1; 2] [0; 0]; grp "mwu_simplex" [1; 2] [3; 4]] = (gs', None)) /\ keeps_groups sgd.
Proof.
  split; [apply grp_only; simpl; tauto|]. split; [apply grp_only; simpl; tauto|]. split; [repeat constructor; simpl; lra|]. split.
  - destruct (good_hstep [grp "mwu" [1; 2] [0; 0]; grp "mwu_simplex" [1; 2] [3; 4]]) as (gs' & E & _); [|eauto].
    constructor; [|constructor; [|constructor]]; left; (split; [|repeat constructor; simpl; lra]).
    + left. apply grp_only; simpl; tauto.
    + right. apply grp_only; simpl; tauto.
  - intros gs. unfold sgd. simpl. induction gs; constructor; auto. simpl. rewrite map_length. auto.
Qed.

(* C39. 'non_neg' parameters are non-negative after a step of any inner optimiser. *)
Theorem C39_non_neg :
  forall inner gs gs' i g, keeps_groups inner -> hstep inner gs = (gs', None) -> nth_error gs i = Some g -> only "non_neg" g ->
    exists g', nth_error gs' i = Some g' /\ Forall (fun p => Forall (fun x => 0 <= x) (val p)) (g_params g').
Proof. exact non_neg_spec. Qed.
Print Assumptions C39_non_neg.

(* With plain gradient descent inside: a projected step, an ascent step, a clipped step. *)
Theorem C39_projected :
  forall gs gs' i g, hstep sgd gs = (gs', None) -> nth_error gs i = Some g -> only "non_neg" g ->
    exists g', nth_error gs' i = Some g' /\ Forall2 (fun p p' => val p' = map (Rmax 0) (descent (g_lr g) p)) (g_params g) (g_params g').
Proof. exact non_neg_step. Qed.
Print Assumptions C39_projected.

Theorem C39_ascent :
  forall gs gs' i g, hstep sgd gs = (gs', None) -> nth_error gs i = Some g -> only "max" g ->
    exists g', nth_error gs' i = Some g' /\ Forall2 (fun p p' => val p' = ascent (g_lr g) p) (g_params g) (g_params g').
Proof. exact max_step. Qed.
Print Assumptions C39_ascent.

Theorem C39_clipped :
  forall gs gs' i g, hstep sgd gs = (gs', None) -> nth_error gs i = Some g -> only "bound" g ->
    exists g', nth_error gs' i = Some g' /\
      Forall2 (fun p p' => exists d, grad p = Some d /\ val p' = map2 (fun x y => x - g_lr g * clip y) (val p) d) (g_params g) (g_params g').
Proof. exact bound_step. Qed.
Print Assumptions C39_clipped.

Theorem C39_clip :
  forall x, - 100 <= clip x <= 100 /\ (- 100 <= x <= 100 -> clip x = x).
Proof. exact clip_bounds. Qed.
Print Assumptions C39_clip.

(* Groups without rules: exactly the inner optimiser, alone or next to other groups. *)
Theorem C39_no_rules :
  forall inner gs, keeps_groups inner -> Forall no_rule gs -> hstep inner gs = inner gs.
Proof. exact rules_free. Qed.
Print Assumptions C39_no_rules.

Theorem C39_unlabelled_group :
  forall gs gs' i g, hstep sgd gs = (gs', None) -> nth_error gs i = Some g -> no_rule g ->
    nth_error gs' i = Some {| g_keys := g_keys g; g_lr := g_lr g; g_params := map (sgd_par (g_lr g)) (g_params g) |}.
Proof. exact free_step. Qed.
Print Assumptions C39_unlabelled_group.

Example C39_case :
  exists gs', hstep sgd [grp "max" [1] [3]; grp "bound" [1] [300]; grp "non_neg" [1] [5]; grp "weight" [1] [5]] = (gs', None) /\
    only "max" (grp "max" [1] [3]) /\ only "bound" (grp "bound" [1] [300]) /\ only "non_neg" (grp "non_neg" [1] [5]) /\ no_rule (grp "weight" [1] [5]).
Proof.
  eexists. split; [reflexivity|]. repeat (split; [apply grp_only; simpl; tauto|]).
  intros k H1 [<-|[<-|[<-|[]]]]; simpl in H1; repeat (destruct H1 as [H1|H1]; [discriminate|]); exact H1.
Qed.

(* C40. When the inner step fails, groups with other rules than 'mwu', 'mwu_simplex' and 'max' keep their values ... *)
Theorem C40_untransformed :
  forall e gs inner, (forall g, inner g = (g, Some e)) ->
    Forall (fun g => ~ In "mwu"%string (g_keys g) /\ ~ In "mwu_simplex"%string (g_keys g) /\ ~ In "max"%string (g_keys g)) gs ->
    exists x, snd (hstep inner gs) = Some x /\
      map (fun g => map val (g_params g)) (fst (hstep inner gs)) = map (fun g => map val (g_params g)) gs.
Proof. exact fail_keeps. Qed.
Print Assumptions C40_untransformed.

(* ... but weights are left as their logarithms, ... *)
Theorem C40_logarithms :
  forall e gs inner, (forall g, inner g = (g, Some e)) ->
    Forall (fun g => (only "mwu" g \/ only "mwu_simplex" g) /\ Forall positive (g_params g)) gs ->
    snd (hstep inner gs) = Some e /\
    map (fun g => map val (g_params g)) (fst (hstep inner gs)) = map (fun g => map (fun p => map ln (val p)) (g_params g)) gs.
Proof. exact fail_log. Qed.
Print Assumptions C40_logarithms.

Theorem C40_refuted :
  exists gs inner e, (forall g, inner g = (g, Some e)) /\ snd (hstep inner gs) = Some e /\
    map (fun g => map val (g_params g)) gs = [[[1]]] /\ map (fun g => map val (g_params g)) (fst (hstep inner gs)) = [[[0]]].
Proof.
  exists [grp "mwu" [1] [0]], (fun g => (g, Some UserExn)), UserExn. split; [reflexivity|].
  destruct (fail_log UserExn [grp "mwu" [1] [0]] (fun g => (g, Some UserExn))) as [H1 H2]; [reflexivity| |].
  - constructor; [|constructor]. split; [left; apply grp_only; simpl; tauto|repeat constructor; simpl; lra].
  - split; [exact H1|]. split; [reflexivity|]. rewrite H2. simpl. rewrite ln_1. reflexivity.
Qed.
Print Assumptions C40_refuted.

(* ... and a group naming both 'mwu' and 'non_neg' makes every step fail after the update, in logarithms. *)
Theorem C40_two_rules :
  forall ps lr, Forall positive ps ->
    hstep sgd [{| g_keys := ["params"; "lr"; "mwu"; "non_neg"]%string; g_lr := lr; g_params := ps |}] =
      ([{| g_keys := ["params"; "lr"; "mwu"; "non_neg"]%string; g_lr := lr; g_params := map (fun p => sgd_par lr (upd (map ln) p)) ps |}],
       Some AssertionError).
Proof. exact mwu_non_neg. Qed.
Print Assumptions C40_two_rules.

(* An exception ends a training history, whatever was still to come. *)
Theorem C40_training_ends :
  forall e gs inner ds rest, (forall g, inner g = (g, Some e)) -> Forall no_rule gs -> List.length ds = List.length gs ->
    snd (train inner (ds :: rest) gs) = Some e.
Proof.
  intros e gs inner ds rest H F L. cbn [train].
  assert (N : Forall no_rule (set_grads ds gs)).
  { unfold set_grads. clear H. revert ds L. induction F as [|g gs Hg F IH]; intros [|d ds] L; cbn [map2]; try constructor; try discriminate.
    - exact Hg.
    - apply IH. injection L. auto. }
  assert (K : hstep inner (set_grads ds gs) = (set_grads ds gs, Some e)).
  { rewrite rules_free; [apply H| |exact N]. intros l. rewrite H. cbn [fst]. induction l; constructor; auto. }
  rewrite K. reflexivity.
Qed.
Print Assumptions C40_training_ends.

Example C40_case :
  (forall g : list group, (fun g => (g, Some UserExn)) g = (g, Some UserExn)) /\ Forall positive [{| val := [1; 2]; grad := Some [1; 1] |}].
Proof. split; [reflexivity|]. repeat constructor; simpl; lra. Qed.

(* 'bound' clips the gradients themselves, so a parameter that has none makes every step fail before the inner optimiser runs, and the parameters keep their values. *)
Lemma apply_bound_fails ps : Exists (fun p => grad p = None) ps -> snd (apply_params pre_bound ps) = Some AttributeError.
Proof.
  induction 1 as [p ps H|p ps H IH]; cbn [apply_params]; unfold pre_bound at 1.
  - rewrite H. reflexivity.
  - destruct (grad p); [|reflexivity]. destruct (apply_params pre_bound ps) as [r x]. exact IH.
Qed.
Lemma apply_bound_vals ps : map val (fst (apply_params pre_bound ps)) = map val ps.
Proof.
  induction ps as [|p ps IH]; cbn [apply_params]; [reflexivity|]. unfold pre_bound at 1. destruct (grad p); [|reflexivity].
  destruct (apply_params pre_bound ps) as [r x]. cbn [fst map] in *. now rewrite IH.
Qed.
Theorem C39_bound_needs_gradients :
  forall inner g rest, only "bound" g -> Exists (fun p => grad p = None) (g_params g) ->
    snd (hstep inner (g :: rest)) = Some AttributeError /\
    map (fun g => map val (g_params g)) (fst (hstep inner (g :: rest))) = map (fun g => map val (g_params g)) (g :: rest).
Proof.
  intros inner g rest O H. pose proof (apply_bound_fails _ H) as F. pose proof (apply_bound_vals (g_params g)) as V.
  destruct (inter_only _ _ O) as [I _]. unfold hstep. cbn [apply_rules]. rewrite I. cbn.
  destruct (apply_params pre_bound (g_params g)) as [ps [e|]]; cbn in *; [|discriminate]. injection F as ->. now rewrite V.
Qed.
Print Assumptions C39_bound_needs_gradients.

(* A parameter with an entry that is not positive stops a step of multiplicative weights before the inner optimiser runs; the parameters
   of its group listed before it have already been replaced by their logarithms. *)
Lemma apply_mwu_fails qs p rs : Forall positive qs -> ~ positive p -> apply_params pre_mwu (qs ++ p :: rs) = (map (upd (map ln)) qs ++ p :: rs, Some AssertionError).
Proof.
  assert (P : forall p, forallb (fun x => Rltb 0 x) (val p) = true <-> positive p).
  { intros q. unfold positive. rewrite forallb_forall, Forall_forall. split; intros H x Hx; apply Rltb_true; auto. }
  intros F N. induction F as [|q qs Hq F IH]; cbn [app apply_params map].
  - unfold pre_mwu. destruct (forallb _ _) eqn:E; [apply P in E; contradiction|reflexivity].
  - unfold pre_mwu at 1. apply P in Hq. rewrite Hq, IH. reflexivity.
Qed.
Theorem C40_not_positive :
  forall key inner g qs p rs rest, key = "mwu"%string \/ key = "mwu_simplex"%string -> only key g -> g_params g = qs ++ p :: rs -> Forall positive qs -> ~ positive p ->
    exists g', hstep inner (g :: rest) = (g' :: rest, Some AssertionError) /\ g_params g' = map (upd (map ln)) qs ++ p :: rs.
Proof.
  intros key inner g qs p rs rest K O E F N. exists (with_params g (map (upd (map ln)) qs ++ p :: rs)). split; [|reflexivity]. destruct (inter_only _ _ O) as [I _]. unfold hstep. cbn [apply_rules]. rewrite I.
  destruct K as [-> | ->]; cbn; rewrite E, apply_mwu_fails by assumption; reflexivity.
Qed.
Print Assumptions C40_not_positive.

(* ---------- concrete cases of the theorems above, one each ---------- *)
(* an inner optimiser that overwrites every entry by -5 *)
Definition minus_five (gs : list group) : list group * option exn :=
  (map (fun g => with_params g (map (upd (map (fun _ => -5))) (g_params g))) gs, None).
Lemma minus_five_keeps : keeps_groups minus_five.
Proof. intros gs. induction gs; constructor; auto. simpl. rewrite map_length. auto. Qed.
Lemma positive_12 k d : Forall positive (g_params (grp k [1; 2] d)).
Proof. repeat constructor; simpl; lra. Qed.
Lemma mwu_ln d : pre_mwu {| val := [1; 2]; grad := d |} = ({| val := [ln 1; ln 2]; grad := d |}, None).
Proof.
  unfold pre_mwu. cbn [val forallb].
  assert (A : Rltb 0 1 = true) by (apply Rltb_true; lra). assert (B : Rltb 0 2 = true) by (apply Rltb_true; lra). now rewrite A, B.
Qed.
Lemma mwu_runs inner : (inner = sgd \/ inner = minus_five) -> exists gs', hstep inner [grp "mwu" [1; 2] [3; 4]] = (gs', None).
Proof. intros [->| ->]; unfold hstep; cbn; rewrite mwu_ln; cbn; eexists; reflexivity. Qed.
Lemma simplex_runs inner : (inner = sgd \/ inner = minus_five) -> exists gs', hstep inner [grp "mwu_simplex" [1; 2] [3; 4]] = (gs', None).
Proof. intros [->| ->]; unfold hstep; cbn; rewrite mwu_ln; cbn; eexists; reflexivity. Qed.
Example C38_mwu_positive_case : exists gs', hstep minus_five [grp "mwu" [1; 2] [3; 4]] = (gs', None) /\
  exists g', nth_error gs' 0 = Some g' /\ Forall positive (g_params g').
Proof.
  destruct (mwu_runs minus_five) as [gs' E]; [tauto|]. exists gs'. split; [exact E|].
  eapply C38_mwu_positive; [exact minus_five_keeps|exact E|reflexivity|apply grp_only; simpl; tauto].
Qed.
Example C38_simplex_case : exists gs', hstep minus_five [grp "mwu_simplex" [1; 2] [3; 4]] = (gs', None) /\
  exists g', nth_error gs' 0 = Some g' /\ Forall (fun p => positive p /\ (val p <> [] -> rsum (val p) = 1)) (g_params g').
Proof.
  destruct (simplex_runs minus_five) as [gs' E]; [tauto|]. exists gs'. split; [exact E|].
  eapply C38_simplex; [exact minus_five_keeps|exact E|reflexivity|apply grp_only; simpl; tauto].
Qed.
Example C38_mwu_factor_case : exists p', hstep sgd [grp "mwu" [1; 2] [3; 4]] = ([{| g_keys := ["params"; "lr"; "mwu"]%string; g_lr := 1; g_params := [p'] |}], None) /\
  val p' = [1 * exp (- (1) * 3); 2 * exp (- (1) * 4)].
Proof.
  eexists {| val := _; grad := Some [3; 4] |}. split.
  - unfold hstep. cbn. rewrite mwu_ln. cbn. reflexivity.
  - destruct (mwu_runs sgd) as [gs' E]; [tauto|].
    destruct (C38_mwu_factor _ _ 0 _ E eq_refl (grp_only "mwu" _ _ ltac:(simpl; tauto))) as (g' & N & F).
    unfold hstep in E. cbn in E. rewrite mwu_ln in E. cbn in E. injection E as E. subst gs'. cbn in N. injection N as <-.
    cbn in F. inversion F as [|p p1 l l1 (_ & V & _) _]; subst. exact V.
Qed.
Example C38_simplex_factor_case : exists gs' g', hstep sgd [grp "mwu_simplex" [1; 2] [3; 4]] = (gs', None) /\ nth_error gs' 0 = Some g' /\
  Forall2 (fun p p' => positive p /\ val p' = normalised (mw 1 p)) [{| val := [1; 2]; grad := Some [3; 4] |}] (g_params g').
Proof.
  destruct (simplex_runs sgd) as [gs' E]; [tauto|].
  destruct (C38_simplex_factor _ _ 0 _ E eq_refl (grp_only "mwu_simplex" _ _ ltac:(simpl; tauto))) as (g' & N & F).
  exists gs', g'. split; [exact E|]. split; [exact N|exact F].
Qed.
(* two rounds of gradients for a weight group, a simplex group and an ascent group *)
Example C38_training_case : exists gs', train sgd [[[Some [1; -1]]; [Some [5; 5]]; [Some [2]]]; [[Some [0; 7]]; [None]; [Some [-2]]]]
    [grp "mwu" [1; 2] [0; 0]; grp "mwu_simplex" [1; 2] [0; 0]; grp "max" [-1] [0]] = (gs', None) /\
  Forall (fun g => only "mwu" g \/ only "mwu_simplex" g -> Forall positive (g_params g)) gs'.
Proof.
  destruct (C38_training [[[Some [1; -1]]; [Some [5; 5]]; [Some [2]]]; [[Some [0; 7]]; [None]; [Some [-2]]]]
    [grp "mwu" [1; 2] [0; 0]; grp "mwu_simplex" [1; 2] [0; 0]; grp "max" [-1] [0]]) as (gs' & A & _ & B); [| |exists gs'; tauto].
  - constructor; [left; split; [left; apply grp_only; simpl; tauto|apply positive_12]|].
    constructor; [left; split; [right; apply grp_only; simpl; tauto|apply positive_12]|].
    constructor; [right; right; left; apply grp_only; simpl; tauto|constructor].
  - repeat constructor.
Qed.
Lemma others_run : hstep sgd [grp "max" [1] [3]; grp "bound" [1] [300]; grp "non_neg" [1] [5]; grp "weight" [1] [5]] =
  ([grp "max" [- (- (1) - 1 * 3)] [3]; grp "bound" [1 - 1 * clip 300] [clip 300]; grp "non_neg" [Rmax 0 (1 - 1 * 5)] [5]; grp "weight" [1 - 1 * 5] [5]], None).
Proof. reflexivity. Qed.
Lemma weight_no_rule v d : no_rule (grp "weight" v d).
Proof. intros k H1 [<-|[<-|[<-|[]]]]; simpl in H1; repeat (destruct H1 as [H1|H1]; [discriminate|]); exact H1. Qed.
Example C39_non_neg_case : exists gs', hstep minus_five [grp "weight" [1] [5]; grp "non_neg" [1; 3] [5; 5]] = (gs', None) /\
  exists g', nth_error gs' 1 = Some g' /\ Forall (fun p => Forall (fun x => 0 <= x) (val p)) (g_params g').
Proof.
  eexists. split; [reflexivity|]. eapply (C39_non_neg minus_five [grp "weight" [1] [5]; grp "non_neg" [1; 3] [5; 5]] _ 1); [exact minus_five_keeps|reflexivity|reflexivity|apply grp_only; simpl; tauto].
Qed.
Ltac one_group F := let V := fresh in inversion F as [|? ? ? ? V _]; subst; exact V.
Example C39_projected_case : Rmax 0 (1 - 1 * 5) = 0 /\ exists g', nth_error (fst (hstep sgd [grp "max" [1] [3]; grp "bound" [1] [300]; grp "non_neg" [1] [5]; grp "weight" [1] [5]])) 2 = Some g' /\ map val (g_params g') = [[0]].
Proof.
  assert (M : Rmax 0 (1 - 1 * 5) = 0) by (apply Rmax_left; lra). split; [exact M|].
  destruct (C39_projected _ _ 2 _ others_run eq_refl (grp_only "non_neg" _ _ ltac:(simpl; tauto))) as (g' & N & F).
  exists g'. split; [rewrite others_run; exact N|]. cbn in N. injection N as <-. cbn. now rewrite M.
Qed.
Example C39_ascent_case : exists g', nth_error (fst (hstep sgd [grp "max" [1] [3]; grp "bound" [1] [300]; grp "non_neg" [1] [5]; grp "weight" [1] [5]])) 0 = Some g' /\ map val (g_params g') = [[4]].
Proof.
  destruct (C39_ascent _ _ 0 _ others_run eq_refl (grp_only "max" _ _ ltac:(simpl; tauto))) as (g' & N & F).
  exists g'. split; [rewrite others_run; exact N|]. cbn in F. inversion F as [|? p' ? ? V W]; subst. inversion W; subst. cbn in V.
  cbn. rewrite V. repeat f_equal. lra.
Qed.
Example C39_clipped_case : clip 300 = 100 /\ exists g', nth_error (fst (hstep sgd [grp "max" [1] [3]; grp "bound" [1] [300]; grp "non_neg" [1] [5]; grp "weight" [1] [5]])) 1 = Some g' /\ map val (g_params g') = [[-99]].
Proof.
  assert (M : clip 300 = 100) by (unfold clip, BOUND; rewrite Rmax_right by lra; apply Rmin_left; lra). split; [exact M|].
  destruct (C39_clipped _ _ 1 _ others_run eq_refl (grp_only "bound" _ _ ltac:(simpl; tauto))) as (g' & N & F).
  exists g'. split; [rewrite others_run; exact N|]. cbn in F. inversion F as [|? p' ? ? (d & D & V) W]; subst. inversion W; subst. cbn in D. injection D as <-. cbn in V.
  cbn. rewrite V, M. repeat f_equal. lra.
Qed.
Example C39_clip_case : clip 42 = 42 /\ -100 <= clip (-1000) <= 100.
Proof. split; [apply C39_clip; lra|apply C39_clip]. Qed.
Example C39_no_rules_case : hstep minus_five [grp "weight" [1] [5]; grp "weight" [2] [5]] = ([grp "weight" [-5] [5]; grp "weight" [-5] [5]], None).
Proof. rewrite C39_no_rules; [reflexivity|exact minus_five_keeps|repeat constructor; apply weight_no_rule]. Qed.
Example C39_unlabelled_group_case : exists gs', hstep sgd [grp "max" [1] [3]; grp "bound" [1] [300]; grp "non_neg" [1] [5]; grp "weight" [1] [5]] = (gs', None) /\ nth_error gs' 3 = Some (grp "weight" [1 - 1 * 5] [5]).
Proof. eexists. split; [exact others_run|]. exact (C39_unlabelled_group _ _ 3 _ others_run eq_refl (weight_no_rule _ _)). Qed.
Example C39_bound_needs_gradients_case :
  snd (hstep sgd [{| g_keys := ["params"; "lr"; "bound"]%string; g_lr := 1; g_params := [{| val := [1]; grad := Some [300] |}; {| val := [2]; grad := None |}] |}; grp "max" [1] [3]]) = Some AttributeError.
Proof.
  apply C39_bound_needs_gradients; [|right; left; reflexivity].
  destruct (grp_only "bound" [] [] ltac:(simpl; tauto)) as (A & B & C). split; [exact A|]. split; [exact B|exact C].
Qed.
Example C40_not_positive_case : exists g', hstep minus_five [{| g_keys := ["params"; "lr"; "mwu"]%string; g_lr := 1; g_params := [{| val := [1; 2]; grad := None |}; {| val := [3; 0]; grad := None |}] |}] = ([g'], Some AssertionError) /\
  map val (g_params g') = [[ln 1; ln 2]; [3; 0]].
Proof.
  edestruct (C40_not_positive "mwu" minus_five {| g_keys := ["params"; "lr"; "mwu"]%string; g_lr := 1; g_params := [{| val := [1; 2]; grad := None |}; {| val := [3; 0]; grad := None |}] |}
    [{| val := [1; 2]; grad := None |}] {| val := [3; 0]; grad := None |} [] []) as (g' & H & V); [left; reflexivity| |reflexivity| | |].
  - destruct (grp_only "mwu" [] [] ltac:(simpl; tauto)) as (A & B & C). split; [exact A|]. split; [exact B|exact C].
  - repeat constructor; simpl; lra.
  - intros P. inversion P as [|? ? _ Q]. inversion Q. lra.
  - exists g'. split; [exact H|]. rewrite V. reflexivity.
Qed.
Definition broken_inner (gs : list group) : list group * option exn := (gs, Some RuntimeError).
Example C40_untransformed_case : exists x, snd (hstep broken_inner [grp "bound" [1] [300]; grp "non_neg" [1] [5]]) = Some x /\
  map (fun g => map val (g_params g)) (fst (hstep broken_inner [grp "bound" [1] [300]; grp "non_neg" [1] [5]])) = [[[1]]; [[1]]].
Proof.
  apply (C40_untransformed RuntimeError [grp "bound" [1] [300]; grp "non_neg" [1] [5]] broken_inner); [reflexivity|].
  repeat constructor; simpl; intuition discriminate.
Qed.
Example C40_logarithms_case : snd (hstep broken_inner [grp "mwu" [1; 2] [3; 4]; grp "mwu_simplex" [1; 2] [3; 4]]) = Some RuntimeError /\
  map (fun g => map val (g_params g)) (fst (hstep broken_inner [grp "mwu" [1; 2] [3; 4]; grp "mwu_simplex" [1; 2] [3; 4]])) = [[[ln 1; ln 2]]; [[ln 1; ln 2]]].
Proof.
  apply (C40_logarithms RuntimeError [grp "mwu" [1; 2] [3; 4]; grp "mwu_simplex" [1; 2] [3; 4]] broken_inner); [reflexivity|].
  constructor; [split; [left; apply grp_only; simpl; tauto|apply positive_12]|constructor; [split; [right; apply grp_only; simpl; tauto|apply positive_12]|constructor]].
Qed.
Example C40_two_rules_case : hstep sgd [{| g_keys := ["params"; "lr"; "mwu"; "non_neg"]%string; g_lr := 1; g_params := [{| val := [1; 2]; grad := Some [3; 4] |}] |}] =
  ([{| g_keys := ["params"; "lr"; "mwu"; "non_neg"]%string; g_lr := 1; g_params := [{| val := [ln 1 - 1 * 3; ln 2 - 1 * 4]; grad := Some [3; 4] |}] |}], Some AssertionError).
Proof. rewrite C40_two_rules by (repeat constructor; simpl; lra). reflexivity. Qed.
Example C40_training_ends_case : snd (train broken_inner [[[Some [1]]]; [[Some [2]]]; [[Some [3]]]] [grp "weight" [1] [5]]) = Some RuntimeError.
Proof. apply C40_training_ends; [reflexivity|repeat constructor; apply weight_no_rule|reflexivity]. Qed.
