From Coq Require Import Reals List Bool String ZArith Lra Lia.
From Verif Require Import PyBase RList XReal Dual_Model InitGuess_Model Oracle_Model Oracle_Spec.
Import ListNotations.
Local Open Scope R_scope.
Local Open Scope string_scope.
Local Open Scope R_scope.

(* ---- not_negative is preserved ---- *)
Lemma nn_add x y : not_negative x -> not_negative y -> not_negative (xadd x y).
Proof. destruct x, y; simpl; auto; lra. Qed.

Lemma nn_mul x y : not_negative x -> not_negative y -> not_negative (xmul x y).
Proof.
  destruct x as [a| | |], y as [b| | |]; simpl; auto; intros Ha Hb; try contradiction; try (now apply Rmult_le_pos);
    unfold inf_times; destruct (Reqb _ 0) eqn:E; simpl; auto;
    (destruct (Rltb _ 0) eqn:E'; [apply Rltb_true in E'; lra|exact I]).
Qed.

Lemma nn_div x y : not_negative x -> not_negative y -> not_negative (xdiv x y).
Proof.
  destruct x as [a| | |], y as [b| | |]; simpl; auto; intros Ha Hb; try contradiction.
  - destruct (Reqb b 0) eqn:E.
    + destruct (Reqb a 0); simpl; auto. destruct (Rltb a 0) eqn:E'; [apply Rltb_true in E'; lra|exact I].
    + apply Reqb_false in E. simpl. apply Rmult_le_pos; [exact Ha|]. left. apply Rinv_0_lt_compat. lra.
  - lra.
  - destruct (Rltb b 0) eqn:E; [apply Rltb_true in E; lra|exact I].
Qed.

Lemma nn_pow x e : not_negative (xpow x e).
Proof.
  destruct e as [e| | |]; simpl.
  - destruct (Reqb e 0); [simpl; lra|]. destruct x as [r| | |]; simpl; auto.
    + destruct (Reqb r 0); [destruct (Rltb 0 e); simpl; auto; lra|simpl; left; apply exp_pos].
    + destruct (Rltb 0 e); simpl; auto; lra.
  - destruct x as [r| | |]; simpl; auto. destruct (Rltb r 1); [simpl; lra|]. destruct (Reqb r 1); simpl; auto; lra.
  - destruct x as [r| | |]; simpl; auto; [|lra]. destruct (Rltb r 1); [simpl; auto|]. destruct (Reqb r 1); simpl; lra.
  - destruct x as [r| | |]; simpl; auto. destruct (Reqb r 1); simpl; auto; lra.
Qed.

Lemma nn_sum l : Forall not_negative l -> not_negative (xsum l).
Proof.
  intros H. induction H as [|x l Hx H IH]; [simpl; lra|].
  change (xsum (x :: l)) with (xadd x (xsum l)). apply nn_add; assumption.
Qed.

Opaque xadd xmul xdiv xpow.
Lemma nn_guess rho lam power gn l :
  not_negative lam -> 0 <= power -> initial_guess rho lam true power gn = Ok l -> not_negative l.
Proof.
  intros Hl Hp. unfold initial_guess. destruct (xlt (Fin 0) rho) eqn:E.
  - intros H. injection H as <-. assert (H0 : not_negative (Fin 0)) by (simpl; lra).
    assert (Hm : not_negative (Fin (INR (List.length gn)))) by (simpl; apply pos_INR).
    apply nn_add; [apply nn_mul; assumption|]. apply nn_div; [apply nn_pow|].
    apply nn_mul; [exact Hp|]. apply nn_mul; [exact Hm|apply nn_pow].
  - intros H. injection H as <-. apply nn_mul; [exact Hl|simpl; lra].
Qed.

Transparent xadd xmul xdiv xpow.

Lemma nn_clamp x : not_negative (clamp_min0 x).
Proof.
  unfold clamp_min0, xmax. destruct x as [r| | |]; simpl; auto; [|lra].
  destruct (Rltb r 0) eqn:E; simpl; [lra|]. apply Rltb_false in E. exact E.
Qed.

Lemma clamp_id x : not_negative x -> clamp_min0 x = x.
Proof.
  unfold clamp_min0, xmax. destruct x as [r| | |]; simpl; intros H; auto; [|contradiction].
  destruct (Rltb r 0) eqn:E; [apply Rltb_true in E; lra|reflexivity].
Qed.

Section W.
Variable T : Type.

Lemma step_not_negative opts scheds (w w' : world T) :
  composite_step opts scheds w = (w', None) -> not_negative (w_lam w').
Proof.
  unfold composite_step. destruct (run_effects (opts ++ scheds) w) as [w1 [e|]]; [discriminate|].
  intros H. injection H as <-. simpl. apply nn_clamp.
Qed.

Lemma step_is_projection opts scheds (w w1 : world T) :
  run_effects (opts ++ scheds) w = (w1, None) ->
  exists w', composite_step opts scheds w = (w', None) /\ w_rest w' = w_rest w1 /\
             (not_negative (w_lam w1) -> w_lam w' = w_lam w1) /\
             (forall r, w_lam w1 = Fin r -> w_lam w' = Fin (Rmax r 0)).
Proof.
  intros H. unfold composite_step. rewrite H. eexists. split; [reflexivity|]. simpl. split; [reflexivity|]. split.
  - apply clamp_id.
  - intros r ->. unfold clamp_min0, xmax; simpl. destruct (Rltb r 0) eqn:E.
    + apply Rltb_true in E. rewrite Rmax_right by lra. reflexivity.
    + apply Rltb_false in E. rewrite Rmax_left by lra. reflexivity.
Qed.

(* a power of the cost below 0 never occurs: the cost decoder and NormCost use positive powers *)
Definition event_ok (e : event T) : Prop := match e with EGuess _ power _ => 0 <= power | _ => True end.

Lemma history_not_negative (l : list (event T)) w w' :
  Forall event_ok l -> not_negative (w_lam w) -> do_events l w = (w', None) -> not_negative (w_lam w').
Proof.
  intros Hl. revert w. induction Hl as [|e l He Hl IH]; intros w Hw H; simpl in H; [injection H as <-; exact Hw|].
  destruct (do_event e w) as [w1 [x|]] eqn:E; [discriminate|]. apply (IH w1); [|exact H].
  destruct e as [o s|rho power gn|f]; simpl in E.
  - exact (step_not_negative o s w w1 E).
  - destruct (initial_guess rho (w_lam w) true power gn) as [l0|] eqn:Eg; [|discriminate]. injection E as <-. simpl.
    exact (nn_guess rho (w_lam w) power gn l0 Hw He Eg).
  - injection E as <-. exact Hw.
Qed.
End W.

Lemma dual_init_not_negative rho eps p red imp d : dual_init rho eps p red imp = Ok d -> 0 <= d_lam d.
Proof.
  unfold dual_init. intros H. injection H as <-. simpl. destruct rho as [r| | |]; try lra.
  destruct (Rltb 0 r) eqn:E; [|lra]. apply Rltb_true in E. left. apply Rdiv_lt_0_compat; lra.
Qed.

(* ---- param groups ---- *)
Lemma groups_lambda_only {A} (params : list A) lbd steps name c :
  composite_init params lbd steps name = Ok c ->
  c_params c = params /\ c_lbd c = [lbd] /\ c_own c = [lbd] /\ params <> [].
Proof.
  unfold composite_init. destruct (String.eqb name "mechanic" || String.eqb name "prodigy"); [|discriminate].
  destruct params as [|a l]; simpl; [discriminate|]. intros H. injection H as <-. simpl. repeat split. discriminate.
Qed.

Lemma composite_accepts {A} (params : list A) lbd steps name :
  (exists c, composite_init params lbd steps name = Ok c) <->
  ((name = "mechanic"%string \/ name = "prodigy"%string) /\ params <> []).
Proof.
  split.
  - intros [c H]. destruct (groups_lambda_only _ _ _ _ _ H) as [_ [_ [_ Hp]]]. split; [|exact Hp].
    unfold composite_init in H. destruct (String.eqb_spec name "mechanic"); [left; assumption|].
    destruct (String.eqb_spec name "prodigy"); [right; assumption|]. discriminate.
  - intros [Hn Hp]. unfold composite_init.
    assert (E : String.eqb name "mechanic" || String.eqb name "prodigy" = true).
    { destruct Hn as [-> | ->]; reflexivity. }
    rewrite E. destruct params as [|a l]; [contradiction|]. simpl. eexists. reflexivity.
Qed.

Lemma groups_witness :
  exists (params : list nat) lbd c, composite_init params lbd (200, 2800)%Z "prodigy" = Ok c /\
    exists x, In x params /\ ~ In x (c_own c).
Proof.
  exists [1%nat; 2%nat], 0%nat. eexists. split; [reflexivity|]. exists 1%nat. split; [left; reflexivity|].
  simpl. intros [H|[]]. discriminate.
Qed.

(* ---- schedules ---- *)
(* after the pretraining steps and j robust steps, every scheduler has been stepped pre + j times *)
Lemma lambda_schedule {A} (params : list A) lbd pre train c j :
  composite_init params lbd (pre, train) "prodigy" = Ok c ->
  exists Tp Tl, c_schedulers c = Some (Tp, Tl) /\
    cosine_factor Tl (pre + j) = (1 + cos (PI * IZR (pre + j) / IZR train)) / 2 /\
    cosine_factor Tp (pre + j) = (1 + cos (PI * IZR (pre + j) / IZR (pre + train))) / 2.
Proof.
  unfold composite_init. simpl. destruct params as [|a l]; simpl; [discriminate|].
  intros H. injection H as <-. do 2 eexists. repeat split.
Qed.

(* the schedule of the primal parameters goes down to 0 at the last step, and is never back up before *)
Lemma params_schedule pre train j :
  (0 <= pre)%Z -> (0 < train)%Z -> (0 <= j < train)%Z ->
  cosine_factor (pre + train) (pre + (j + 1)) < cosine_factor (pre + train) (pre + j) /\
  cosine_factor (pre + train) (pre + train) = 0.
Proof.
  intros Hp Ht Hj. unfold cosine_factor. set (N := (pre + train)%Z).
  assert (HN : 0 < IZR N) by (apply IZR_lt; unfold N; lia). split.
  - assert (H : cos (PI * IZR (pre + (j + 1)) / IZR N) < cos (PI * IZR (pre + j) / IZR N)); [|lra].
    assert (Hb : forall k, (0 <= k <= N)%Z -> 0 <= PI * IZR k / IZR N <= PI).
    { intros k [H1 H2]. apply IZR_le in H1. apply IZR_le in H2. pose proof PI_RGT_0. split.
      - apply Rmult_le_pos; [apply Rmult_le_pos; lra|left; apply Rinv_0_lt_compat; exact HN].
      - apply Rmult_le_reg_r with (IZR N); [exact HN|].
        replace (PI * IZR k / IZR N * IZR N) with (PI * IZR k) by (field; lra). apply Rmult_le_compat_l; lra. }
    apply cos_decreasing_1; try (apply Hb; unfold N; lia).
    apply Rmult_lt_compat_r; [apply Rinv_0_lt_compat; exact HN|]. apply Rmult_lt_compat_l; [apply PI_RGT_0|].
    apply IZR_lt. lia.
  - replace (PI * IZR N / IZR N) with PI by (field; lra). rewrite cos_PI. lra.
Qed.

Lemma schedule_witness :
  exists pre train c Tp Tl, (0 < pre)%Z /\ (0 < train)%Z /\
    composite_init [1%nat] 0%nat (pre, train) "prodigy" = Ok c /\ c_schedulers c = Some (Tp, Tl) /\
    cosine_factor Tl (pre + 0) = 0 /\ cosine_factor Tl (pre + train) = 1.
Proof.
  exists 10%Z, 10%Z. do 3 eexists. split; [lia|]. split; [lia|]. split; [reflexivity|]. split; [reflexivity|].
  unfold cosine_factor; simpl. split.
  - replace (PI * 10 / 10) with PI by field. rewrite cos_PI. lra.
  - replace (PI * 20 / 10) with (2 * PI) by field. rewrite cos_2PI. lra.
Qed.

(* ---- AdamW ---- *)
Lemma adamw_first lr x g :
  0 < g -> snd (adamw_step lr adam0 x g) = x - lr * (g / (g + / 100000000)).
Proof.
  intros Hg. unfold adamw_step, adam0; simpl. rewrite !Rmult_1_r, !Rmult_0_r, !Rplus_0_l.
  set (b := 1 - 999 / 1000). assert (Hb : 0 < b) by (unfold b; lra).
  assert (Hv : 0 < b * (g * g)) by (apply Rmult_lt_0_compat; nra).
  rewrite Rmax_right by lra. rewrite sqrt_mult, sqrt_square by nra.
  assert (Hs : 0 < sqrt b) by (apply sqrt_lt_R0; exact Hb).
  replace (sqrt b * g / sqrt b) with g by (field; lra). field. lra.
Qed.

Lemma adamw_negative rho eps p red imp d g :
  0 < rho -> 0 < g -> dual_init (Fin rho) eps p red imp = Ok d ->
  / 1000 / rho < / 20 * (g / (g + / 100000000)) ->
  snd (adamw_step (adamw_lr None) adam0 (d_lam d) g) < 0.
Proof.
  intros Hr Hg Hd H. rewrite adamw_first by exact Hg. unfold dual_init in Hd. injection Hd as <-. simpl.
  assert (E : Rltb 0 rho = true) by (apply Rltb_true; exact Hr). rewrite E. lra.
Qed.

Lemma adamw_given rho eps p red imp d g r :
  0 < rho -> 0 < g -> dual_init (Fin rho) eps p red imp = Ok d ->
  snd (adamw_step (adamw_lr (Some r)) adam0 (d_lam d) g) = / 1000 / rho - r * (g / (g + / 100000000)) /\
  (snd (adamw_step (adamw_lr (Some r)) adam0 (d_lam d) g) < 0 <-> / 1000 / rho < r * (g / (g + / 100000000))).
Proof.
  intros Hr Hg Hd. rewrite adamw_first by exact Hg. unfold dual_init in Hd. injection Hd as <-. simpl.
  assert (E : Rltb 0 rho = true) by (apply Rltb_true; exact Hr). rewrite E. split; [reflexivity|]. split; lra.
Qed.

Lemma run_effects_app T (a b : list (effect T)) w w1 : run_effects a w = (w1, None) -> run_effects (a ++ b) w = run_effects b w1.
Proof.
  revert w. induction a as [|f a IH]; intros w H; cbn [run_effects app] in *; [injection H as ->; reflexivity|].
  destruct (f w) as [w' [e|]]; [discriminate|]. apply IH. exact H.
Qed.
Lemma step_error T (opts s1 s2 : list (effect T)) f w w1 w2 e :
  f w1 = (w2, Some e) ->
  (run_effects s1 w = (w1, None) -> composite_step (s1 ++ f :: s2) opts w = (w2, Some e)) /\
  (run_effects (opts ++ s1) w = (w1, None) -> composite_step opts (s1 ++ f :: s2) w = (w2, Some e)).
Proof.
  intros H2. unfold composite_step. split; intros H1.
  - rewrite <- app_assoc. rewrite (run_effects_app _ _ _ _ _ H1). cbn [run_effects app]. rewrite H2. reflexivity.
  - rewrite app_assoc. rewrite (run_effects_app _ _ _ _ _ H1). cbn [run_effects app]. rewrite H2. reflexivity.
Qed.

Lemma adamw_witness :
  exists rho d g, 0 < rho /\ dual_init (Fin rho) 1 2 None false = Ok d /\ 0 <= d_lam d /\
    snd (adamw_step (adamw_lr None) adam0 (d_lam d) g) < 0.
Proof.
  exists 1. eexists. exists 1. split; [lra|]. split; [reflexivity|]. split.
  - simpl. assert (E : Rltb 0 1 = true) by (apply Rltb_true; lra). rewrite E. lra.
  - refine (adamw_negative 1 1 2 None false _ 1 _ _ eq_refl _); lra.
Qed.

(* ---- LBFGS ---- *)
Lemma lbfgs_witness :
  exists rho d g, 0 < rho /\ dual_init (Fin rho) 1 2 None false = Ok d /\ 0 <= d_lam d /\
    exists lam', lbfgs_first_step (lbfgs_lr None) [0; d_lam d] [0; g] = [0; lam'] /\ lam' < 0.
Proof.
  exists 1. eexists. exists 1. split; [lra|]. split; [reflexivity|]. simpl d_lam.
  assert (E : Rltb 0 1 = true) by (apply Rltb_true; lra). rewrite E. split; [lra|].
  exists (/ 1000 / 1 + 1 * (-1 * 1)). split; [|lra].
  unfold lbfgs_first_step, lbfgs_lr; simpl. rewrite Rabs_R0, Rabs_R1.
  rewrite (Rmax_left 1 0), (Rmax_right 0 1) by lra.
  assert (E1 : Rleb 1 (/ 10000) = false) by (apply Rleb_false; lra). rewrite E1.
  unfold dot; simpl. assert (E2 : Rltb (- / 1000000) (0 * (-1 * 0) + (1 * (-1 * 1) + 0)) = false) by (apply Rltb_false; lra).
  rewrite E2. rewrite Rmin_left by (replace (0 + (1 + 0)) with 1 by ring; rewrite Rinv_1; lra).
  unfold vadd, vscal; simpl. f_equal; [ring|]. f_equal. ring.
Qed.

(* ---- modes ---- *)
Lemma eval_mode s : in_mode false (m_training (dual_eval s)) (m_below (dual_eval s)).
Proof. split; [reflexivity|]. unfold dual_eval, dual_train; simpl. rewrite Forall_map. apply Forall_forall. reflexivity. Qed.

Lemma train_true_mode s : in_mode true (m_training (dual_train true s)) (m_below (dual_train true s)).
Proof. split; [reflexivity|]. unfold dual_train; simpl. rewrite Forall_map. apply Forall_forall. reflexivity. Qed.

Lemma train_default_is_eval s : dual_train_default s = dual_eval s.
Proof. reflexivity. Qed.

Lemma erm_flags s : m_erm (dual_eval s) = false /\ m_erm (dual_train true s) = true.
Proof. split; reflexivity. Qed.

Lemma train_witness :
  exists s, in_mode true (m_training s) (m_below s) /\ ~ in_mode true (m_training (dual_train_default s)) (m_below (dual_train_default s)).
Proof.
  exists {| m_training := true; m_erm := false; m_below := [true] |}.
  split; [split; [reflexivity|repeat constructor]|]. intros [H _]. discriminate.
Qed.

Lemma roundtrip_witness :
  exists s, m_training s = true /\ dual_train_default (dual_eval s) <> s.
Proof. exists {| m_training := true; m_erm := false; m_below := [true] |}. split; [reflexivity|]. discriminate. Qed.

Lemma closure_witness :
  exists s, in_mode true (m_training s) (m_below s) /\
            in_mode false (m_training (fst (closure_eval s))) (m_below (fst (closure_eval s))).
Proof.
  exists {| m_training := true; m_erm := false; m_below := [true] |}.
  split; split; try reflexivity; repeat constructor.
Qed.

Lemma closure_not_erm s : snd (closure_eval s) = false.
Proof. reflexivity. Qed.

(* ---- trainability ---- *)
Lemma direction_ok f s : displacement_direction None f s = (freeze true false f, below_set true s, None).
Proof.
  unfold displacement_direction, freeze, below_set; simpl. rewrite !map_map. reflexivity.
Qed.

Lemma map_const_id (l : list bool) b : map (fun _ => b) l = l <-> Forall (fun x => x = b) l.
Proof.
  induction l as [|x l IH]; simpl; [split; auto|]. split.
  - intros H. injection H as H1 H2. constructor; [congruence|]. apply IH, H2.
  - intros H. inversion H; subst. f_equal. apply IH. assumption.
Qed.

Lemma flags_kept f s :
  fst (fst (displacement_direction None f s)) = f <-> (Forall (fun b => b = true) (f_primal f) /\ f_lam f = true).
Proof.
  rewrite direction_ok. destruct f as [p l h]; unfold freeze; simpl. split.
  - intros H. injection H as H1 H2. split; [apply map_const_id, H1|congruence].
  - intros [H1 H2]. f_equal; [apply map_const_id, H1|congruence].
Qed.

Lemma unfrozen f s b : In b (f_primal (fst (fst (displacement_direction None f s)))) -> b = true.
Proof. rewrite direction_ok. simpl. intros H. apply in_map_iff in H. destruct H as [x [<- _]]. reflexivity. Qed.

Lemma flags_witness :
  exists f s, f_lam f = true /\ In false (f_primal f) /\ In true (f_primal f) /\
    f_primal (fst (fst (displacement_direction None f s))) = [true; true] /\ fst (fst (displacement_direction None f s)) <> f.
Proof.
  exists {| f_primal := [false; true]; f_lam := true; f_hyper := [false; false] |}, {| m_training := true; m_erm := false; m_below := [] |}.
  split; [reflexivity|]. split; [left; reflexivity|]. split; [right; left; reflexivity|]. split; [reflexivity|]. discriminate.
Qed.

Lemma failed_direction e f s :
  exists f' s', displacement_direction (Some e) f s = (f', s', Some e) /\
    Forall (fun b => b = false) (f_primal f') /\ f_lam f' = false /\ Forall (fun b => b = false) (m_below s') /\ f_hyper f' = f_hyper f.
Proof.
  eexists. eexists. split; [reflexivity|]. simpl. rewrite !Forall_map. repeat split; apply Forall_forall; reflexivity.
Qed.

Lemma failed_witness :
  exists f s e, Forall (fun b => b = true) (f_primal f) /\ f_lam f = true /\
    fst (fst (displacement_direction (Some e) f s)) <> f.
Proof.
  exists {| f_primal := [true]; f_lam := true; f_hyper := [] |}, {| m_training := true; m_erm := false; m_below := [] |}, UserExn.
  split; [repeat constructor|]. split; [reflexivity|]. discriminate.
Qed.

Lemma eval_undone f s :
  m_below s <> [] -> Forall (fun b => b = false) (m_below s) ->
  Forall (fun b => b = true) (m_below (snd (fst (displacement_direction None f s)))).
Proof. intros _ _. rewrite direction_ok. simpl. rewrite Forall_map. apply Forall_forall. reflexivity. Qed.

(* ---- lazy sampler ---- *)
Lemma no_sampler_fails {S} (init : S) reset rs : ensure_sampler init reset rs None = Raise ValueError.
Proof. reflexivity. Qed.

Lemma with_sampler {S} (init x : S) reset rs : ensure_sampler init reset rs (Some x) = Ok (if rs then reset x else x).
Proof. reflexivity. Qed.
