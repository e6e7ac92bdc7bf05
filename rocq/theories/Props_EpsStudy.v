(* C143: the search for the multiplier in the study of the regularisation. *)
From Coq Require Import Reals Bool String List Lra Lia Psatz.
From Verif Require Import PyBase RList XReal LogMeanExp Dual_Model Dual_Spec Dual_Proofs DualMinimax_Proofs Dual2_Proofs Props_Dual2 EpsStudy_Model EpsStudy_Spec EpsStudy_Proofs.
Import ListNotations.
Local Open Scope R_scope.

(* f is the robust objective on the given samples as a function of the multiplier, and g its derivative *)
Definition study_of {P} (loss : P -> R) cost displace lp lpr n (rows : list (row P)) rho eps p (f g : R -> R) : Prop :=
  (forall l, is_value loss cost displace lp lpr n rows rho l eps p (f l)) /\ (forall l, derivable_pt_lim f l (g l)).

Lemma study_obj {P} (loss : P -> R) cost displace lp lpr n rows rho eps p f g : batch_ok n rows -> 0 < rho -> 0 < eps ->
  study_of loss cost displace lp lpr n rows rho eps p f g -> forall l, f l = objective P loss cost rho l eps p rows.
Proof. intros Hb Hr He [Hf _] l. apply (value_iff loss cost displace lp lpr n rows rho l eps p (f l) Hb Hr He), Hf. Qed.
Lemma study_slope {P} (loss : P -> R) cost displace lp lpr n rows rho eps p f g : batch_ok n rows -> 0 < rho -> 0 < eps ->
  study_of loss cost displace lp lpr n rows rho eps p f g -> forall l, g l = Rpower rho p - adv_mean cost (map (gibbs P loss cost eps l) rows) rows.
Proof.
  intros Hb Hr He H l. pose proof (objective_deriv P loss cost n rows rho l eps p Hb He) as D.
  apply (uniqueness_limite f l); [apply H|]. apply (derivable_ext (fun l => objective P loss cost rho l eps p rows)); [|exact D].
  intros t. symmetry. exact (study_obj loss cost displace lp lpr n rows rho eps p f g Hb Hr He H t).
Qed.
Lemma study_exists {P} (loss : P -> R) cost displace lp lpr n rows rho eps p : batch_ok n rows -> 0 < rho -> 0 < eps ->
  study_of loss cost displace lp lpr n rows rho eps p (fun l => objective P loss cost rho l eps p rows)
    (fun l => Rpower rho p - adv_mean cost (map (gibbs P loss cost eps l) rows) rows).
Proof.
  intros Hb Hr He. split; [|intros l; exact (objective_deriv P loss cost n rows rho l eps p Hb He)].
  intros l. apply value_iff; auto.
Qed.

(* C143: line_optim is projected gradient descent of step 1/100 from 0. It stops after the hundredth evaluation, or at the first
   evaluation where ten changes below 1e-5 have been seen in all (not in a row). The multiplier it returns is one step after the point
   where the value it returns was read. *)
Theorem C143_stopping : forall obj grad old, exists n, (n <= 99)%nat /\
  line_optim obj grad old = (iterate grad (S n), read obj grad n) /\
  (n = 99%nat \/ small_changes obj grad old (S n) = 10%nat) /\ (forall j, (j <= n)%nat -> (small_changes obj grad old j < 10)%nat).
Proof. exact line_optim_spec. Qed.

(* C143: the returned multiplier is never negative. *)
Theorem C143_not_negative : forall obj grad old, 0 <= fst (line_optim obj grad old).
Proof. intros obj grad old. destruct (line_optim_spec obj grad old) as (n & _ & -> & _). apply (iterate_nonneg grad (S n)). Qed.

(* C143: it cannot go further than the largest cost of a sample minus the radius to the power, whatever samples are drawn at each
   evaluation. *)
Theorem C143_travel : forall P (loss : P -> R) cost displace lp lpr n (rows : nat -> list (row P)) rho eps p C (f g : nat -> R -> R) old,
  0 < rho -> 0 < eps -> Rpower rho p <= C ->
  (forall k, batch_ok n (rows k) /\ study_of loss cost displace lp lpr n (rows k) rho eps p (f k) (g k)) ->
  (forall k r z, In r (rows k) -> In z (r_zeta r) -> cost (r_xi r) z <= C) ->
  fst (line_optim f g old) <= C - Rpower rho p.
Proof.
  intros P loss cost displace lp lpr n rows rho eps p C f g old Hr He HR H HC.
  destruct (line_optim_spec f g old) as (m & Hm & -> & _). cbn [fst].
  pose proof (iterate_travel g (C - Rpower rho p) ltac:(lra)) as T. specialize (T ltac:(
    intros k l _; destruct (H k) as [Hb Hs]; rewrite (study_slope _ _ _ _ _ _ _ _ _ _ _ _ Hb Hr He Hs l);
    pose proof (slope_bound P loss cost n (rows k) eps l C Hb (HC k)); lra) (S m)).
  assert (I : INR (S m) <= 100). { apply (Rle_trans _ (INR 100)); [apply le_INR; lia|cbn; lra]. }
  assert (0 <= (100 - INR (S m)) * (C - Rpower rho p)) by (apply Rmult_le_pos; lra). lra.
Qed.

(* C143: if no sample costs more than the radius to the power, the multiplier stays 0 and the value is read there. *)
Theorem C143_stays_at_zero : forall P (loss : P -> R) cost displace lp lpr n (rows : nat -> list (row P)) rho eps p (f g : nat -> R -> R) old,
  0 < rho -> 0 < eps ->
  (forall k, batch_ok n (rows k) /\ study_of loss cost displace lp lpr n (rows k) rho eps p (f k) (g k)) ->
  (forall k r z, In r (rows k) -> In z (r_zeta r) -> cost (r_xi r) z <= Rpower rho p) ->
  fst (line_optim f g old) = 0 /\ exists k, (k <= 99)%nat /\ snd (line_optim f g old) = f k 0.
Proof.
  intros P loss cost displace lp lpr n rows rho eps p f g old Hr He H HC.
  assert (S : forall k, iterate g k = 0).
  { apply iterate_stays. intros k. destruct (H k) as [Hb Hs]. rewrite (study_slope _ _ _ _ _ _ _ _ _ _ _ _ Hb Hr He Hs 0).
    pose proof (slope_bound P loss cost n (rows k) eps 0 _ Hb (HC k)). lra. }
  destruct (line_optim_spec f g old) as (m & Hm & -> & _). cbn [fst snd]. split; [apply S|]. exists m. split; [exact Hm|]. unfold read. rewrite S. reflexivity.
Qed.

(* C143: with samples that stay the same and costs that are small for the regularisation, the multiplier grows towards the best one without
   passing it, and the value is above the smallest one by at most 25 times its square over the number of steps taken. *)
Theorem C143_converges : forall P (loss : P -> R) cost displace lp lpr n (rows : list (row P)) rho eps p C (f g : R -> R) old ls,
  batch_ok n rows -> 0 < rho -> 0 < eps -> study_of loss cost displace lp lpr n rows rho eps p f g ->
  (forall r z, In r rows -> In z (r_zeta r) -> 0 <= cost (r_xi r) z <= C) -> C * C <= 400 * eps ->
  0 <= ls -> (forall l, 0 <= l -> f ls <= f l) ->
  exists k, (k <= 99)%nat /\ (k = 99%nat \/ small_changes (fun _ => f) (fun _ => g) old (S k) = 10%nat) /\
    0 <= fst (line_optim (fun _ => f) (fun _ => g) old) <= ls /\
    f (fst (line_optim (fun _ => f) (fun _ => g) old)) <= snd (line_optim (fun _ => f) (fun _ => g) old) <= f 0 /\
    INR k * (snd (line_optim (fun _ => f) (fun _ => g) old) - f ls) <= 25 * (ls * ls).
Proof.
  intros P loss cost displace lp lpr n rows rho eps p C f g old ls Hb Hr He Hs HC HCe Hls Hmin.
  assert (G : forall l, g l = Rpower rho p - adv_mean cost (map (gibbs P loss cost eps l) rows) rows) by (intros l; exact (study_slope _ _ _ _ _ _ _ _ _ _ _ _ Hb Hr He Hs l)).
  assert (K : C * C / (4 * eps) <= 100). { apply (Rmult_le_reg_r (4 * eps)); [lra|]. unfold Rdiv. rewrite Rmult_assoc, Rinv_l by lra. lra. }
  assert (L : forall a b, a <= b -> 0 <= g b - g a <= 100 * (b - a)).
  { intros a b Hab. rewrite !G. pose proof (slope_lipschitz P loss cost n rows rho p eps C a b Hb He HC Hab) as Q.
    assert (C * C / (4 * eps) * (b - a) <= 100 * (b - a)) by (apply Rmult_le_compat_r; lra). lra. }
  assert (Hm : forall a b, a <= b -> g a <= g b) by (intros a b Hab; specialize (L a b Hab); lra).
  assert (HL : forall a b, a <= b -> g b - g a <= 100 * (b - a)) by (intros a b Hab; specialize (L a b Hab); lra).
  pose proof (proj2 Hs) as Hd.
  destruct (line_optim_spec (fun _ => f) (fun _ => g) old) as (k & Hk & -> & Sk & _). cbn [fst snd]. unfold read. exists k. split; [exact Hk|]. split; [exact Sk|].
  split; [exact (iterate_below f g Hd HL ls Hls Hmin (S k))|]. split; [|apply (value_rate f g Hd Hm HL ls Hls Hmin)].
  split; [exact (values_decrease f g Hd Hm HL ls Hls Hmin k)|].
  clear Hk Sk. induction k as [|k IH]; [right; reflexivity|]. eapply Rle_trans; [exact (values_decrease f g Hd Hm HL ls Hls Hmin k)|exact IH].
Qed.

(* the data of the counterexamples: one point at 0, the loss 10 z, the cost |x - z| *)
Definition far_rows : list (row R) := [{| r_mean := 0; r_xi := 0; r_zeta := [0; 1] |}].
Lemma far_ok : batch_ok 2 far_rows.
Proof. split; [lia|]. split; [discriminate|repeat constructor]. Qed.
Lemma far_worst l : 0 <= l <= 10 -> worst (fun z => 10 * z) (fun x z => Rabs (x - z)) l far_rows (fun _ => 10 - l).
Proof.
  intros Hl r [<-|[]]. cbn [r_xi r_zeta]. split.
  - intros z [<-|[<-|[]]]; rewrite ?Rminus_0_r, ?Rabs_R0; [lra|]. replace (0 - 1) with (-1) by ring. rewrite Rabs_left by lra. lra.
  - exists 1. split; [right; left; reflexivity|]. replace (0 - 1) with (-1) by ring. rewrite Rabs_left by lra. lra.
Qed.
Lemma ln2_lt_1 : ln 2 < 1.
Proof. apply (Rlt_le_trans _ (ln (exp 1))); [|rewrite ln_exp; lra]. apply ln_increasing; [lra|]. pose proof (exp_ineq1 1 ltac:(lra)). lra. Qed.

(* C143 refuted: one hundred steps of 1/100 do not find the best multiplier. Here the exact worst case is 5 and the best multiplier gives at
   most 5, and the value that would be plotted is above 8. *)
Theorem C143_best_refuted : exists (rows : list (row R)) loss cost rho eps f g,
  batch_ok 2 rows /\ 0 < rho /\ 0 < eps /\ (forall disp lp lpr, study_of loss cost disp lp lpr 2 rows rho eps 1 f g) /\
  (forall x z, loss z <= loss x + 10 * cost x z) /\ rmean (map (fun r => loss (r_xi r)) rows) + rho * 10 = 5 /\ f 10 <= 5 /\
  forall old, 8 < snd (line_optim (fun _ => f) (fun _ => g) old).
Proof.
  set (loss := fun z => 10 * z). set (cost := fun x z => Rabs (x - z)).
  exists far_rows, loss, cost, (/ 2), 1, (fun l => objective R loss cost (/ 2) l 1 1 far_rows),
    (fun l => Rpower (/ 2) 1 - adv_mean cost (map (gibbs R loss cost 1 l) far_rows) far_rows).
  assert (R1 : Rpower (/ 2) 1 = / 2) by (apply Rpower_1; lra).
  assert (V : forall l, 0 <= l <= 10 -> 10 - l / 2 - ln 2 <= objective R loss cost (/ 2) l 1 1 far_rows <= 10 - l / 2).
  { intros l Hl. pose proof (C106_gap R loss cost (fun _ => Raise ValueError) (fun _ _ => 0) (fun _ _ _ => 0) 2 far_rows (/ 2) l 1 1 (fun _ => 10 - l)
      (objective R loss cost (/ 2) l 1 1 far_rows) far_ok ltac:(lra) ltac:(lra) (far_worst l Hl)) as Q.
    specialize (Q (proj1 (study_exists loss cost (fun _ => Raise ValueError) (fun _ _ => 0) (fun _ _ _ => 0) 2 far_rows (/ 2) 1 1 far_ok ltac:(lra) ltac:(lra)) l)).
    rewrite R1, rmean_map_const in Q by discriminate. cbn [INR] in Q. replace (1 + 1) with 2 in Q by ring. lra. }
  split; [exact far_ok|]. split; [lra|]. split; [lra|]. split; [intros disp lp lpr; apply study_exists; [exact far_ok|lra|lra]|].
  split; [intros x z; unfold loss, cost; pose proof (Rle_abs (z - x)); rewrite (Rabs_minus_sym x z); lra|].
  split; [unfold rmean, loss; cbn; lra|]. split; [pose proof (V 10 ltac:(lra)); lra|].
  intros old. set (f := fun l => _ : R). set (g := fun l => _ : R).
  destruct (line_optim_spec (fun _ => f) (fun _ => g) old) as (m & Hm & -> & _). cbn [snd]. unfold read.
  assert (T : iterate (fun _ => g) m <= / 2).
  { pose proof (iterate_travel (fun _ => g) (/ 2) ltac:(lra)) as T. specialize (T ltac:(
      intros k l _; unfold g; rewrite R1;
      pose proof (slope_bound R loss cost 2 far_rows 1 l 1 far_ok ltac:(
        intros r z [<-|[]] [<-|[<-|[]]]; unfold cost; cbn [r_xi]; [rewrite Rminus_0_r, Rabs_R0; lra|replace (0 - 1) with (-1) by ring; rewrite Rabs_left by lra; lra])); lra) m).
    assert (INR m <= 99). { apply (Rle_trans _ (INR 99)); [apply le_INR; lia|cbn; lra]. } lra. }
  pose proof (iterate_nonneg (fun _ => g) m) as T0. set (x := iterate (fun _ => g) m) in *.
  pose proof (V x ltac:(lra)) as Q. pose proof ln2_lt_1. unfold f. lra.
Qed.

(* C143 refuted: the returned value is not the objective at the returned multiplier, even on the same samples. *)
Theorem C143_value_refuted : exists (rows : list (row R)) loss cost rho eps f g,
  batch_ok 1 rows /\ 0 < rho /\ 0 < eps /\ (forall disp lp lpr, study_of loss cost disp lp lpr 1 rows rho eps 1 f g) /\
  forall old, snd (line_optim (fun _ => f) (fun _ => g) old) <> f (fst (line_optim (fun _ => f) (fun _ => g) old)).
Proof.
  set (rows := [{| r_mean := 0; r_xi := 0; r_zeta := [2] |}] : list (row R)). set (loss := fun _ : R => 0). set (cost := fun x z => Rabs (x - z)).
  assert (Hb : batch_ok 1 rows) by (split; [lia|]; split; [discriminate|repeat constructor]).
  assert (C2 : cost 0 2 = 2) by (unfold cost; replace (0 - 2) with (-2) by ring; rewrite Rabs_left by lra; lra).
  exists rows, loss, cost, 1, 1, (fun l => objective R loss cost 1 l 1 1 rows), (fun l => Rpower 1 1 - adv_mean cost (map (gibbs R loss cost 1 l) rows) rows).
  split; [exact Hb|]. split; [lra|]. split; [lra|]. split; [intros disp lp lpr; apply study_exists; [exact Hb|lra|lra]|].
  intros old. set (f := fun l => _ : R). set (g := fun l => _ : R).
  assert (R1 : Rpower 1 1 = 1) by (apply Rpower_1; lra).
  assert (F : forall l, f l = - l).
  { intros l. unfold f, objective, rmean, soft, pen, rows. cbn [map r_xi r_zeta length]. rewrite softmaximum_single by lra. rewrite C2, R1. unfold loss. cbn. field. }
  assert (G : forall l, g l = -1).
  { intros l. unfold g, adv_mean, gibbs, rmean, rows. cbn [map map2 r_xi r_zeta rsum fold_right length INR]. rewrite C2, R1.
    cbn. field. pose proof (exp_pos ((loss 2 - l * 2) / 1)). lra. }
  assert (I : forall k, iterate (fun _ => g) k = INR k / 100).
  { induction k as [|k IH]; [cbn; lra|]. rewrite S_INR. cbn [iterate]. rewrite G, IH. assert (0 <= INR k) by apply pos_INR. rewrite Rmax_right; lra. }
  destruct (line_optim_spec (fun _ => f) (fun _ => g) old) as (m & Hm & -> & _). cbn [fst snd]. unfold read. rewrite !F, !I, S_INR. intros Q.
  change (objective R loss cost 1 ((INR m + 1) / 100) 1 1 rows) with (f ((INR m + 1) / 100)) in Q. rewrite F in Q. lra.
Qed.

(* ---------- line_optim_Wolfe ---------- *)
(* C143: a step that scipy finds gives a multiplier that is not negative, with the value of the objective there, smaller than before. *)
Theorem C143_wolfe_found : forall obj grad search l g old a v, honest_search search ->
  search (obj 0%nat) (grad 0%nat) l (- g) g old extra_condition = Some (a, v) ->
  exists l', line_optim_Wolfe obj grad search l g old = Ok (Fin l', Fin (obj 0%nat l')) /\ 0 <= l' /\ l' = l - a * g /\ obj 0%nat l' <= old - a * (g * g) / 100.
Proof.
  intros obj grad search l g old a v H E. destruct (H _ _ _ _ _ _ _ _ _ E) as (A & X & V & W). exists (l - a * g).
  replace (l + a * - g) with (l - a * g) in * by ring. unfold line_optim_Wolfe. rewrite E, V. split; [reflexivity|]. split; [apply Rleb_true; exact X|]. split; [reflexivity|]. lra.
Qed.

(* C143: when scipy finds no step, what is returned is never better than the multiplier it started from, for every objective above its
   tangent there (the robust objective is, by C18): infinity when the objective increases at l, and the value at 0, which is larger by at least
   the slope times l, when it decreases. *)
Theorem C143_wolfe_nothing : forall obj grad search l g, 0 <= l -> (forall x, obj 0%nat l + g * (x - l) <= obj 0%nat x) ->
  search (obj 0%nat) (grad 0%nat) l (- g) g (obj 0%nat l) extra_condition = None ->
  exists l' v, line_optim_Wolfe obj grad search l g (obj 0%nat l) = Ok (l', v) /\ xle (Fin (obj 0%nat l)) v = true /\
    (0 <= g -> v = PInf) /\ (g < 0 -> l' = Fin 0 /\ exists w, v = Fin w /\ obj 0%nat l + - g * l <= w).
Proof.
  intros obj grad search l g Hl T E. unfold line_optim_Wolfe. rewrite E. destruct (Rleb 0 g) eqn:L.
  - apply Rleb_true in L. exists PInf, PInf. split; [reflexivity|]. split; [reflexivity|]. split; [reflexivity|intros; lra].
  - apply Rleb_false in L. exists (Fin 0), (Fin (obj 0%nat 0)). split; [reflexivity|]. specialize (T 0). split; [|split; [intros; lra|]].
    + assert (Q : obj 0%nat l <= obj 0%nat 0) by nra. unfold xle. cbn [xlt xeq]. destruct (Rltb (obj 0%nat l) (obj 0%nat 0)) eqn:D; [reflexivity|].
      apply Rltb_false in D. cbn [orb]. apply Reqb_true. lra.
    + intros _. split; [reflexivity|]. exists (obj 0%nat 0). split; [reflexivity|lra].
Qed.

(* C143: at 0, where the objective increases, every honest search finds nothing. 0 is then a best multiplier, and (inf, inf) is returned. *)
Theorem C143_wolfe_at_best : forall obj grad search g, honest_search search -> 0 < g -> (forall x, obj 0%nat 0 + g * x <= obj 0%nat x) ->
  (forall x, 0 <= x -> obj 0%nat 0 <= obj 0%nat x) /\
  line_optim_Wolfe obj grad search 0 g (obj 0%nat 0) = Ok (PInf, PInf).
Proof.
  intros obj grad search g H Hg T. split; [intros x Hx; specialize (T x); nra|]. unfold line_optim_Wolfe.
  destruct (search (obj 0%nat) (grad 0%nat) 0 (- g) g (obj 0%nat 0) extra_condition) as [[a v]|] eqn:E.
  - exfalso. destruct (H _ _ _ _ _ _ _ _ _ E) as (A & X & _). apply Rleb_true in X. nra.
  - destruct (Rleb 0 g) eqn:L; [reflexivity|]. apply Rleb_false in L. lra.
Qed.

(* C143 refuted: on samples that cost nothing the best multiplier is 0 and the objective is finite there; the Wolfe variant returns infinity
   for the multiplier and for the loss. *)
Theorem C143_wolfe_refuted : exists (rows : list (row R)) loss cost rho eps f g,
  batch_ok 1 rows /\ 0 < rho /\ 0 < eps /\ (forall disp lp lpr, study_of loss cost disp lp lpr 1 rows rho eps 1 f g) /\
  (forall l, 0 <= l -> f 0 <= f l) /\ exists search, honest_search search /\
  line_optim_Wolfe (fun _ => f) (fun _ => g) search 0 (g 0) (f 0) = Ok (PInf, PInf).
Proof.
  set (rows := [{| r_mean := 3; r_xi := 3; r_zeta := [3] |}] : list (row R)). set (loss := fun z : R => z). set (cost := fun x z => Rabs (x - z)).
  assert (Hb : batch_ok 1 rows) by (split; [lia|]; split; [discriminate|repeat constructor]).
  assert (C0 : cost 3 3 = 0) by (unfold cost; rewrite Rminus_diag_eq by reflexivity; apply Rabs_R0).
  exists rows, loss, cost, 1, 1, (fun l => objective R loss cost 1 l 1 1 rows), (fun l => Rpower 1 1 - adv_mean cost (map (gibbs R loss cost 1 l) rows) rows).
  split; [exact Hb|]. split; [lra|]. split; [lra|]. split; [intros disp lp lpr; apply study_exists; [exact Hb|lra|lra]|].
  assert (R1 : Rpower 1 1 = 1) by (apply Rpower_1; lra).
  assert (F : forall l, objective R loss cost 1 l 1 1 rows = l + 3).
  { intros l. unfold objective, rmean, soft, pen, rows. cbn [map r_xi r_zeta length]. rewrite softmaximum_single by lra. rewrite C0, R1. unfold loss. cbn. field. }
  assert (G : Rpower 1 1 - adv_mean cost (map (gibbs R loss cost 1 0) rows) rows = 1).
  { unfold adv_mean, gibbs, rmean, rows. cbn [map map2 r_xi r_zeta rsum fold_right length INR]. rewrite C0, R1. cbn. field. pose proof (exp_pos ((loss 3 - 0 * 0) / 1)). lra. }
  split; [intros l Hl; rewrite !F; lra|]. exists (fun _ _ _ _ _ _ _ => None). split; [intros ? ? ? ? ? ? ? ? ? E; discriminate|].
  rewrite G. apply C143_wolfe_at_best; [intros ? ? ? ? ? ? ? ? ? E; discriminate|lra|]. intros x. rewrite !F. lra.
Qed.

(* ---------- examples ---------- *)
(* ten small changes are enough to stop: an objective that is constant from the second evaluation on *)
Example C143_stopping_case : exists n, line_optim (fun _ _ => 4) (fun _ _ => 1) 4 = (iterate (fun _ _ => 1) (S n), 4) /\ (n <= 9)%nat.
Proof.
  destruct (C143_stopping (fun _ _ => 4) (fun _ _ => 1) 4) as (n & Hn & E & S & A). exists n. split; [exact E|].
  assert (C : forall k, small_changes (fun _ _ => 4) (fun _ _ => 1) 4 k = k).
  { induction k as [|k IH]; [reflexivity|]. cbn [small_changes]. rewrite IH. unfold change, read.
    destruct (Rlt_dec _ _) as [L|L]; [reflexivity|]. exfalso. apply L. destruct k; rewrite Rminus_diag_eq, Rabs_R0 by reflexivity; lra. }
  specialize (A n (le_n n)). rewrite C in A. lia.
Qed.

(* the objective of the counterexample with the regularisation 1, whose costs are at most 1: the hypotheses of the last two bounds *)
Example C143_travel_case : 0 < / 2 /\ Rpower (/ 2) 1 <= 1 /\ batch_ok 2 far_rows /\
  (exists f g, forall disp lp lpr, study_of (fun z => 10 * z) (fun x z => Rabs (x - z)) disp lp lpr 2 far_rows (/ 2) 1 1 f g) /\
  (forall r z, In r far_rows -> In z (r_zeta r) -> 0 <= Rabs (r_xi r - z) <= 1) /\ 1 * 1 <= 400 * 1.
Proof.
  split; [lra|]. split; [rewrite Rpower_1; lra|]. split; [exact far_ok|]. split; [|split; [|lra]].
  - eexists. eexists. intros disp lp lpr. apply study_exists; [exact far_ok|lra|lra].
  - intros r z [<-|[]] [<-|[<-|[]]]; cbn [r_xi]; [rewrite Rminus_0_r, Rabs_R0; lra|]. replace (0 - 1) with (-1) by ring. rewrite Rabs_left by lra. lra.
Qed.
(* and it has a best multiplier *)
Example C143_converges_case : exists ls, 0 <= ls /\ forall l, 0 <= l ->
  objective R (fun z => 10 * z) (fun x z => Rabs (x - z)) (/ 2) ls 1 1 far_rows <= objective R (fun z => 10 * z) (fun x z => Rabs (x - z)) (/ 2) l 1 1 far_rows.
Proof.
  apply (minimiser_exists R (fun z => 10 * z) (fun x z => Rabs (x - z)) 2 far_rows (/ 2) 1 1 [[1; 0]] far_ok ltac:(lra)).
  - split; [reflexivity|]. constructor; [|constructor]. unfold weights. split; [reflexivity|]. split; [repeat (constructor; [lra|]); constructor|cbn; lra].
  - rewrite Rpower_1 by lra. unfold adv_mean, rmean. cbn. rewrite Rminus_0_r, Rabs_R0. lra.
Qed.

(* all the samples at the data: no cost, the multiplier stays 0 *)
Example C143_stays_at_zero_case : let rows := [{| r_mean := 3; r_xi := 3; r_zeta := [3] |}] : list (row R) in
  batch_ok 1 rows /\ forall r z, In r rows -> In z (r_zeta r) -> Rabs (r_xi r - z) <= Rpower 1 1.
Proof.
  intros rows. split; [split; [lia|]; split; [discriminate|repeat constructor]|]. intros r z [<-|[]] [<-|[]]. cbn [r_xi].
  rewrite Rminus_diag_eq, Rabs_R0, Rpower_1 by lra. lra.
Qed.

(* a search that takes the step 1 when it satisfies the conditions *)
Definition one_step (f f' : R -> R) (x d s old : R) (ok : R -> bool) : option (R * option R) :=
  if ok (x + 1 * d) && Rleb (f (x + 1 * d)) (old + / 100 * 1 * (s * d)) then Some (1, Some (f (x + 1 * d))) else None.
Example C143_wolfe_case : honest_search one_step /\ one_step (fun l => l * l / 2) (fun l => l) 3 (- 3) 3 (3 * 3 / 2) extra_condition = Some (1, Some ((3 + 1 * - 3) * (3 + 1 * - 3) / 2)).
Proof.
  split.
  - intros f f' x d s old ok a v E. unfold one_step in E. destruct (ok (x + 1 * d)) eqn:O1; [|discriminate].
    destruct (Rleb (f (x + 1 * d)) (old + / 100 * 1 * (s * d))) eqn:O2; [|discriminate]. cbn [andb] in E. injection E as <- <-.
    split; [lra|]. split; [exact O1|]. split; [reflexivity|]. apply Rleb_true in O2. exact O2.
  - unfold one_step, extra_condition. replace (Rleb 0 (3 + 1 * - 3)) with true by (symmetry; apply Rleb_true; lra).
    replace (Rleb ((3 + 1 * - 3) * (3 + 1 * - 3) / 2) (3 * 3 / 2 + / 100 * 1 * (3 * - 3))) with true by (symmetry; apply Rleb_true; lra). reflexivity.
Qed.
Example C143_wolfe_nothing_case : let f := fun l => l * l / 2 in 0 <= 3 /\ (forall x, f 3 + 3 * (x - 3) <= f x) /\
  honest_search (fun _ _ _ _ _ _ _ => None) /\ (forall x, (fun l => l + 3) 0 + 1 * x <= (fun l => l + 3) x).
Proof.
  intros f. split; [lra|]. split; [intros x; unfold f; pose proof (Rle_0_sqr (x - 3)) as Q; unfold Rsqr in Q; lra|].
  split; [intros ? ? ? ? ? ? ? ? ? E; discriminate|intros x; lra].
Qed.

Print Assumptions C143_stopping.
Print Assumptions C143_not_negative.
Print Assumptions C143_travel.
Print Assumptions C143_stays_at_zero.
Print Assumptions C143_converges.
Print Assumptions C143_best_refuted.
Print Assumptions C143_value_refuted.
Print Assumptions C143_wolfe_found.
Print Assumptions C143_wolfe_nothing.
Print Assumptions C143_wolfe_at_best.
Print Assumptions C143_wolfe_refuted.
