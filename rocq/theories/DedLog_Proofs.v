(* The programme of the dedicated logistic regression computes the worst case. *)
From Coq Require Import Reals List Lra Lia Permutation.
From Verif Require Import PyBase RList XReal Costs_Model Costs_Proofs Transport_Spec Transport_Proofs DedProg_Model DedProg_Spec DedLin_Proofs.
Import ListNotations.
Local Open Scope R_scope.

(* ---------- the logistic function ---------- *)
Lemma lg_arg z : 0 < 1 + exp z.
Proof. pose proof (exp_pos z). lra. Qed.

Lemma lg_sym z : cp_logistic z = cp_logistic (- z) + z.
Proof.
  unfold cp_logistic. rewrite <- (ln_exp z) at 3. rewrite <- ln_mult by (try apply lg_arg; apply exp_pos). f_equal.
  rewrite Rmult_plus_distr_r, <- exp_plus. replace (- z + z) with 0 by ring. rewrite exp_0. ring.
Qed.

Lemma lg_mono a b : a <= b -> cp_logistic a <= cp_logistic b.
Proof.
  intros [H| ->]; [|lra]. left. unfold cp_logistic. apply ln_increasing; [apply lg_arg|]. pose proof (exp_increasing a b H). lra.
Qed.

Lemma lg_ge z : z <= cp_logistic z.
Proof.
  rewrite lg_sym. assert (0 <= cp_logistic (- z)); [|lra]. unfold cp_logistic. rewrite <- ln_1.
  left. apply ln_increasing; [lra|]. pose proof (exp_pos (- z)). lra.
Qed.

Lemma lg_shift z t : 0 <= t -> cp_logistic (z + t) <= cp_logistic z + t.
Proof.
  intros Ht. unfold cp_logistic. rewrite <- (ln_exp t) at 2. rewrite <- ln_mult by (try apply lg_arg; apply exp_pos).
  assert (1 + exp (z + t) <= (1 + exp z) * exp t).
  { rewrite Rmult_plus_distr_r, <- exp_plus. assert (1 <= exp t); [|lra].
    rewrite <- exp_0. destruct Ht as [Ht| <-]; [left; apply exp_increasing; exact Ht|lra]. }
  destruct H as [H|H]; [left; apply ln_increasing; [apply lg_arg|exact H]|rewrite H; lra].
Qed.

Lemma lg_lip a b : cp_logistic a <= cp_logistic b + Rabs (a - b).
Proof.
  destruct (Rle_or_lt b a) as [H|H].
  - rewrite Rabs_pos_eq by lra. replace a with (b + (a - b)) at 1 by ring. apply lg_shift. lra.
  - pose proof (lg_mono a b ltac:(lra)). pose proof (Rabs_pos (a - b)). lra.
Qed.

Lemma abs_m1 : Rabs (-1) = 1.
Proof. unfold Rabs. destruct (Rcase_abs (-1)); lra. Qed.

Lemma abs_dot_le x y : length x = length y -> Rabs (dot x y) <= norm2 x * norm2 y.
Proof.
  intros L. unfold Rabs. destruct (Rcase_abs (dot x y)); [|apply cauchy_schwarz; exact L].
  replace (- dot x y) with (dot (vscal (-1) x) y) by (rewrite dot_vscal_l; ring).
  replace (norm2 x) with (norm2 (vscal (-1) x)) by (rewrite norm2_vscal, abs_m1; ring).
  apply cauchy_schwarz. rewrite vscal_length. exact L.
Qed.

(* ---------- sorting by decreasing key ---------- *)
Section KSort.
Context {A : Type} (key : A -> R).
Fixpoint kinsert (x : A) (l : list A) : list A :=
  match l with [] => [x] | y :: r => if Rle_dec (key y) (key x) then x :: l else y :: kinsert x r end.
Fixpoint ksort (l : list A) : list A := match l with [] => [] | x :: r => kinsert x (ksort r) end.
Inductive kdesc : list A -> Prop :=
| kd_nil : kdesc []
| kd_cons x l : kdesc l -> Forall (fun y => key y <= key x) l -> kdesc (x :: l).

Lemma kinsert_perm x l : Permutation (kinsert x l) (x :: l).
Proof. induction l as [|y l IH]; simpl; [reflexivity|]. destruct (Rle_dec (key y) (key x)); [reflexivity|]. rewrite IH. apply perm_swap. Qed.
Lemma ksort_perm l : Permutation (ksort l) l.
Proof. induction l as [|x l IH]; simpl; [reflexivity|]. rewrite kinsert_perm, IH. reflexivity. Qed.
Lemma kinsert_desc x l : kdesc l -> kdesc (kinsert x l).
Proof.
  induction 1 as [|y l D IH F]; simpl; [constructor; constructor|]. destruct (Rle_dec (key y) (key x)) as [H|H].
  - constructor; [constructor; assumption|]. constructor; [exact H|]. eapply Forall_impl; [|exact F]. simpl. intros z Hz. lra.
  - constructor; [exact IH|]. rewrite Forall_forall in *. intros z Hz. apply (Permutation_in _ (kinsert_perm x l)) in Hz.
    destruct Hz as [<-|Hz]; [lra|auto].
Qed.
Lemma ksort_desc l : kdesc (ksort l).
Proof. induction l; simpl; [constructor|apply kinsert_desc; assumption]. Qed.
Lemma kdesc_map l : kdesc l -> forall x r, map key l = x :: r -> Forall (fun y => y <= x) r.
Proof. intros D x r E. destruct D as [|a l D F]; [discriminate|]. simpl in E. injection E as <- <-. apply Forall_map. exact F. Qed.
End KSort.

(* ---------- fractional flips of the labels, largest margins first ---------- *)
Inductive desc : list R -> Prop :=
| d_nil : desc []
| d_cons x l : desc l -> Forall (fun y => y <= x) l -> desc (x :: l).

Lemma kdesc_desc {A} (key : A -> R) l : kdesc key l -> desc (map key l).
Proof. induction 1; simpl; constructor; auto. apply Forall_map. assumption. Qed.

Definition zeros (l : list R) : list R := map (fun _ => 0) l.
Fixpoint flips (L B : R) (l : list R) : list R :=
  match l with
  | [] => []
  | m :: r => if Rle_dec m L then zeros l else if Rle_dec 1 B then 1 :: flips L (B - 1) r else B :: zeros r
  end.

Lemma zeros_sum l : rsum (zeros l) = 0.
Proof. unfold zeros. rewrite rsum_map_const. ring. Qed.
Lemma zeros_dot l : forall m : list R, rsum (map2 Rmult (zeros l) m) = 0.
Proof. induction l as [|x l IH]; intros [|y m]; simpl; auto. fold (zeros l). rewrite IH. ring. Qed.
Lemma zeros_ok l : Forall (fun f => 0 <= f <= 1) (zeros l).
Proof. apply Forall_map. apply Forall_forall. intros; lra. Qed.
Lemma below_all a l : Forall (fun y => y <= a) l -> rsum (map (fun m => Rmax 0 (m - a)) l) = 0.
Proof. induction 1 as [|x l H _ IH]; simpl; [reflexivity|]. rewrite IH, Rmax_left by lra. ring. Qed.

Lemma flips_spec L : forall l, desc l -> forall B, 0 <= B ->
  let f := flips L B l in
  length f = length l /\ Forall (fun t => 0 <= t <= 1) f /\ rsum f <= B /\
  exists a, (a = L \/ (L < a /\ In a l /\ rsum f = B)) /\
    rsum (map2 Rmult f l) = rsum (map (fun m => Rmax 0 (m - a)) l) + a * rsum f.
Proof.
  induction 1 as [|m l D IH F]; intros B HB; cbv zeta; cbn [flips].
  - simpl. split; [reflexivity|]. split; [constructor|]. split; [exact HB|]. exists L. split; [left; reflexivity|]. ring.
  - destruct (Rle_dec m L) as [HL|HL].
    + split; [unfold zeros; apply map_length|]. split; [apply zeros_ok|]. split; [rewrite zeros_sum; exact HB|]. exists L. split; [left; reflexivity|].
      rewrite zeros_dot, zeros_sum, below_all; [ring|]. constructor; [exact HL|]. eapply Forall_impl; [|exact F]. simpl; intros; lra.
    + destruct (Rle_dec 1 B) as [H1|H1].
      * destruct (IH (B - 1) ltac:(lra)) as (I1 & I2 & I3 & a & Ia & I4). split; [simpl; rewrite I1; reflexivity|].
        split; [constructor; [lra|exact I2]|]. split; [cbn [rsum]; lra|]. exists a.
        assert (Ham : a <= m) by (destruct Ia as [->|(_ & Ia & _)]; [lra|rewrite Forall_forall in F; auto]).
        split; [destruct Ia as [->|(Ia1 & Ia2 & Ia3)]; [left; reflexivity|right; split; [exact Ia1|]; split; [right; exact Ia2|cbn [rsum]; lra]]|].
        cbn [map2 map rsum]. rewrite I4, (Rmax_right 0 (m - a)) by lra. ring.
      * split; [simpl; unfold zeros; rewrite map_length; reflexivity|]. split; [constructor; [lra|apply zeros_ok]|].
        split; [cbn [rsum]; rewrite zeros_sum; lra|]. exists m. split; [right; split; [lra|]; split; [left; reflexivity|cbn [rsum]; rewrite zeros_sum; ring]|].
        cbn [map2 map rsum]. rewrite zeros_dot, zeros_sum, (below_all m l F), Rmax_left by lra. ring.
Qed.

(* ---------- the programme ---------- *)
Section Log.
Variables (d : nat) (kappa rho : R) (data : list (vec * R)) (beta : vec) (b : R).
Hypothesis Hk : 0 <= kappa.
Hypothesis Hd : data <> [].
Hypothesis Hx : Forall (fun xy : vec * R => length (fst xy) = d /\ (snd xy = 1 \/ snd xy = -1)) data.
Hypothesis Hb : length beta = d.

Definition margin (xy : vec * R) : R := snd xy * (dot beta (fst xy) + b).

Lemma log_loss_margin xy : log_loss beta b xy = cp_logistic (- margin xy).
Proof. reflexivity. Qed.

Lemma margin_moved (xy v : vec * R) : length (fst xy) = d -> length (fst v) = d ->
  snd xy * (dot beta (fst v) + b) = margin xy + snd xy * dot beta (vsub (fst v) (fst xy)).
Proof.
  intros H1 H2. unfold margin. rewrite dot_vsub_r; [ring| |].
  - etransitivity; [exact Hb|symmetry; exact H2].
  - etransitivity; [exact H2|symmetry; exact H1].
Qed.

Lemma log_upper fi lam s c : log_feasible d fi kappa data beta b lam s -> log_objective rho lam s <= c -> log_worst_le d kappa rho data beta b c.
Proof.
  intros (_ & _ & HL & F) Hc p O. apply Rle_trans with (log_objective rho lam s); [|exact Hc].
  pose proof (norm2_nonneg beta) as N0.
  assert (W := weak_duality (flip_price kappa) (flip_or_keep d) data rho (log_loss beta b) lam s p ltac:(lra)).
  replace (log_objective rho lam s) with (lam * rho + rmean s) by (unfold log_objective, rmean, Rdiv; ring). apply W; [|exact O]. clear W O Hd Hc.
  induction F as [|xy si l s' [C1 C2] F IH]; constructor; [|apply IH; exact (Forall_inv_tail Hx)].
  destruct (Forall_inv Hx) as [Lx Ly]. intros v [Lv Hv].
  set (z := dot beta (vsub (fst v) (fst xy))).
  assert (Hz : Rabs z <= lam * norm2 (vsub (fst v) (fst xy))).
  { apply Rle_trans with (norm2 beta * norm2 (vsub (fst v) (fst xy))).
    - apply abs_dot_le. rewrite vsub_length by (etransitivity; [exact Lv|symmetry; exact Lx]). etransitivity; [exact Hb|symmetry; exact Lv].
    - apply Rmult_le_compat_r; [apply norm2_nonneg|exact HL]. }
  pose proof (margin_moved xy v Lx Lv) as M. fold z in M.
  assert (Eb : dot (fst xy) beta = dot beta (fst xy)) by apply dot_comm. rewrite Eb in C1, C2. fold (margin xy) in C1.
  replace (- snd xy * (dot beta (fst xy) + b)) with (- margin xy) in C2 by (unfold margin; ring).
  assert (Ay : Rabs (snd xy * z) = Rabs z) by (rewrite Rabs_mult; destruct Ly as [->| ->]; [rewrite Rabs_R1|rewrite abs_m1]; ring).
  unfold flip_price. unfold log_loss. destruct (Req_EM_T (snd v) (snd xy)) as [E|E].
  - rewrite E. fold (cp_logistic (- (snd xy * (dot beta (fst v) + b)))). rewrite M.
    pose proof (lg_lip (- (margin xy + snd xy * z)) (- margin xy)) as Lp.
    replace (- (margin xy + snd xy * z) - - margin xy) with (- (snd xy * z)) in Lp by ring. rewrite Rabs_Ropp, Ay in Lp. nra.
  - destruct Hv as [Hv|Hv]; [congruence|]. rewrite Hv. fold (cp_logistic (- (- snd xy * (dot beta (fst v) + b)))).
    replace (- (- snd xy * (dot beta (fst v) + b))) with (snd xy * (dot beta (fst v) + b)) by ring. rewrite M.
    pose proof (lg_lip (margin xy + snd xy * z) (margin xy)) as Lp.
    replace (margin xy + snd xy * z - margin xy) with (snd xy * z) in Lp by ring. rewrite Ay in Lp. nra.
Qed.

(* adversaries *)
Definition flip_law (xy : vec * R) (f : R) : tlaw := [(f, (fst xy, - snd xy)); (1 - f, xy)].

Lemma norm2_self x : norm2 (vsub x x) = 0.
Proof. unfold norm2. rewrite sqnorm_vsub by reflexivity. unfold sqnorm. replace (dot x x - 2 * dot x x + dot x x) with 0 by ring. apply sqrt_0. Qed.

Lemma flip_plan_ok : forall (l : list (vec * R)) fs, Forall (fun xy : vec * R => length (fst xy) = d /\ (snd xy = 1 \/ snd xy = -1)) l -> length fs = length l ->
  Forall (fun f => 0 <= f <= 1) fs ->
  let p := map2 (fun xy f => (xy, flip_law xy f)) l fs in
  map fst p = l /\ Forall (fun xl => tlaw_ok (flip_or_keep d) (fst xl) (snd xl)) p /\
  rsum (map (fun xl => texpect (flip_price kappa (fst xl)) (snd xl)) p) = kappa * rsum fs /\
  rsum (map (fun xl => texpect (log_loss beta b) (snd xl)) p) = rsum (map (fun xy => cp_logistic (- margin xy)) l) + rsum (map2 Rmult fs (map margin l)) /\
  length p = length l.
Proof.
  induction l as [|xy l IH]; intros [|f fs] H L F; simpl in L; try discriminate; cbv zeta in *; simpl.
  - repeat split; try constructor; ring.
  - inversion H as [|? ? [H1 H2] H3]; subst. inversion F as [|? ? F1 F2]; subst.
    destruct (IH fs H3 ltac:(congruence) F2) as (I1 & I2 & I3 & I4 & I5). split; [f_equal; exact I1|]. split; [|split; [|split]].
    + constructor; [|exact I2]. split; [|unfold flip_law; simpl; ring]. simpl. unfold flip_law.
      constructor; [|constructor; [|constructor]]; simpl; (split; [lra|split; [exact H1|auto]]).
    + rewrite I3. unfold texpect, flip_law, flip_price. simpl. rewrite !norm2_self.
      destruct (Req_EM_T (- snd xy) (snd xy)) as [E|E]; [destruct H2 as [H2|H2]; rewrite H2 in E; lra|].
      destruct (Req_EM_T (snd xy) (snd xy)) as [E'|E']; [|congruence]. ring.
    + rewrite I4. unfold texpect, flip_law. simpl. unfold log_loss at 1. simpl.
      fold (cp_logistic (- (- snd xy * (dot beta (fst xy) + b)))). rewrite log_loss_margin.
      replace (- (- snd xy * (dot beta (fst xy) + b))) with (margin xy) by (unfold margin; ring).
      rewrite (lg_sym (margin xy)). ring.
    + f_equal. exact I5.
Qed.

Definition far_point (D : R) (xy : vec * R) : vec * R := (vadd (fst xy) (vscal (- snd xy * (D * / norm2 beta)) beta), snd xy).

Lemma far_point_spec D (xy : vec * R) : 0 <= D -> length (fst xy) = d -> (snd xy = 1 \/ snd xy = -1) ->
  flip_or_keep d xy (far_point D xy) /\ flip_price kappa xy (far_point D xy) <= D /\ norm2 beta * D - margin xy <= log_loss beta b (far_point D xy).
Proof.
  intros HD Lx Ly. pose proof (norm2_nonneg beta) as N0.
  assert (L : length (fst xy) = length (vscal (- snd xy * (D * / norm2 beta)) beta)) by (rewrite vscal_length; etransitivity; [exact Lx|symmetry; exact Hb]).
  assert (K : length (fst (far_point D xy)) = d) by (simpl; rewrite vadd_length by exact L; exact Lx).
  assert (V : vsub (fst (far_point D xy)) (fst xy) = vscal (- snd xy * (D * / norm2 beta)) beta) by (simpl; apply vsub_vadd_l; exact L).
  split; [split; [exact K|left; reflexivity]|]. split.
  - unfold flip_price. rewrite V. simpl. destruct (Req_EM_T (snd xy) (snd xy)) as [_|E]; [|congruence]. rewrite norm2_vscal.
    rewrite Rabs_mult, Rabs_Ropp. replace (Rabs (snd xy)) with 1 by (destruct Ly as [->| ->]; [rewrite Rabs_R1|rewrite abs_m1]; reflexivity).
    destruct (Req_dec (norm2 beta) 0) as [Z|Z]; [rewrite Z; lra|].
    rewrite Rabs_pos_eq; [right; field; exact Z|]. apply Rmult_le_pos; [exact HD|left; apply Rinv_0_lt_compat; lra].
  - unfold log_loss. fold (cp_logistic (- (snd (far_point D xy) * (dot beta (fst (far_point D xy)) + b)))).
    change (snd (far_point D xy)) with (snd xy). rewrite (margin_moved xy (far_point D xy) Lx K), V, dot_vscal_r.
    fold (sqnorm beta). rewrite <- norm2_sq.
    apply Rle_trans with (2 := lg_ge _). right. destruct (Req_dec (norm2 beta) 0) as [Z|Z].
    + rewrite Z. ring.
    + destruct Ly as [->| ->]; field; exact Z.
Qed.

Lemma log_lower fi c : 0 < kappa -> 0 <= rho -> (fi = false -> b = 0) -> log_worst_le d kappa rho data beta b c ->
  exists lam s, log_feasible d fi kappa data beta b lam s /\ log_objective rho lam s <= c.
Proof.
  intros Kp Hr Hfi W. pose proof (norm2_nonneg beta) as N0. pose proof (INR_length_pos data Hd) as N.
  set (n := INR (length data)) in *. set (l := ksort margin data).
  pose proof (ksort_perm margin data : Permutation l data) as P.
  assert (Hl : Forall (fun xy : vec * R => length (fst xy) = d /\ (snd xy = 1 \/ snd xy = -1)) l).
  { rewrite Forall_forall in *. intros xy Hin. apply Hx. exact (Permutation_in _ P Hin). }
  assert (B0 : 0 <= n * rho / kappa) by (apply Rmult_le_pos; [nra|left; apply Rinv_0_lt_compat; exact Kp]).
  destruct (flips_spec (kappa * norm2 beta) (map margin l) (kdesc_desc margin l (ksort_desc margin data)) (n * rho / kappa) B0) as (L & F & S & a & Ia & V).
  set (fs := flips (kappa * norm2 beta) (n * rho / kappa) (map margin l)) in *.
  destruct (flip_plan_ok l fs Hl ltac:(rewrite L, map_length; reflexivity) F) as (Q1 & Q2 & Q3 & Q4 & Q5).
  set (p := map2 (fun xy f => (xy, flip_law xy f)) l fs) in *. set (used := kappa * rsum fs / n).
  assert (S0 : 0 <= rsum fs) by (apply rsum_nonneg; eapply Forall_impl; [|exact F]; simpl; intros; lra).
  assert (Ll : length l = length data) by exact (Permutation_length P).
  assert (U : 0 <= used <= rho).
  { unfold used. split; [apply Rmult_le_pos; [nra|left; apply Rinv_0_lt_compat; exact N]|].
    apply Rmult_le_reg_r with n; [exact N|]. unfold Rdiv. rewrite Rmult_assoc, Rinv_l, Rmult_1_r by lra.
    apply (Rmult_le_compat_l kappa) in S; [|lra]. replace (kappa * (n * rho / kappa)) with (n * rho) in S by (field; lra). lra. }
  assert (Op : tplan_ok (flip_price kappa) (flip_or_keep d) l used p).
  { split; [exact Q1|]. split; [exact Q2|]. unfold tplan_cost, rmean. rewrite map_length, Q5, Ll, Q3. fold n. unfold used. lra. }
  destruct (tplan_perm _ _ data l used p P Op) as (q & Oq & Vq).
  assert (FM := far_moves (flip_price kappa) (flip_or_keep d) data rho used (norm2 beta) (rmean (map margin data)) (log_loss beta b) q
                 (fun D => move (far_point D) data) U Oq).
  assert (Cv : tplan_value (log_loss beta b) q + norm2 beta * (rho - used) <= c).
  { apply FM; [| |exact W].
    - intros D HD. apply move_ok.
      + intros xy Hin. rewrite Forall_forall in Hx. destruct (Hx xy Hin) as [X1 X2]. apply (far_point_spec D xy HD X1 X2).
      + apply Rle_trans with (rmean (map (fun _ => D) data)); [|rewrite rmean_map_const by exact Hd; lra].
        apply rmean_map_le. intros xy Hin. rewrite Forall_forall in Hx. destruct (Hx xy Hin) as [X1 X2]. apply (far_point_spec D xy HD X1 X2).
    - intros D HD. rewrite move_value.
      apply Rle_trans with (rmean (map (fun xy => norm2 beta * D - margin xy) data)).
      + rewrite rmean_map_minus, rmean_map_const by exact Hd. lra.
      + apply rmean_map_le. intros xy Hin. rewrite Forall_forall in Hx. destruct (Hx xy Hin) as [X1 X2]. apply (far_point_spec D xy HD X1 X2). }
  clear FM. rewrite Vq in Cv. unfold tplan_value, rmean in Cv. rewrite map_length, Q5, Ll, Q4, V in Cv. fold n in Cv.
  set (lam := a / kappa). set (s := map (fun xy => cp_logistic (- margin xy) + Rmax 0 (margin xy - a)) data).
  assert (La : norm2 beta <= lam).
  { unfold lam. apply Rmult_le_reg_r with kappa; [exact Kp|]. unfold Rdiv. rewrite Rmult_assoc, Rinv_l, Rmult_1_r by lra. destruct Ia as [->|(Ia & _)]; lra. }
  exists lam, s. split.
  - split; [exact Hb|]. split; [exact Hfi|]. split; [exact La|]. unfold s.
    apply (Forall2_map_self (fun _ => True)); [apply Forall_forall; auto|]. intros xy _.
    rewrite (dot_comm (fst xy)). fold (margin xy). replace (- snd xy * (dot beta (fst xy) + b)) with (- margin xy) by (unfold margin; ring).
    rewrite (lg_sym (margin xy)). replace (kappa * lam) with a by (unfold lam; field; lra).
    pose proof (Rmax_l 0 (margin xy - a)). pose proof (Rmax_r 0 (margin xy - a)). lra.
  - apply Rle_trans with (2 := Cv). right. unfold log_objective.
    assert (Ls : length s = length data) by (unfold s; apply map_length). rewrite Ls. fold n. unfold s. rewrite rsum_map_plus.
    rewrite <- (rsum_perm _ _ (Permutation_map (fun xy => cp_logistic (- margin xy)) P)).
    rewrite <- (rsum_perm _ _ (Permutation_map (fun xy => Rmax 0 (margin xy - a)) P)).
    rewrite map_map. unfold used, lam. destruct Ia as [Ea|(_ & _ & Ea)].
    + rewrite Ea. field. split; lra.
    + rewrite Ea. field. split; lra.
Qed.
End Log.

Lemma log_exact d fi kappa rho data beta b c : 0 < kappa -> 0 <= rho -> data <> [] ->
  Forall (fun xy : vec * R => length (fst xy) = d /\ (snd xy = 1 \/ snd xy = -1)) data -> length beta = d -> (fi = false -> b = 0) ->
  (log_worst_le d kappa rho data beta b c <-> exists lam s, log_feasible d fi kappa data beta b lam s /\ log_objective rho lam s <= c).
Proof.
  intros Kp Hr Hd Hx Hb Hfi. split.
  - apply log_lower; auto. lra.
  - intros (lam & s & F & L). exact (log_upper d kappa rho data beta b Hx Hb fi lam s c F L).
Qed.

Definition log_optimal (d : nat) (fi : bool) (kappa rho : R) (data : list (vec * R)) (beta : vec) (b lam : R) (s : list R) : Prop :=
  log_feasible d fi kappa data beta b lam s /\
  forall beta' b' lam' s', log_feasible d fi kappa data beta' b' lam' s' -> log_objective rho lam s <= log_objective rho lam' s'.

Lemma log_robust d fi kappa rho data beta b lam s : 0 < kappa -> 0 <= rho -> data <> [] ->
  Forall (fun xy : vec * R => length (fst xy) = d /\ (snd xy = 1 \/ snd xy = -1)) data -> log_optimal d fi kappa rho data beta b lam s ->
  (forall c, log_worst_le d kappa rho data beta b c <-> log_objective rho lam s <= c) /\
  (forall beta' b' c, length beta' = d -> (fi = false -> b' = 0) -> log_worst_le d kappa rho data beta' b' c -> log_worst_le d kappa rho data beta b c).
Proof.
  intros Kp Hr Hd Hx [F M]. pose proof F as (Fb & Ff & _).
  assert (X : forall c, log_worst_le d kappa rho data beta b c <-> log_objective rho lam s <= c).
  { intros c. rewrite (log_exact d fi kappa rho data beta b c Kp Hr Hd Hx Fb Ff). split.
    - intros (lam' & s' & F' & L). specialize (M _ _ _ _ F'). lra.
    - intros L. exists lam, s. auto. }
  split; [exact X|]. intros beta' b' c Lb' Hf' W. apply X.
  apply (log_exact d fi kappa rho data beta' b' c Kp Hr Hd Hx Lb' Hf') in W as (lam' & s' & F' & L). specialize (M _ _ _ _ F'). lra.
Qed.
