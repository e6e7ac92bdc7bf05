(* The programme of the dedicated linear regression computes the worst case. *)
From Coq Require Import Reals List Lra Lia.
From Verif Require Import PyBase RList XReal Costs_Model Costs_Proofs Transport_Spec Transport_Proofs DedProg_Model DedProg_Spec.
Import ListNotations.
Local Open Scope R_scope.

Lemma square_limit v A B : 0 <= A -> 0 <= B -> (forall a, 0 < a -> v <= (1 + / a) * (B * B) + (1 + a) * (A * A)) -> v <= (A + B) * (A + B).
Proof.
  intros HA HB H. destruct HA as [HA|<-].
  - destruct HB as [HB|<-].
    + specialize (H (B / A) ltac:(apply Rdiv_lt_0_compat; assumption)).
      replace ((1 + / (B / A)) * (B * B) + (1 + B / A) * (A * A)) with ((A + B) * (A + B)) in H by (field; lra). exact H.
    + apply Rnot_lt_le. intros Hlt. set (e := v - (A + 0) * (A + 0)) in *. assert (E : 0 < e) by (unfold e; lra).
      specialize (H (e / (2 * (A * A))) ltac:(apply Rdiv_lt_0_compat; nra)).
      replace ((1 + e / (2 * (A * A))) * (A * A)) with (A * A + e / 2) in H by (field; lra). unfold e in *. lra.
  - destruct HB as [HB|<-].
    + apply Rnot_lt_le. intros Hlt. set (e := v - (0 + B) * (0 + B)) in *. assert (E : 0 < e) by (unfold e; lra).
      specialize (H (2 * (B * B) / e) ltac:(apply Rdiv_lt_0_compat; nra)).
      replace ((1 + / (2 * (B * B) / e)) * (B * B)) with (B * B + e / 2) in H by (field; lra). unfold e in *. lra.
    + specialize (H 1 ltac:(lra)). lra.
Qed.

Definition rms (l : list R) : R := norm2 l / sqrt (INR (length l)).

Lemma rms_sq l : l <> [] -> rms l * rms l = rmean (map (fun r => r * r) l).
Proof.
  intros H. pose proof (INR_length_pos l H) as N. unfold rms, rmean. rewrite map_length.
  assert (S : sqrt (INR (length l)) * sqrt (INR (length l)) = INR (length l)) by (apply sqrt_sqrt; lra).
  assert (S0 : 0 < sqrt (INR (length l))) by (apply sqrt_lt_R0; exact N).
  assert (E : rsum (map (fun r => r * r) l) = norm2 l * norm2 l) by (rewrite norm2_sq; unfold sqnorm, dot; rewrite map2_same; reflexivity).
  rewrite E. rewrite <- S at 3. field. lra.
Qed.

Lemma rms_nonneg l : 0 <= rms l.
Proof.
  unfold rms, Rdiv. apply Rmult_le_pos; [apply norm2_nonneg|]. destruct (Req_dec (sqrt (INR (length l))) 0) as [->|E]; [rewrite Rinv_0; lra|].
  left. apply Rinv_0_lt_compat. pose proof (sqrt_pos (INR (length l))). lra.
Qed.

Lemma Forall2_map_self {A B} (Q : A -> Prop) (P : A -> B -> Prop) (g : A -> B) (l : list A) :
  Forall Q l -> (forall x, Q x -> P x (g x)) -> Forall2 P l (map g l).
Proof. intros F H. induction F; simpl; constructor; auto. Qed.

Section Lin.
Variables (d : nat) (rho : R) (data : list (vec * R)) (coef : vec) (b : R).
Hypothesis Hr : 0 <= rho.
Hypothesis Hd : data <> [].
Hypothesis Hx : Forall (fun xy : vec * R => length (fst xy) = d) data.
Hypothesis Hc : length coef = d.
Let A := rms (map (lin_residual coef b) data).
Let B := rho * norm2 coef.

Lemma lin_objective_split : lin_objective rho data coef b = A + B.
Proof. unfold lin_objective, A, B, rms. rewrite map_length. reflexivity. Qed.

Lemma A_sq : A * A = rmean (map (fun xy => lin_residual coef b xy * lin_residual coef b xy) data).
Proof. unfold A. rewrite rms_sq by (destruct data; [congruence|discriminate]). rewrite map_map. reflexivity. Qed.

Lemma sq_error_moved (xy v : vec * R) : length (fst xy) = d -> feature_only d xy v ->
  sq_error coef b v = (lin_residual coef b xy + dot coef (vsub (fst v) (fst xy))) * (lin_residual coef b xy + dot coef (vsub (fst v) (fst xy))).
Proof.
  intros H1 [H2 H3]. unfold sq_error, lin_residual. rewrite dot_vsub_r by congruence. rewrite H3, (dot_comm (fst xy)). ring.
Qed.

Lemma lin_upper p : tplan_ok feature_sq (feature_only d) data (rho * rho) p -> tplan_value (sq_error coef b) p <= (A + B) * (A + B).
Proof.
  intros O. apply square_limit; [apply rms_nonneg|unfold B; pose proof (norm2_nonneg coef); nra|]. intros a Ha.
  assert (Hi : 0 < / a) by (apply Rinv_0_lt_compat; exact Ha). pose proof (sqnorm_nonneg coef) as Hs.
  assert (W := weak_duality feature_sq (feature_only d) data (rho * rho) (sq_error coef b) ((1 + / a) * sqnorm coef)
       (map (fun xy => (1 + a) * (lin_residual coef b xy * lin_residual coef b xy)) data) p).
  replace ((1 + / a) * (B * B) + (1 + a) * (A * A)) with
    ((1 + / a) * sqnorm coef * (rho * rho) + rmean (map (fun xy => (1 + a) * (lin_residual coef b xy * lin_residual coef b xy)) data)).
  - apply W; [nra| |exact O]. apply (Forall2_map_self _ _ _ _ Hx).
    intros xy Hxy v Hv. cbv beta in Hxy. rewrite (sq_error_moved xy v Hxy Hv). set (r := lin_residual coef b xy). set (w := dot coef (vsub (fst v) (fst xy))).
    assert (Hw : w * w <= sqnorm coef * feature_sq xy v).
    { destruct Hv as [Hv1 Hv2]. unfold w, feature_sq. apply cauchy_schwarz_sq. rewrite vsub_length by (etransitivity; [exact Hv1|symmetry; exact Hxy]).
      etransitivity; [exact Hc|symmetry; exact Hv1]. }
    assert (H : 0 <= (a * r - w) * (a * r - w) * / a) by (apply Rmult_le_pos; [apply Rle_0_sqr|lra]).
    replace ((a * r - w) * (a * r - w) * / a) with (a * (r * r) - 2 * r * w + / a * (w * w)) in H by (field; lra).
    assert (/ a * (w * w) <= / a * (sqnorm coef * feature_sq xy v)) by (apply Rmult_le_compat_l; lra). nra.
  - rewrite rmean_map_scal, <- A_sq. unfold B. rewrite <- (norm2_sq coef). ring.
Qed.

(* moving x along coef *)
Definition push (t : vec * R -> R) (xy : vec * R) : vec * R := (vadd (fst xy) (vscal (t xy) coef), snd xy).

Lemma push_moved t (xy : vec * R) : length (fst xy) = d -> feature_only d xy (push t xy) /\ vsub (fst (push t xy)) (fst xy) = vscal (t xy) coef.
Proof.
  intros H. assert (L : length (fst xy) = length (vscal (t xy) coef)) by (rewrite vscal_length; etransitivity; [exact H|symmetry; exact Hc]). split.
  - split; [|reflexivity]. simpl. rewrite vadd_length by exact L. exact H.
  - simpl. apply vsub_vadd_l. exact L.
Qed.

Lemma push_plan t : rmean (map (fun xy => t xy * t xy) data) * sqnorm coef <= rho * rho ->
  tplan_ok feature_sq (feature_only d) data (rho * rho) (move (push t) data) /\
  tplan_value (sq_error coef b) (move (push t) data)
    = rmean (map (fun xy => (lin_residual coef b xy + t xy * sqnorm coef) * (lin_residual coef b xy + t xy * sqnorm coef)) data).
Proof.
  intros H. rewrite Forall_forall in Hx. split.
  - apply move_ok; [intros xy Hin; apply push_moved; auto|].
    rewrite (map_ext_in _ (fun xy => sqnorm coef * (t xy * t xy))); [rewrite rmean_map_scal; lra|].
    intros xy Hin. unfold feature_sq. rewrite (proj2 (push_moved t xy (Hx _ Hin))), sqnorm_vscal. ring.
  - rewrite move_value. f_equal. apply map_ext_in. intros xy Hin. destruct (push_moved t xy (Hx _ Hin)) as [P1 P2].
    rewrite (sq_error_moved xy _ (Hx _ Hin) P1), P2, dot_vscal_r. reflexivity.
Qed.

Lemma rmean_sq_scal (c : R) (f : vec * R -> R) l : rmean (map (fun a => c * f a * (c * f a)) l) = c * c * rmean (map (fun a => f a * f a) l).
Proof. rewrite <- rmean_map_scal. f_equal. apply map_ext. intros; ring. Qed.

Lemma lin_attained : exists p, tplan_ok feature_sq (feature_only d) data (rho * rho) p /\ tplan_value (sq_error coef b) p = (A + B) * (A + B).
Proof.
  pose proof (norm2_nonneg coef) as N0. pose proof (rms_nonneg (map (lin_residual coef b) data) : 0 <= A) as A0. pose proof (norm2_sq coef) as NS.
  destruct (Req_dec (norm2 coef) 0) as [Z|Z].
  - destruct (push_plan (fun _ => 0)) as [O V]; [rewrite <- NS, Z; nra|]. exists (move (push (fun _ => 0)) data). split; [exact O|]. rewrite V.
    replace ((A + B) * (A + B)) with (A * A) by (unfold B; rewrite Z; ring). rewrite A_sq. f_equal. apply map_ext. intros; ring.
  - destruct (Req_dec A 0) as [ZA|ZA].
    + set (t := fun _ : vec * R => rho / norm2 coef). destruct (push_plan t) as [O V].
      { unfold t. rewrite rmean_map_const by exact Hd. rewrite <- NS. right. field. exact Z. }
      exists (move (push t) data). split; [exact O|]. rewrite V, ZA. unfold B.
      rewrite (map_ext_in _ (fun _ => rho * norm2 coef * (rho * norm2 coef))); [rewrite rmean_map_const by exact Hd; ring|].
      intros xy Hin. assert (R0 : lin_residual coef b xy = 0).
      { assert (NN : norm2 (map (lin_residual coef b) data) = 0).
        { unfold A, rms in ZA. pose proof (INR_length_pos data Hd) as IL. rewrite map_length in ZA.
          assert (S0 : 0 < sqrt (INR (length data))) by (apply sqrt_lt_R0; exact IL).
          apply (Rmult_eq_compat_r (sqrt (INR (length data)))) in ZA. unfold Rdiv in ZA. rewrite Rmult_assoc, Rinv_l, Rmult_0_l, Rmult_1_r in ZA by lra. exact ZA. }
        apply norm2_zero in NN. rewrite Forall_forall in NN. apply NN, in_map, Hin. }
      rewrite R0. unfold t. rewrite <- NS. field. exact Z.
    + set (t := fun xy => rho / (A * norm2 coef) * lin_residual coef b xy). destruct (push_plan t) as [O V].
      { unfold t. rewrite rmean_sq_scal, <- A_sq, <- NS. right. field. split; assumption. }
      exists (move (push t) data). split; [exact O|]. rewrite V.
      rewrite (map_ext _ (fun xy => (1 + B / A) * lin_residual coef b xy * ((1 + B / A) * lin_residual coef b xy))).
      * rewrite rmean_sq_scal, <- A_sq. field. exact ZA.
      * intros xy. unfold t, B. rewrite <- NS. field. split; assumption.
Qed.

Lemma lin_exact c : lin_worst_le d rho data coef b c <-> lin_objective rho data coef b <= c.
Proof.
  rewrite lin_objective_split.
  assert (AB : 0 <= A + B) by (pose proof (rms_nonneg (map (lin_residual coef b) data)); unfold A, B; pose proof (norm2_nonneg coef); nra).
  split.
  - intros W. destruct lin_attained as (p & O & V). specialize (W p O). rewrite V, sqrt_square in W by exact AB. exact W.
  - intros L p O. apply Rle_trans with (A + B); [|exact L]. rewrite <- (sqrt_square (A + B) AB). apply sqrt_le_1_alt, lin_upper, O.
Qed.
End Lin.

Definition lin_optimal (d : nat) (fit_intercept : bool) (rho : R) (data : list (vec * R)) (coef : vec) (b : R) : Prop :=
  lin_feasible d fit_intercept coef b /\
  forall coef' b', lin_feasible d fit_intercept coef' b' -> lin_objective rho data coef b <= lin_objective rho data coef' b'.

Lemma lin_robust d fi rho data coef b : 0 <= rho -> data <> [] -> Forall (fun xy : vec * R => length (fst xy) = d) data -> lin_feasible d fi coef b ->
  (lin_optimal d fi rho data coef b <->
   forall coef' b' c, lin_feasible d fi coef' b' -> lin_worst_le d rho data coef' b' c -> lin_worst_le d rho data coef b c).
Proof.
  intros Hr Hd Hx F. split.
  - intros [_ M] coef' b' c F' W. apply (lin_exact d rho data coef' b' Hr Hd Hx (proj1 F')) in W.
    apply (lin_exact d rho data coef b Hr Hd Hx (proj1 F)). specialize (M coef' b' F'). lra.
  - intros M. split; [exact F|]. intros coef' b' F'.
    apply (lin_exact d rho data coef b Hr Hd Hx (proj1 F)). apply (M coef' b' _ F').
    apply (lin_exact d rho data coef' b' Hr Hd Hx (proj1 F')). lra.
Qed.
