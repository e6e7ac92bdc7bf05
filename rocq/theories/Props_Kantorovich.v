(* C136: the dual formula of the documentation (doc/wdro.rst, doc/why_skwdro.rst, WDRO_dual) is the Wasserstein worst case, and the
   objective computed by the library is on the right side of it. *)
From Coq Require Import Reals Bool String List Lra Lia.
From Verif Require Import PyBase RList XReal LogMeanExp Dual_Model Dual_Spec Dual_Proofs DualMinimax_Proofs Dual2_Proofs Props_Dual2.
From Verif Require Import Transport_Spec Transport_Proofs Kantorovich_Proofs.
Import ListNotations.
Local Open Scope R_scope.

(* lambda rho + average of sup (L - lambda c) is at most c: the suprema are replaced by upper bounds, one per data point *)
Definition dual_le {A} (cost : A -> A -> R) (allowed : A -> A -> Prop) (samples : list A) (rho : R) (f : A -> R) (lam c : R) : Prop :=
  exists s, Forall2 (fun x si => forall y, allowed x y -> f y - lam * cost x y <= si) samples s /\ lam * rho + rmean s <= c.

(* The documented formula: for every loss, cost and set of allowed points, a number bounds the expected loss of every plan of average
   price at most rho iff it bounds the dual value of some multiplier. In particular the minimum over the multipliers is attained. *)
Theorem C136_documented_dual : forall A (cost : A -> A -> R) allowed samples rho f c, samples <> [] -> 0 < rho ->
  (forall x, In x samples -> allowed x x /\ cost x x = 0) ->
  (tworst_le cost allowed samples rho f c <-> exists lam, 0 <= lam /\ dual_le cost allowed samples rho f lam c).
Proof.
  intros A cost allowed samples rho f c Hn Hr St. split.
  - intros W. destruct (strong_duality cost allowed samples Hn St rho f c (or_introl Hr) W) as (lam & s & Hl & F & B). exists lam. split; [exact Hl|]. exists s. split; [|exact B].
    eapply F2_impl; [|exact F]. cbn. intros x si H y Hy. specialize (H y Hy). lra.
  - intros (lam & Hl & s & F & B) p O. eapply Rle_trans; [|exact B]. eapply weak_duality; [exact Hl| |exact O].
    eapply F2_impl; [|exact F]. cbn. intros x si H y Hy. specialize (H y Hy). lra.
Qed.
Print Assumptions C136_documented_dual.

(* A radius of zero: the formula still holds for losses that grow at most linearly with the cost; the worst case is the average loss. *)
Theorem C136_zero_radius : forall A (cost : A -> A -> R) allowed samples f L c, samples <> [] -> 0 <= L ->
  (forall x, In x samples -> allowed x x /\ cost x x = 0) -> (forall x y, In x samples -> allowed x y -> f y - f x <= L * cost x y) ->
  (tworst_le cost allowed samples 0 f c <-> exists lam, 0 <= lam /\ dual_le cost allowed samples 0 f lam c) /\ (tworst_le cost allowed samples 0 f c <-> rmean (map f samples) <= c).
Proof.
  intros A cost allowed samples f L c Hn HL St G.
  assert (D : dual_le cost allowed samples 0 f L (rmean (map f samples))).
  { exists (map f samples). split; [|rewrite Rmult_0_r, Rplus_0_l; apply Rle_refl]. clear -G. assert (K : forall l, (forall x, In x l -> In x samples) -> Forall2 (fun x si => forall y, allowed x y -> f y - L * cost x y <= si) l (map f l)).
    { induction l as [|x l IH]; intros H; cbn; constructor; [|apply IH; intros; apply H; right; assumption]. intros y Hy. specialize (G x y (H x (or_introl eq_refl)) Hy). lra. }
    apply K. auto. }
  assert (Wk : forall lam c', 0 <= lam -> dual_le cost allowed samples 0 f lam c' -> tworst_le cost allowed samples 0 f c').
  { intros lam c' Hl (s & F & B) p O. eapply Rle_trans; [|exact B]. eapply weak_duality; [exact Hl| |exact O].
    eapply F2_impl; [|exact F]. cbn. intros x si H y Hy. specialize (H y Hy). lra. }
  assert (A2 : tworst_le cost allowed samples 0 f c <-> rmean (map f samples) <= c).
  { split.
    - intros W. destruct (still_ok cost allowed samples St) as [O Z]. specialize (W (still samples)). rewrite Z in O. specialize (W O). unfold still in W. rewrite move_value in W. exact W.
    - intros H p O. eapply Rle_trans; [exact (Wk L _ HL D p O)|exact H]. }
  split; [|exact A2]. split; [|intros (lam & Hl & H); exact (Wk lam c Hl H)].
  intros W. exists L. split; [exact HL|]. destruct D as (s & F & B). exists s. split; [exact F|]. apply A2 in W. lra.
Qed.
Print Assumptions C136_zero_radius.

(* Whatever points were sampled among the allowed ones, at some multiplier the computed objective is at most the worst case: training
   never aims above the risk it is a surrogate of. *)
Theorem C136_never_above : forall P (loss : P -> R) cost displace lp lpr n (rows : list (row P)) rho eps p allowed c,
  batch_ok n rows -> 0 < rho -> 0 < eps -> (forall r, In r rows -> allowed (r_xi r) (r_xi r) /\ cost (r_xi r) (r_xi r) = 0) ->
  (forall r z, In r rows -> In z (r_zeta r) -> allowed (r_xi r) z) -> tworst_le cost allowed (map r_xi rows) (Rpower rho p) loss c ->
  exists lam v, 0 <= lam /\ is_value loss cost displace lp lpr n rows rho lam eps p v /\ v <= c.
Proof.
  intros P loss cost displace lp lpr n rows rho eps p allowed c Hb Hr He St Al W. assert (Hne : rows <> []) by apply Hb.
  destruct (strong_duality cost allowed (map r_xi rows)) with (rho := Rpower rho p) (f := loss) (c := c) as (lam & s & Hl & F & B).
  - destruct rows; [contradiction|discriminate].
  - intros x Hx. apply in_map_iff in Hx. destruct Hx as (r & <- & Hin). apply St. exact Hin.
  - left. unfold Rpower. apply exp_pos.
  - exact W.
  - exists lam. eexists. split; [exact Hl|]. split; [apply value_iff; [assumption..|reflexivity]|]. eapply Rle_trans; [|exact B]. unfold objective. apply Rplus_le_compat_l.
    assert (K : rsum (map (soft P loss cost eps lam) rows) <= rsum s /\ List.length s = List.length rows).
    { assert (Ne : forall r, In r rows -> r_zeta r <> []).
      { intros r Hin E. pose proof (pen_length P loss cost n rows lam r Hb Hin) as Lp. unfold pen in Lp. rewrite E in Lp. cbn in Lp. destruct Hb as [Hn _]. lia. }
      clear -F Al Ne He. revert s F. induction rows as [|r l IH]; intros s F; inversion F; subst; cbn; [split; [lra|reflexivity]|].
      destruct (IH (fun r' z H => Al r' z (or_intror H)) (fun r' H => Ne r' (or_intror H)) l' H3) as [I1 I2]. split; [|congruence].
      assert (soft P loss cost eps lam r <= y); [|lra]. unfold soft. apply (softmaximum_bounds eps (pen P loss cost lam r) y He).
      - unfold pen. destruct (r_zeta r) eqn:E; [exfalso; exact (Ne r (or_introl eq_refl) E)|discriminate].
      - intros a Ha. unfold pen in Ha. apply in_map_iff in Ha. destruct Ha as (z & <- & Hz). specialize (H1 z (Al r z (or_introl eq_refl) Hz)). lra. }
    destruct K as [K L]. unfold rmean. rewrite map_length, L. unfold Rdiv. apply Rmult_le_compat_r; [|exact K]. left. apply Rinv_0_lt_compat, lt_0_INR. destruct rows; [contradiction|cbn; lia].
Qed.
Print Assumptions C136_never_above.

(* When the samples are all the allowed points, every value of the objective at a non-negative multiplier, plus epsilon log(n_samples),
   bounds the worst case: with the previous theorem, the best value is the worst case up to epsilon log(n_samples). *)
Theorem C136_all_points : forall P (loss : P -> R) cost displace lp lpr n (rows : list (row P)) rho lam eps p (allowed : P -> P -> Prop) v,
  batch_ok n rows -> 0 < rho -> 0 < eps -> 0 <= lam -> (forall r z, In r rows -> (allowed (r_xi r) z -> In z (r_zeta r))) ->
  is_value loss cost displace lp lpr n rows rho lam eps p v -> tworst_le cost allowed (map r_xi rows) (Rpower rho p) loss (v + eps * ln (INR n)).
Proof.
  intros P loss cost displace lp lpr n rows rho lam eps p allowed v Hb Hr He Hl Al Hv q O.
  apply value_iff in Hv; [|assumption..]. subst v. assert (Hne : rows <> []) by apply Hb.
  assert (D : Forall2 (fun x si => forall y, allowed x y -> loss y <= lam * cost x y + si) (map r_xi rows) (map (fun r => soft P loss cost eps lam r + eps * ln (INR n)) rows)).
  { assert (K : forall l, (forall r, In r l -> In r rows) -> Forall2 (fun x si => forall y, allowed x y -> loss y <= lam * cost x y + si) (map r_xi l) (map (fun r => soft P loss cost eps lam r + eps * ln (INR n)) l)).
    { induction l as [|r l IH]; intros H; cbn; constructor; [|apply IH; intros; apply H; right; assumption]. intros y Hy.
      assert (Hin : In r rows) by (apply H; left; reflexivity). specialize (Al r y Hin Hy).
      (* the largest penalised loss of the row *)
      assert (M : exists z, In z (r_zeta r) /\ forall z', In z' (r_zeta r) -> loss z' - lam * cost (r_xi r) z' <= loss z - lam * cost (r_xi r) z).
      { clear -Al. induction (r_zeta r) as [|z0 zs IH]; [contradiction|]. destruct zs as [|z1 zs].
        - exists z0. split; [left; reflexivity|]. intros z' [<-|[]]. lra.
        - assert (E : exists z, In z (z1 :: zs) /\ forall z', In z' (z1 :: zs) -> loss z' - lam * cost (r_xi r) z' <= loss z - lam * cost (r_xi r) z).
          { clear IH Al. revert z1. induction zs as [|z2 zs IH]; intros z1; [exists z1; split; [left; reflexivity|intros z' [<-|[]]; lra]|].
            destruct (IH z2) as (z & Hz & B). destruct (Rle_dec (loss z1 - lam * cost (r_xi r) z1) (loss z - lam * cost (r_xi r) z)) as [C|C].
            - exists z. split; [right; exact Hz|]. intros z' [<-|Hz']; [exact C|auto].
            - exists z1. split; [left; reflexivity|]. intros z' [<-|Hz']; [lra|]. specialize (B z' Hz'). lra. }
          destruct E as (z & Hz & B). destruct (Rle_dec (loss z0 - lam * cost (r_xi r) z0) (loss z - lam * cost (r_xi r) z)) as [C|C].
          + exists z. split; [right; exact Hz|]. intros z' [<-|Hz']; [exact C|auto].
          + exists z0. split; [left; reflexivity|]. intros z' [<-|Hz']; [lra|]. specialize (B z' Hz'). lra. }
      destruct M as (z & Hz & B). pose proof (B y Al) as By.
      assert (Q : loss z - lam * cost (r_xi r) z - eps * ln (INR n) <= soft P loss cost eps lam r).
      { rewrite <- (pen_length P loss cost n rows lam r Hb Hin). unfold soft. apply softmaximum_near_max; [exact He| |].
        - unfold pen. apply in_map_iff. exists z. auto.
        - intros a Ha. unfold pen in Ha. apply in_map_iff in Ha. destruct Ha as (z' & <- & Hz'). apply B. exact Hz'. }
      lra. }
    apply K. auto. }
  eapply Rle_trans; [exact (weak_duality cost allowed _ _ loss lam _ q Hl D O)|]. unfold objective. rewrite rmean_map_plus, rmean_map_const by exact Hne. lra.
Qed.
Print Assumptions C136_all_points.

(* non-vacuity: two points on the line, squared distance, the loss z^2 truncated at 9 (bounded, not convex) *)
Definition cut (z : R) : R := Rmin (z * z) 9.
Definition sqd (x z : R) : R := (x - z) * (x - z).
Example C136_documented_dual_case : tworst_le sqd (fun _ _ => True) [0; 2] 4 cut 9 /\ exists lam, 0 <= lam /\ dual_le sqd (fun _ _ => True) [0; 2] 4 cut lam 9.
Proof.
  assert (D : exists lam, 0 <= lam /\ dual_le sqd (fun _ _ => True) [0; 2] 4 cut lam 9).
  { exists 0. split; [lra|]. exists [9; 9]. split; [do 2 (constructor; [intros y _; unfold cut; pose proof (Rmin_r (y * y) 9); lra|]); constructor|]. unfold rmean. cbn. lra. }
  split; [|exact D]. apply C136_documented_dual; [discriminate|lra| |exact D]. intros x _. split; [exact I|unfold sqd; ring].
Qed.
Example C136_zero_radius_case : tworst_le (fun x y : R => Rabs (x - y)) (fun _ _ => True) [0; 2] 0 Rabs 1 /\ rmean (map Rabs [0; 2]) <= 1.
Proof.
  assert (M : rmean (map Rabs [0; 2]) <= 1) by (unfold rmean; cbn; rewrite Rabs_R0, Rabs_right by lra; lra). split; [|exact M].
  apply (C136_zero_radius R (fun x y => Rabs (x - y)) (fun _ _ => True) [0; 2] Rabs 1 1); [discriminate|lra| | |exact M].
  - intros x _. split; [exact I|]. replace (x - x) with 0 by ring. apply Rabs_R0.
  - intros x y _ _. pose proof (Rabs_triang_inv y x). rewrite (Rabs_minus_sym x y). lra.
Qed.
Example C136_never_above_case displace lp lpr : exists lam v, 0 <= lam /\ is_value cut sqd displace lp lpr 2 two_rows 2 lam 1 2 v /\ v <= 9.
Proof.
  apply (C136_never_above R cut sqd _ _ _ 2 two_rows 2 1 2 (fun _ _ => True) 9); [split; [lia|split; [discriminate|repeat constructor]]|lra|lra| |auto|].
  - intros r _. split; [exact I|unfold sqd; ring].
  - intros p (_ & F & _). unfold tplan_value, rmean. rewrite map_length. destruct p as [|a p]; [cbn; unfold Rdiv; lra|].
    assert (N : 0 < INR (List.length (a :: p))) by (apply lt_0_INR; cbn; lia). apply (Rmult_le_reg_r (INR (List.length (a :: p)))); [exact N|]. unfold Rdiv. rewrite Rmult_assoc, Rinv_l, Rmult_1_r by lra.
    set (q := a :: p) in *. clearbody q. clear N. induction F as [|[x l] q [Fl Sl] F IH]; [cbn; lra|]. cbn [map rsum List.length]. rewrite S_INR. cbn [snd fst] in *.
    assert (texpect cut l <= 9); [|lra]. rewrite <- (Rmult_1_r 9), <- Sl. unfold texpect. clear -Fl. induction Fl as [|[w y] l [H _] Fl IH]; cbn; [lra|]. cbn in H. assert (cut y <= 9) by apply Rmin_r. nra.
Qed.
Example C136_all_points_case displace lp lpr : exists v, is_value cut sqd displace lp lpr 2 two_rows 2 0 1 2 v /\
  tworst_le sqd (fun x z => (x = 0 /\ (z = 1 \/ z = -1)) \/ (x = 2 /\ (z = 2 \/ z = 5))) [0; 2] (Rpower 2 2) cut (v + 1 * ln (INR 2)).
Proof.
  assert (B : batch_ok 2 two_rows) by (split; [lia|split; [discriminate|repeat constructor]]).
  eexists. split; [apply value_iff; [exact B|lra|lra|reflexivity]|].
  change [0; 2] with (map r_xi two_rows). apply (C136_all_points R cut sqd displace lp lpr 2 two_rows 2 0 1 2); [exact B|lra|lra|lra| |apply value_iff; [exact B|lra|lra|reflexivity]].
  intros r z [<-|[<-|[]]]; cbn; intros [[H K]|[H K]]; try lra; destruct K as [->| ->]; auto.
Qed.
