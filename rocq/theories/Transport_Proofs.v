(* Weak duality, mixtures and order independence of transport plans. *)
From Coq Require Import Reals List Lra Lia Permutation.
From Verif Require Import RList Transport_Spec.
Import ListNotations.
Local Open Scope R_scope.

Section Plans.
Context {A : Type}.
Variable cost : A -> A -> R.
Variable allowed : A -> A -> Prop.
Notation tlaw_ok := (tlaw_ok allowed).
Notation tplan_cost := (tplan_cost cost).
Notation tplan_ok := (tplan_ok cost allowed).
Notation tworst_le := (tworst_le cost allowed).

Lemma texpect_affine a b f (l : tlaw) : rsum (map fst l) = 1 -> texpect (fun y : A => a + b * f y) l = a + b * texpect f l.
Proof.
  intros H. unfold texpect.
  assert (E : rsum (map (fun wx => fst wx * (a + b * f (snd wx))) l) = a * rsum (map fst l) + b * rsum (map (fun wx => fst wx * f (snd wx)) l)).
  { clear H. induction l as [|[w x] l IH]; simpl; [lra|]. rewrite IH. ring. }
  rewrite E, H. ring.
Qed.

Lemma texpect_le x f g l : tlaw_ok x l -> (forall y, allowed x y -> f y <= g y) -> texpect f l <= texpect g l.
Proof.
  intros [F _] H. unfold texpect. apply rsum_map_le. intros [w y] Hin. rewrite Forall_forall in F. specialize (F _ Hin). simpl in *.
  apply Rmult_le_compat_l; [tauto|]. apply H; tauto.
Qed.

Lemma texpect_point f (y : A) : texpect f [(1, y)] = f y.
Proof. unfold texpect. simpl. ring. Qed.

Lemma tplan_length samples b p : tplan_ok samples b p -> length p = length samples.
Proof. intros [H _]. rewrite <- H, map_length. reflexivity. Qed.

(* weak duality: a multiplier and one number per data point *)
Lemma weak_duality samples rho f lam s p : 0 <= lam ->
  Forall2 (fun x si => forall y, allowed x y -> f y <= lam * cost x y + si) samples s ->
  tplan_ok samples rho p -> tplan_value f p <= lam * rho + rmean s.
Proof.
  intros Hl D (E & F & B). unfold tplan_value. subst samples.
  assert (X : rsum (map (fun xl => texpect f (snd xl)) p) <= lam * rsum (map (fun xl => texpect (cost (fst xl)) (snd xl)) p) + rsum s /\ length p = length s).
  { clear B. revert s D. induction F as [|[x l] p W F IH]; intros s D; inversion D as [|? si ? s' H1 H2]; subst; cbn [map rsum fst snd length].
    - split; [lra|reflexivity].
    - destruct (IH s' H2) as [I1 I2]. split; [|rewrite I2; reflexivity].
      assert (Y : texpect f l <= si + lam * texpect (cost x) l).
      { rewrite <- texpect_affine by apply W. apply (texpect_le x); [exact W|]. intros y Hy. specialize (H1 y Hy). simpl in H1. lra. }
      simpl in Y. lra. }
  destruct X as [X L]. unfold Transport_Spec.tplan_cost in B. unfold rmean in *. rewrite map_length in *. rewrite <- L.
  destruct p as [|a p]; [destruct s; [|discriminate L]; simpl in *; unfold Rdiv in *; nra|].
  assert (N : 0 < / INR (length (a :: p))) by (apply Rinv_0_lt_compat, lt_0_INR; simpl; lia).
  unfold Rdiv in *. set (i := / INR (length (a :: p))) in *.
  apply (Rmult_le_compat_r i) in X; [|lra].
  apply (Rmult_le_compat_l lam) in B; [|exact Hl]. nra.
Qed.

(* a plan for permuted data *)
Lemma tplan_perm s s' b p : Permutation s' s -> tplan_ok s' b p ->
  exists q, tplan_ok s b q /\ forall f, tplan_value f q = tplan_value f p.
Proof.
  intros P (E & F & B). assert (PP : Permutation s (map fst p)) by (rewrite E; symmetry; exact P).
  apply Permutation_map_inv in PP as (q & E' & Q). exists q. split.
  - split; [symmetry; exact E'|]. split.
    + rewrite Forall_forall in *. intros xl Hx. apply F. eapply Permutation_in; [symmetry; exact Q|exact Hx].
    + unfold Transport_Spec.tplan_cost in *. rewrite <- (rmean_perm _ _ (Permutation_map (fun xl => texpect (cost (fst xl)) (snd xl)) Q)). exact B.
  - intros f. unfold tplan_value. symmetry. apply rmean_perm, Permutation_map, Q.
Qed.

(* deterministic plans *)
Definition move (T : A -> A) (samples : list A) : tplan := map (fun x => (x, [(1, T x)])) samples.

Lemma move_ok T samples b : (forall x, In x samples -> allowed x (T x)) -> rmean (map (fun x => cost x (T x)) samples) <= b ->
  tplan_ok samples b (move T samples).
Proof.
  intros Ha Hb. unfold move. split; [rewrite map_map; simpl; apply map_id|]. split.
  - apply Forall_forall. intros xl Hx. apply in_map_iff in Hx as (x & <- & Ix). split; [|simpl; lra].
    constructor; [|constructor]. simpl. split; [lra|auto].
  - unfold Transport_Spec.tplan_cost. rewrite map_map.
    erewrite map_ext; [exact Hb|]. intros x. simpl. apply texpect_point.
Qed.

Lemma move_value T samples f : tplan_value f (move T samples) = rmean (map (fun x => f (T x)) samples).
Proof. unfold tplan_value, move. rewrite map_map. f_equal. apply map_ext. intros x. apply texpect_point. Qed.

(* mixtures *)
Definition mix_law (t : R) (l m : @tlaw A) : tlaw := map (fun wa => ((1 - t) * fst wa, snd wa)) l ++ map (fun wa => (t * fst wa, snd wa)) m.
Definition mix (t : R) (p q : @tplan A) : tplan := map2 (fun xl xm => (fst xl, mix_law t (snd xl) (snd xm))) p q.

Lemma texpect_scale f c (l : @tlaw A) : texpect f (map (fun wa => (c * fst wa, snd wa)) l) = c * texpect f l.
Proof. unfold texpect. rewrite map_map. simpl. rewrite <- rsum_map_scal. f_equal. apply map_ext. intros; simpl; ring. Qed.

Lemma texpect_mix f t l m : texpect f (mix_law t l m) = (1 - t) * texpect f l + t * texpect f m.
Proof.
  unfold mix_law. rewrite <- !texpect_scale. unfold texpect. rewrite map_app, rsum_app. reflexivity.
Qed.

Lemma mix_law_ok x t l m : 0 <= t <= 1 -> tlaw_ok x l -> tlaw_ok x m -> tlaw_ok x (mix_law t l m).
Proof.
  intros Ht [F1 S1] [F2 S2]. split.
  - unfold mix_law. apply Forall_app. split; apply Forall_map; eapply Forall_impl; try eassumption; intros [w y]; simpl; intros [H1 H2]; split; auto; apply Rmult_le_pos; lra.
  - unfold mix_law. rewrite map_app, !map_map, rsum_app. simpl. rewrite !rsum_map_scal, S1, S2. ring.
Qed.

Lemma mix_rsum (F : A -> tlaw -> R) t : (forall x l m, F x (mix_law t l m) = (1 - t) * F x l + t * F x m) ->
  forall p q : tplan, map fst p = map fst q ->
  rsum (map (fun xl => F (fst xl) (snd xl)) (mix t p q)) = (1 - t) * rsum (map (fun xl => F (fst xl) (snd xl)) p) + t * rsum (map (fun xl => F (fst xl) (snd xl)) q)
  /\ length (mix t p q) = length p /\ length q = length p.
Proof.
  intros HF. induction p as [|[x l] p IH]; intros [|[x' m] q] E; simpl in *; try discriminate; [split; [ring|auto]|].
  injection E as -> E. destruct (IH q E) as (I1 & I2 & I3). split; [|split; f_equal; assumption]. rewrite HF. fold (mix t p q). rewrite I1. ring.
Qed.

Lemma mix_rmean (F : A -> tlaw -> R) t : (forall x l m, F x (mix_law t l m) = (1 - t) * F x l + t * F x m) ->
  forall p q : tplan, map fst p = map fst q ->
  rmean (map (fun xl => F (fst xl) (snd xl)) (mix t p q)) = (1 - t) * rmean (map (fun xl => F (fst xl) (snd xl)) p) + t * rmean (map (fun xl => F (fst xl) (snd xl)) q).
Proof.
  intros HF p q E. destruct (mix_rsum F t HF p q E) as (H1 & H2 & H3). unfold rmean. rewrite !map_length, H1, H2, H3. unfold Rdiv. ring.
Qed.

Lemma mix_ok samples t b1 b2 b p q : 0 <= t <= 1 -> tplan_ok samples b1 p -> tplan_ok samples b2 q -> (1 - t) * b1 + t * b2 <= b ->
  tplan_ok samples b (mix t p q).
Proof.
  intros Ht (E1 & F1 & B1) (E2 & F2 & B2) Hb. split; [|split].
  - rewrite <- E1. clear -E1 E2. assert (E : map fst p = map fst q) by congruence. clear E1 E2. revert q E.
    induction p as [|[x l] p IH]; intros [|[x' m] q] E; simpl in *; try discriminate; [reflexivity|]. injection E as -> E. f_equal. apply IH, E.
  - assert (E : map fst p = map fst q) by congruence. clear E1 E2 B1 B2. revert q E F2.
    induction F1 as [|[x l] p W F1 IH]; intros [|[x' m] q] E F2; simpl in *; try discriminate; constructor.
    + injection E as -> E. inversion F2; subst. apply mix_law_ok; assumption.
    + injection E as -> E. inversion F2; subst. apply IH; assumption.
  - unfold Transport_Spec.tplan_cost in *.
    rewrite (mix_rmean (fun x l => texpect (cost x) l) t (fun x l m => texpect_mix (cost x) t l m) p q ltac:(congruence)).
    apply Rle_trans with ((1 - t) * b1 + t * b2); [|exact Hb]. apply Rplus_le_compat; apply Rmult_le_compat_l; lra.
Qed.

Lemma mix_value f t (p q : tplan) : map fst p = map fst q -> tplan_value f (mix t p q) = (1 - t) * tplan_value f p + t * tplan_value f q.
Proof. intros E. unfold tplan_value. exact (mix_rmean (fun _ l => texpect f l) t (fun _ l m => texpect_mix f t l m) p q E). Qed.

(* sending a vanishing mass far away: if points at distance D gain g*D - a on average, the whole leftover budget is worth g *)
Lemma far_moves samples b used g a (f : A -> R) p (far : R -> tplan) : 0 <= used <= b ->
  tplan_ok samples used p -> (forall D, 0 <= D -> tplan_ok samples D (far D)) -> (forall D, 0 <= D -> g * D - a <= tplan_value f (far D)) ->
  forall c, tworst_le samples b f c -> tplan_value f p + g * (b - used) <= c.
Proof.
  intros Hb Hp Hfar Hval c W.
  assert (X : forall t, 0 < t <= 1 -> tplan_value f p + g * (b - used) - t * (tplan_value f p + a) <= c).
  { intros t Ht. set (D := (b - used) / t). assert (HD : 0 <= D) by (apply Rmult_le_pos; [lra|left; apply Rinv_0_lt_compat; lra]).
    assert (E : t * D = b - used) by (unfold D; field; lra).
    assert (O : tplan_ok samples b (mix t p (far D))) by (apply (mix_ok samples t used D b); [lra|exact Hp|apply Hfar, HD|]; nra).
    specialize (W _ O). rewrite mix_value in W by (rewrite (proj1 Hp), (proj1 (Hfar D HD)); reflexivity).
    specialize (Hval D HD). apply (Rmult_le_compat_l t) in Hval; [|lra].
    replace (t * (g * D - a)) with (g * (b - used) - t * a) in Hval by (rewrite <- E; ring). lra. }
  set (v := tplan_value f p) in *. apply Rnot_lt_le. intros Hlt. set (e := v + g * (b - used) - c) in *.
  set (K := Rabs (v + a) + 1). assert (K1 : 1 <= K) by (unfold K; pose proof (Rabs_pos (v + a)); lra).
  assert (K2 : v + a < K) by (unfold K; pose proof (Rle_abs (v + a)); lra).
  set (t := Rmin 1 (e / K)).
  assert (E0 : 0 < e / K) by (apply Rdiv_lt_0_compat; unfold e; lra).
  assert (Ht : 0 < t <= 1) by (unfold t; split; [apply Rmin_glb_lt; lra|apply Rmin_l]).
  specialize (X t Ht). assert (T2 : t <= e / K) by apply Rmin_r.
  assert (T3 : t * K <= e) by (apply (Rmult_le_compat_r K) in T2; [|lra]; unfold Rdiv in T2; rewrite Rmult_assoc, Rinv_l, Rmult_1_r in T2 by lra; lra).
  assert (t * (v + a) < t * K) by (apply Rmult_lt_compat_l; lra). unfold e in *. lra.
Qed.
End Plans.
