(* Functions that are Lipschitz on every box and have bounded sublevel sets attain their minimum, in any dimension. Vectors are
   lists; no choice is used: the minimum over all coordinates but the first is a Lipschitz function of the first. *)
From Coq Require Import Reals List Lra Lia Ranalysis.
From Verif Require Import RList.
Import ListNotations.
Local Open Scope R_scope.

Definition box (B : R) (d : nat) (v : list R) : Prop := List.length v = d /\ Forall (fun a => Rabs a <= B) v.
(* distance: sum of the absolute differences *)
Definition dist1 (u v : list R) : R := rsum (map2 (fun a b => Rabs (a - b)) u v).
Definition lip_on (B : R) (d : nat) (L : R) (f : list R -> R) : Prop :=
  forall u v, box B d u -> box B d v -> Rabs (f u - f v) <= L * dist1 u v.

Lemma dist1_cons a b u v : dist1 (a :: u) (b :: v) = Rabs (a - b) + dist1 u v.
Proof. reflexivity. Qed.
Lemma dist1_refl u : dist1 u u = 0.
Proof. induction u as [|a u IH]; [reflexivity|]. rewrite dist1_cons, IH. replace (a - a) with 0 by ring. rewrite Rabs_R0. ring. Qed.
Lemma dist1_nonneg : forall u v, 0 <= dist1 u v.
Proof.
  induction u as [|a u IH]; intros [|b v]; try (unfold dist1; simpl; lra).
  rewrite dist1_cons. pose proof (Rabs_pos (a - b)). specialize (IH v). lra.
Qed.
Lemma box_cons B d a v : Rabs a <= B -> box B d v -> box B (S d) (a :: v).
Proof. intros A [L F]. split; [simpl; congruence|constructor; assumption]. Qed.
Lemma box_repeat B d : 0 <= B -> box B d (repeat 0 d).
Proof.
  intros HB. split; [apply repeat_length|]. apply Forall_forall. intros x Hx. apply repeat_spec in Hx. subst x. rewrite Rabs_R0. exact HB.
Qed.
Lemma box_mono B B' d v : B <= B' -> box B d v -> box B' d v.
Proof. intros H [L F]. split; [exact L|]. eapply Forall_impl; [|exact F]. simpl. intros. lra. Qed.

(* a number brought back into [-B, B] *)
Definition cut (B t : R) : R := Rmax (- B) (Rmin B t).
Lemma cut_in B t : 0 <= B -> Rabs (cut B t) <= B.
Proof. intros H. apply Rabs_le. unfold cut, Rmax, Rmin. destruct (Rle_dec B t), (Rle_dec (- B) _); lra. Qed.
Lemma cut_id B t : - B <= t <= B -> cut B t = t.
Proof. intros H. unfold cut, Rmax, Rmin. destruct (Rle_dec B t), (Rle_dec (- B) _); lra. Qed.
Lemma cut_lip B s t : 0 <= B -> Rabs (cut B s - cut B t) <= Rabs (s - t).
Proof.
  intros H. unfold cut, Rmax, Rmin.
  destruct (Rle_dec B s), (Rle_dec B t); repeat destruct (Rle_dec (- B) _); unfold Rabs; repeat destruct (Rcase_abs _); lra.
Qed.
Lemma lip_continuous (g : R -> R) L : 0 <= L -> (forall s t, Rabs (g s - g t) <= L * Rabs (s - t)) -> forall c, continuity_pt g c.
Proof.
  intros HL Hg c. unfold continuity_pt, continue_in, limit1_in, limit_in. intros e He. exists (e / (L + 1)).
  split; [apply Rdiv_lt_0_compat; lra|]. simpl. unfold R_dist. intros x [_ Hx].
  eapply Rle_lt_trans; [apply Hg|]. apply Rle_lt_trans with (L * (e / (L + 1))).
  - apply Rmult_le_compat_l; lra.
  - apply (Rmult_lt_reg_r (L + 1)); [lra|]. replace (L * (e / (L + 1)) * (L + 1)) with (L * e) by (field; lra). lra.
Qed.

Lemma box_min : forall d B L f, 0 <= B -> 0 <= L -> lip_on B d L f -> exists u, box B d u /\ forall v, box B d v -> f u <= f v.
Proof.
  induction d as [|d IH]; intros B L f HB HL Hf.
  - exists []. split; [split; [reflexivity|constructor]|]. intros v [Lv _]. destruct v; [lra|discriminate].
  - assert (Hs : forall t, lip_on B d L (fun x => f (cut B t :: x))).
    { intros t u v Hu Hv. eapply Rle_trans; [apply Hf; apply box_cons; try assumption; apply cut_in; exact HB|].
      rewrite dist1_cons. replace (cut B t - cut B t) with 0 by ring. rewrite Rabs_R0. right. ring. }
    pose (E := fun t y => exists x, box B d x /\ y = - f (cut B t :: x)).
    assert (Eb : forall t, bound (E t)).
    { intros t. destruct (IH B L _ HB HL (Hs t)) as (u & Hu & Min). exists (- f (cut B t :: u)). intros y (x & Hx & ->).
      specialize (Min x Hx). simpl in Min. lra. }
    assert (En : forall t, exists y, E t y).
    { intros t. exists (- f (cut B t :: repeat 0 d)), (repeat 0 d). split; [apply box_repeat; exact HB|reflexivity]. }
    pose (g := fun t => - proj1_sig (completeness (E t) (Eb t) (En t))).
    (* g is the minimum over the other coordinates *)
    assert (G : forall t, exists u, box B d u /\ g t = f (cut B t :: u) /\ forall v, box B d v -> g t <= f (cut B t :: v)).
    { intros t. destruct (IH B L _ HB HL (Hs t)) as (u & Hu & Min). unfold g. destruct (completeness (E t) (Eb t) (En t)) as [m [Up Least]]. simpl.
      assert (m = - f (cut B t :: u)) as ->.
      { apply Rle_antisym.
        - apply Least. intros y (x & Hx & ->). specialize (Min x Hx). simpl in Min. lra.
        - apply Up. exists u. split; [exact Hu|reflexivity]. }
      exists u. split; [exact Hu|]. split; [ring|]. intros v Hv. specialize (Min v Hv). simpl in Min. lra. }
    assert (Gl : forall s t, g s - g t <= L * Rabs (s - t)).
    { intros s t. destruct (G t) as (u & Hu & Eu & _). destruct (G s) as (_ & _ & _ & Ms). specialize (Ms u Hu).
      assert (Q : Rabs (f (cut B s :: u) - f (cut B t :: u)) <= L * dist1 (cut B s :: u) (cut B t :: u)).
      { apply Hf; apply box_cons; try assumption; apply cut_in; exact HB. }
      rewrite dist1_cons, dist1_refl in Q. pose proof (cut_lip B s t HB) as C. pose proof (Rle_abs (f (cut B s :: u) - f (cut B t :: u))).
      assert (L * Rabs (cut B s - cut B t) <= L * Rabs (s - t)) by (apply Rmult_le_compat_l; assumption). lra. }
    assert (Gc : forall c, continuity_pt g c).
    { apply (lip_continuous g L HL). intros s t. apply Rabs_le. split; [|apply Gl]. pose proof (Gl t s). rewrite Rabs_minus_sym in H. lra. }
    destruct (continuity_ab_min g (- B) B ltac:(lra) (fun c _ => Gc c)) as (t & Mt & It).
    destruct (G t) as (u & Hu & Eu & _). exists (t :: u). rewrite (cut_id B t It) in Eu. split.
    + apply box_cons; [apply Rabs_le; lra|exact Hu].
    + intros v [Lv Fv]. destruct v as [|a v]; [discriminate|]. inversion Fv as [|? ? Ha Hv]; subst.
      assert (Ia : - B <= a <= B) by (unfold Rabs in Ha; destruct (Rcase_abs a); lra).
      destruct (G a) as (_ & _ & _ & Ma). rewrite <- Eu. eapply Rle_trans; [apply Mt; exact Ia|].
      rewrite <- (cut_id B a Ia) at 2. apply Ma. split; [simpl in Lv; congruence|exact Hv].
Qed.

(* with bounded sublevel sets, over all vectors of d numbers *)
Lemma attains d f B0 u0 : List.length u0 = d ->
  (forall B, 0 <= B -> exists L, 0 <= L /\ lip_on B d L f) ->
  (forall v, List.length v = d -> f v <= f u0 -> box B0 d v) ->
  exists u, List.length u = d /\ forall v, List.length v = d -> f u <= f v.
Proof.
  intros L0 Hf Hc. set (B := Rmax 0 B0). assert (HB : 0 <= B) by apply Rmax_l.
  destruct (Hf B HB) as (L & HL & Lf). destruct (box_min d B L f HB HL Lf) as (u & [Lu Fu] & Min).
  assert (C : forall v, List.length v = d -> f v <= f u0 -> box B d v) by (intros v Lv Hv; apply (box_mono B0); [apply Rmax_r|apply Hc; assumption]).
  exists u. split; [exact Lu|]. intros v Lv. destruct (Rle_dec (f v) (f u0)) as [H|H].
  - apply Min, C; assumption.
  - pose proof (Min u0 (C u0 L0 (Rle_refl _))). lra.
Qed.
