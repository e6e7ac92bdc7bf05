From Coq Require Import Reals List Bool ZArith Lra Lia.
From Verif Require Import PyBase RList XReal Samplers_Model Samplers_Spec Samplers_Proofs DiracX_Model.
Import ListNotations.
Local Open Scope R_scope.

Lemma xr_eq_dec (x y : xr) : {x = y} + {x <> y}.
Proof. decide equality. apply Req_EM_T. Defined.

(* ---- vocabulary ---- *)
(* the entry of the source that broadcasting shows at an index: axes of size 1 are read at 0 *)
Fixpoint proj (src idx : list nat) : list nat :=
  match src, idx with s :: ss, i :: is => (if Nat.eqb s 1 then 0 else i)%nat :: proj ss is | _, _ => [] end.
(* a batch shape that can be extended to another: from the right, equal sizes or 1 *)
Definition extends (src bs : list nat) : Prop :=
  exists front back, bs = front ++ back /\ Forall2 (fun s t => s = t \/ s = 1%nat) src back.
(* the exponential on extended numbers *)
Definition xexp (x : xr) : xr := match x with Fin r => Fin (exp r) | PInf => PInf | MInf => Fin 0 | NaN => NaN end.
(* the real number stored in a cell *)
Definition rval (x : option xr) : R := match x with Some (Fin r) => r | _ => 0 end.

(* ---- broadcasting ---- *)
Lemma nth_error_firstn_lt {A} (l : list A) : forall k j, (j < k)%nat -> nth_error (firstn k l) j = nth_error l j.
Proof. induction l as [|a l IH]; intros [|k] [|j] H; simpl; try lia; try reflexivity. apply IH. lia. Qed.

Lemma nth_error_skipn_add {A} (l : list A) : forall k j, nth_error (skipn k l) j = nth_error l (k + j).
Proof. induction l as [|a l IH]; intros [|k] j; simpl; try reflexivity; [destruct j; reflexivity|]. apply IH. Qed.

Lemma split_rows_length n k : forall l, List.length (split_rows n k l) = n.
Proof. induction n as [|n IH]; intros l; simpl; [reflexivity|]. rewrite IH. reflexivity. Qed.

Lemma split_rows_nth n k : forall l i, List.length l = (n * k)%nat -> (i < n)%nat ->
  exists r, nth_error (split_rows n k l) i = Some r /\ List.length r = k /\ forall j, (j < k)%nat -> nth_error r j = nth_error l (i * k + j).
Proof.
  induction n as [|n IH]; intros l i HL Hi; [lia|]. simpl in *. destruct i as [|i].
  - exists (firstn k l). simpl. split; [reflexivity|]. split; [apply firstn_length_le; lia|].
    intros j Hj. apply nth_error_firstn_lt. exact Hj.
  - destruct (IH (skipn k l) i) as (r & E & Lr & Hr); [rewrite skipn_length; lia|lia|].
    exists r. simpl. split; [exact E|]. split; [exact Lr|]. intros j Hj. rewrite Hr by exact Hj.
    rewrite nth_error_skipn_add. f_equal. lia.
Qed.

Lemma valid_len sh idx : valid_idx sh idx -> List.length sh = List.length idx.
Proof. induction 1; simpl; congruence. Qed.

Lemma valid_cons t ts idx : valid_idx (t :: ts) idx -> exists i is, idx = i :: is /\ (i < t)%nat /\ valid_idx ts is.
Proof. intros V. inversion V as [|? i ? is Hi Vs]; subst. eauto. Qed.

Lemma nth_concat_rows {A} (rows : list (list A)) K : Forall (fun r => List.length r = K) rows ->
  forall i j, (j < K)%nat ->
  nth_error (List.concat rows) (i * K + j) = match nth_error rows i with Some r => nth_error r j | None => None end.
Proof.
  induction 1 as [|r rows Hr _ IH]; intros i j Hj; cbn [List.concat].
  - destruct i, (_ + _)%nat; reflexivity.
  - destruct i as [|i]; simpl.
    + rewrite nth_error_app1 by lia. reflexivity.
    + rewrite nth_error_app2 by lia. replace (K + i * K + j - List.length r)%nat with (i * K + j)%nat by lia. apply IH, Hj.
Qed.

Lemma concat_rows_length {A} (rows : list (list A)) K : Forall (fun r => List.length r = K) rows ->
  List.length (List.concat rows) = (List.length rows * K)%nat.
Proof. induction 1 as [|r rows Hr _ IH]; simpl; [reflexivity|]. rewrite app_length, IH, Hr. reflexivity. Qed.

Lemma valid_proj src tgt : compat src tgt = true -> forall idx, valid_idx tgt idx -> valid_idx src (proj src idx).
Proof.
  unfold valid_idx. revert tgt. induction src as [|s ss IH]; intros [|t ts] C idx V; simpl in *; try discriminate.
  - destruct idx; constructor.
  - apply andb_prop in C as [C1 C2]. inversion V as [|? i ? is Hi Vs]; subst. constructor; [|eapply IH; eassumption].
    apply orb_prop in C1. destruct (Nat.eqb_spec s 1) as [->|N]; [lia|]. destruct C1 as [E|E]; [apply Nat.eqb_eq in E; lia|discriminate].
Qed.

Lemma bdata_spec src : forall tgt d, compat src tgt = true -> List.length d = prod src ->
  List.length (bdata src tgt d) = prod tgt /\
  forall idx, valid_idx tgt idx -> nth_error (bdata src tgt d) (flat tgt idx) = nth_error d (flat src (proj src idx)).
Proof.
  induction src as [|s ss IH]; intros [|t ts] d C L; try discriminate; cbn [bdata].
  - split; [exact L|]. intros idx _. destruct idx; reflexivity.
  - cbn [compat] in C. apply andb_prop in C as [C1 C2]. cbn [prod] in L.
    set (rows := map (bdata ss ts) (split_rows s (prod ss) d)).
    assert (FR : Forall (fun r => List.length r = prod ts) rows).
    { apply Forall_forall. intros r Hr. unfold rows in Hr. apply in_map_iff in Hr as (r0 & <- & Hin).
      apply In_nth_error in Hin as [i Hi].
      assert (Hlt : (i < s)%nat). { rewrite <- (split_rows_length s (prod ss) d). apply nth_error_Some. rewrite Hi. discriminate. }
      destruct (split_rows_nth s (prod ss) d i L Hlt) as (r1 & E1 & L1 & _). rewrite Hi in E1. injection E1 as ->.
      apply IH; assumption. }
    assert (LR : List.length rows = s) by (unfold rows; rewrite map_length; apply split_rows_length).
    assert (LA : List.length (List.concat rows) = (s * prod ts)%nat) by (rewrite (concat_rows_length rows _ FR), LR; reflexivity).
    assert (Cell : forall i is, (i < s)%nat -> valid_idx ts is ->
              nth_error (List.concat rows) (i * prod ts + flat ts is) = nth_error d (i * prod ss + flat ss (proj ss is))).
    { intros i is Hi Vs. rewrite (nth_concat_rows rows _ FR) by (apply flat_lt; exact Vs).
      destruct (split_rows_nth s (prod ss) d i L Hi) as (r & E & Lr & Hr).
      unfold rows. rewrite nth_error_map, E. cbn [option_map].
      destruct (IH ts r C2 Lr) as [_ Hc]. rewrite Hc by exact Vs. apply Hr. apply flat_lt. eapply valid_proj; eassumption. }
    clearbody rows. destruct (Nat.eqb_spec s t) as [E|N].
    + subst t. split; [exact LA|]. intros idx V. apply valid_cons in V as (i & is & -> & Hi & Vs). cbn [flat proj].
      rewrite Cell by assumption. destruct (Nat.eqb_spec s 1) as [->|_]; [|reflexivity]. replace i with 0%nat by lia. reflexivity.
    + cbn [orb] in C1. apply Nat.eqb_eq in C1. subst s. rewrite Nat.mul_1_l in LA. split.
      * rewrite concat_repeat_length, LA. reflexivity.
      * intros idx V. apply valid_cons in V as (i & is & -> & Hi & Vs). cbn [flat proj Nat.eqb].
        rewrite <- LA, nth_concat_repeat; [|rewrite LA; apply flat_lt; exact Vs|exact Hi].
        specialize (Cell 0%nat is ltac:(lia) Vs). cbn [Nat.mul Nat.add] in Cell. exact Cell.
Qed.

Lemma flat_pad n src : forall idx, (n <= List.length idx)%nat ->
  flat (repeat 1%nat n ++ src) (proj (repeat 1%nat n ++ src) idx) = flat src (proj src (skipn n idx)).
Proof.
  induction n as [|n IH]; intros idx H; [reflexivity|]. destruct idx as [|i idx]; [simpl in H; lia|]. simpl in *. apply IH. lia.
Qed.

Lemma prod_ones n src : prod (repeat 1%nat n ++ src) = prod src.
Proof. induction n; simpl; [reflexivity|]. lia. Qed.

Lemma texpand_spec shape t t' : well_shaped t -> texpand shape t = Ok t' ->
  t_shape t' = shape /\ well_shaped t' /\
  forall idx, valid_idx shape idx -> tget t' idx = tget t (proj (t_shape t) (skipn (List.length shape - List.length (t_shape t)) idx)).
Proof.
  unfold texpand. intros W E. destruct (Nat.leb_spec (List.length (t_shape t)) (List.length shape)) as [Hle|]; [|discriminate].
  cbn [andb] in E. destruct (compat (pad shape (t_shape t)) shape) eqn:C; [|discriminate]. injection E as <-.
  destruct (bdata_spec (pad shape (t_shape t)) shape (t_data t) C) as [L G].
  { unfold pad. rewrite prod_ones. exact W. }
  split; [reflexivity|]. split; [exact L|]. intros idx V. unfold tget. cbn [t_shape t_data]. rewrite (G idx V). unfold pad.
  rewrite flat_pad; [reflexivity|]. rewrite <- (valid_len _ _ V). lia.
Qed.

(* ---- expand ---- *)
Lemma compat_app a : forall a' b b', List.length a = List.length a' -> compat (a ++ b) (a' ++ b') = compat a a' && compat b b'.
Proof.
  induction a as [|x a IH]; intros [|y a'] b b' L; try discriminate; [reflexivity|]. cbn [app compat].
  rewrite IH by (simpl in L; lia). rewrite andb_assoc. reflexivity.
Qed.

Lemma compat_refl a : compat a a = true.
Proof. induction a as [|x a IH]; [reflexivity|]. cbn [compat]. rewrite Nat.eqb_refl, IH. reflexivity. Qed.

Lemma compat_ones n : forall l, List.length l = n -> compat (repeat 1%nat n) l = true.
Proof. induction n as [|n IH]; intros [|x l] L; try discriminate; [reflexivity|]. cbn [repeat compat]. rewrite IH by (simpl in L; lia). rewrite orb_true_r. reflexivity. Qed.

Lemma compat_iff a : forall b, compat a b = true <-> Forall2 (fun s t => s = t \/ s = 1%nat) a b.
Proof.
  induction a as [|x a IH]; intros [|y b]; cbn [compat]; split; intros H; try discriminate; try constructor; try (inversion H; fail).
  - apply andb_prop in H as [H _]. apply orb_prop in H as [H|H]; apply Nat.eqb_eq in H; auto.
  - apply andb_prop in H as [_ H]. apply IH, H.
  - inversion H as [|? ? ? ? Hxy Hab]; subst. apply IH in Hab. rewrite Hab, andb_true_r.
    destruct Hxy as [->| ->]; [rewrite Nat.eqb_refl; reflexivity|apply orb_true_r].
Qed.

Lemma compat_len a b : compat a b = true -> List.length a = List.length b.
Proof. intros H. apply compat_iff in H. induction H; simpl; congruence. Qed.

Lemma extends_iff src bs :
  extends src bs <-> (Nat.leb (List.length src) (List.length bs) && compat (pad bs src) bs) = true.
Proof.
  unfold extends, pad. split.
  - intros (front & back & -> & F). apply compat_iff in F. pose proof (compat_len _ _ F) as L. rewrite app_length.
    replace (Nat.leb (List.length src) (List.length front + List.length back)) with true by (symmetry; apply Nat.leb_le; lia).
    replace (List.length front + List.length back - List.length src)%nat with (List.length front) by lia.
    rewrite compat_app by (rewrite repeat_length; reflexivity). rewrite F, compat_ones by reflexivity. reflexivity.
  - intros H. apply andb_prop in H as [H1 H2]. apply Nat.leb_le in H1. set (n := (List.length bs - List.length src)%nat) in *.
    exists (firstn n bs), (skipn n bs). split; [symmetry; apply firstn_skipn|]. apply compat_iff.
    rewrite <- (firstn_skipn n bs) in H2 at 1. rewrite compat_app in H2.
    + apply andb_prop in H2 as [_ H2]. exact H2.
    + rewrite repeat_length, firstn_length_le; unfold n; lia.
Qed.

Lemma proj_self sh idx : valid_idx sh idx -> proj sh idx = idx.
Proof.
  induction 1 as [|n i sh idx Hi _ IH]; [reflexivity|]. cbn [proj]. rewrite IH. destruct (Nat.eqb_spec n 1) as [->|]; [|reflexivity].
  replace i with 0%nat by lia. reflexivity.
Qed.

Lemma proj_app a : forall b i j, List.length a = List.length i -> proj (a ++ b) (i ++ j) = proj a i ++ proj b j.
Proof. induction a as [|x a IH]; intros b [|y i] j L; try discriminate; [reflexivity|]. cbn [app proj]. rewrite IH by (simpl in L; lia). reflexivity. Qed.

Lemma expand_ok loc nb bs : (exists d, dirac_expand (Dirac loc nb) bs = Ok d) <-> extends (d_batch (Dirac loc nb)) bs.
Proof.
  rewrite extends_iff. unfold dirac_expand, texpand, Dirac. cbn [d_event d_loc d_batch].
  set (b := firstn nb (t_shape loc)). set (e := skipn nb (t_shape loc)).
  assert (Es : t_shape loc = b ++ e) by (symmetry; apply firstn_skipn). rewrite Es, !app_length.
  destruct (Nat.leb_spec (List.length b) (List.length bs)) as [H|H].
  - replace (Nat.leb (List.length b + List.length e) (List.length bs + List.length e)) with true by (symmetry; apply Nat.leb_le; lia).
    cbn [andb]. unfold pad. rewrite !app_length.
    replace (List.length bs + List.length e - (List.length b + List.length e))%nat with (List.length bs - List.length b)%nat by lia.
    rewrite app_assoc, compat_app by (rewrite app_length, repeat_length; lia). rewrite compat_refl, andb_true_r.
    destruct (compat _ bs); cbn; split; intros K; try reflexivity; try discriminate; [eauto|destruct K; discriminate].
  - replace (Nat.leb (List.length b + List.length e) (List.length bs + List.length e)) with false by (symmetry; apply Nat.leb_gt; lia).
    cbn. split; [intros [? K]; discriminate|discriminate].
Qed.

Lemma expand_spec loc nb bs d : well_shaped loc -> dirac_expand (Dirac loc nb) bs = Ok d ->
  let b0 := d_batch (Dirac loc nb) in let e0 := d_event (Dirac loc nb) in
  d_batch d = bs /\ d_event d = e0 /\ t_shape (d_loc d) = bs ++ e0 /\ well_shaped (d_loc d) /\
  forall b e, valid_idx bs b -> valid_idx e0 e ->
    tget (d_loc d) (b ++ e) = tget loc (proj b0 (skipn (List.length bs - List.length b0) b) ++ e).
Proof.
  intros W E. cbv zeta. pose proof (proj1 (expand_ok loc nb bs) (ex_intro _ d E)) as (front & back & Eb & F).
  unfold dirac_expand, bind in E.
  destruct (texpand (bs ++ d_event (Dirac loc nb)) (d_loc (Dirac loc nb))) as [l|] eqn:El; [|discriminate]. injection E as <-.
  cbn [d_batch d_event d_loc]. destruct (texpand_spec _ _ _ W El) as (S1 & S2 & S3). split; [reflexivity|]. split; [reflexivity|].
  split; [exact S1|]. split; [exact S2|]. intros b e Vb Ve. rewrite S3 by (apply Forall2_app; assumption).
  unfold Dirac in *. cbn [d_batch d_event d_loc] in *.
  set (b0 := firstn nb (t_shape loc)) in *. set (e0 := skipn nb (t_shape loc)) in *.
  assert (Es : t_shape loc = b0 ++ e0) by (symmetry; apply firstn_skipn). rewrite Es, !app_length.
  replace (List.length bs + List.length e0 - (List.length b0 + List.length e0))%nat with (List.length bs - List.length b0)%nat by lia.
  pose proof (valid_len _ _ Vb) as Lb. pose proof (compat_len _ _ (proj2 (compat_iff _ _) F)) as Lf.
  assert (Hle : (List.length b0 <= List.length bs)%nat) by (rewrite Eb, app_length; lia).
  rewrite skipn_app. replace (List.length bs - List.length b0 - List.length b)%nat with 0%nat by lia. cbn [skipn].
  rewrite proj_app by (rewrite skipn_length; lia). rewrite (proj_self e0 e Ve). reflexivity.
Qed.

(* samples of the expanded law *)
Lemma expand_rsample loc nb bs d ss : well_shaped loc -> dirac_expand (Dirac loc nb) bs = Ok d ->
  let b0 := d_batch (Dirac loc nb) in let e0 := d_event (Dirac loc nb) in
  t_shape (dirac_rsample d ss) = ss ++ bs ++ e0 /\
  forall s b e, valid_idx ss s -> valid_idx bs b -> valid_idx e0 e ->
    tget (dirac_rsample d ss) (s ++ b ++ e) = tget loc (proj b0 (skipn (List.length bs - List.length b0) b) ++ e).
Proof.
  intros W E b0 e0. destruct (expand_spec loc nb bs d W E) as (B & V & S & W' & G).
  unfold dirac_rsample, expand_front, tget. cbn [t_shape t_data]. rewrite B, V. split; [reflexivity|].
  unfold well_shaped in W'. intros s b e Vs Vb Ve. rewrite (flat_app ss s Vs). rewrite <- S, <- W'.
  rewrite nth_concat_repeat; [|rewrite W'; apply flat_lt; rewrite S; apply Forall2_app; assumption|apply flat_lt, Vs].
  rewrite S. pose proof (G b e Vb Ve) as G'. unfold tget in G'. rewrite S in G'. exact G'.
Qed.

(* ---- moments ---- *)
Lemma sample_mean loc nb n idx : well_shaped loc -> (0 < n)%nat -> valid_idx (t_shape loc) idx ->
  let t := dirac_rsample (Dirac loc nb) [n] in
  rsum (map (fun i => rval (tget t (i :: idx))) (seq 0 n)) / INR n = rval (tget (dirac_mean (Dirac loc nb)) idx) /\
  rsum (map (fun i => (rval (tget t (i :: idx)) - rval (tget (dirac_mean (Dirac loc nb)) idx)) ^ 2) (seq 0 n)) / INR n =
    rval (tget (dirac_variance (Dirac loc nb)) idx).
Proof.
  intros W Hn V t. destruct (rsample_spec loc nb [n] W) as (_ & _ & G). fold t in G. cbn [Dirac dirac_mean d_loc].
  set (r := rval (tget loc idx)).
  assert (Ht : forall i, In i (seq 0 n) -> rval (tget t (i :: idx)) = r).
  { intros i Hi. apply in_seq in Hi. unfold r. rewrite <- (G [i] idx); [reflexivity| |exact V]. repeat constructor. lia. }
  assert (HN : INR n <> 0) by (apply not_0_INR; lia).
  assert (Hs : forall x l, rsum (map (fun _ : nat => x) l) = INR (List.length l) * x).
  { intros x l. induction l as [|a l IH]; [simpl; ring|]. cbn [map rsum List.length]. rewrite IH, S_INR. ring. }
  split.
  - rewrite (map_ext_in _ (fun _ => r) _ Ht), Hs, seq_length. field. exact HN.
  - rewrite (map_ext_in _ (fun _ => 0)).
    + rewrite Hs, seq_length. unfold dirac_variance, tget. cbn [t_data t_shape d_loc Dirac]. rewrite nth_error_map.
      destruct (nth_error _ _); cbn; field; exact HN.
    + intros i Hi. rewrite (Ht i Hi). ring.
Qed.

Lemma mode_best loc nb v : well_shaped loc -> finite_list (t_data loc) -> finite_list v -> List.length v = prod (t_shape loc) ->
  xle (dirac_log_prob (Dirac loc nb) [] v) (dirac_log_prob (Dirac loc nb) [] (t_data (dirac_mode (Dirac loc nb)))) = true.
Proof.
  intros W F Fv L. destruct (log_prob_finite loc nb [] (t_data loc) W F F W) as [H1 _].
  assert (E : t_data loc = t_data (dirac_rsample (Dirac loc nb) [])).
  { unfold dirac_rsample, expand_front, Dirac. cbn. rewrite app_nil_r. reflexivity. }
  cbn [dirac_mode Dirac d_loc]. rewrite (H1 E). destruct (log_prob_finite loc nb [] v W F Fv L) as [H2 H3].
  destruct (list_eq_dec xr_eq_dec v (t_data (dirac_rsample (Dirac loc nb) []))) as [D|D].
  - rewrite (H2 D). unfold xle. cbn. apply orb_true_iff. right. apply Reqb_true. reflexivity.
  - rewrite (H3 D). reflexivity.
Qed.
